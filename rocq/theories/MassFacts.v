From Verif Require Import Py Vec VecDeriv PropsM PropsFacts SpecProps Mass SpecMass.
From Coq Require Import Lra.
Local Open Scope R_scope.

(** ** Stored matrices are up to date *)
Definition inv (B : dmesh) (s : msim) : Prop :=
  s_mesh s = B /\ forall sd k,
    (forall d, s_m s sd k = Some d -> exists v, current s sd = Ok v /\ d = diag_of (B k) v) /\
    (forall d, s_i s sd k = Some d -> exists v, current s sd = Ok v /\ d = vinv (diag_of (B k) v)) /\
    (forall d, s_d s sd k = Some d -> new_d s sd k = Ok d).
Lemma inv_empty B s : s_mesh s = B -> nothing_stored s -> inv B s.
Proof. intros E N. split; [assumption|]. intros sd k. destruct (N sd k) as (A & C & D). repeat split; intros d Hd; congruence. Qed.
Lemma empty_clear s : nothing_stored (clear s).
Proof. intros sd k. repeat split. Qed.
Lemma store_some {A} (c : side -> kind -> option A) sd k a sd' k' d : store c sd k a sd' k' = Some d -> (sd' = sd /\ k' = k /\ d = a) \/ c sd' k' = Some d.
Proof.
  unfold store. destruct (sd_eqb sd sd') eqn:E1, (kind_eqb k k') eqn:E2; cbn; auto.
  intros [= <-]. left. destruct sd, sd', k, k'; cbn in *; try discriminate; auto.
Qed.
Lemma get_m_inv B s sd k : inv B s -> inv B (fst (get_m s sd k)) /\ snd (get_m s sd k) = (do v <- current s sd; Ok (diag_of (B k) v)) /\
  s_prop (fst (get_m s sd k)) = s_prop s /\ s_model (fst (get_m s sd k)) = s_model s.
Proof.
  intros [E I]; subst B. unfold get_m. destruct (s_m s sd k) as [d|] eqn:Hm.
  - destruct (proj1 (I sd k) d Hm) as (v & -> & ->). cbn. split; [split; [reflexivity|assumption]|auto].
  - destruct (current s sd) as [v|e] eqn:C; cbn [fst snd bind]; [|split; [split; [reflexivity|assumption]|auto]].
    split; [|auto]. split; [reflexivity|]. intros sd' k'. cbn [s_m s_i s_d].
    destruct (I sd' k') as (I1 & I2 & I3). split; [|split; [exact I2|exact I3]].
    intros d Hd. apply store_some in Hd. destruct Hd as [(-> & -> & ->)|Hd]; [exists v; split; [exact C|reflexivity]|exact (I1 d Hd)].
Qed.
Lemma get_i_inv B s sd k : inv B s -> inv B (fst (get_i s sd k)) /\ snd (get_i s sd k) = (do v <- current s sd; Ok (vinv (diag_of (B k) v))) /\
  s_prop (fst (get_i s sd k)) = s_prop s /\ s_model (fst (get_i s sd k)) = s_model s.
Proof.
  intros [E I]; subst B. unfold get_i. destruct (s_i s sd k) as [d|] eqn:Hm.
  - destruct (proj1 (proj2 (I sd k)) d Hm) as (v & -> & ->). cbn. split; [split; [reflexivity|assumption]|auto].
  - destruct (current s sd) as [v|e] eqn:C; cbn [fst snd bind]; [|split; [split; [reflexivity|assumption]|auto]].
    split; [|auto]. split; [reflexivity|]. intros sd' k'. cbn [s_m s_i s_d].
    destruct (I sd' k') as (I1 & I2 & I3). split; [exact I1|split; [|exact I3]].
    intros d Hd. apply store_some in Hd. destruct Hd as [(-> & -> & ->)|Hd]; [exists v; split; [exact C|reflexivity]|exact (I2 d Hd)].
Qed.
Lemma get_d_inv B s sd k : inv B s -> inv B (fst (get_d s sd k)) /\ snd (get_d s sd k) = new_d s sd k /\
  s_prop (fst (get_d s sd k)) = s_prop s /\ s_model (fst (get_d s sd k)) = s_model s.
Proof.
  intros [E I]; subst B. unfold get_d. destruct (s_d s sd k) as [d|] eqn:Hm.
  - rewrite (proj2 (proj2 (I sd k)) d Hm). cbn. split; [split; [reflexivity|assumption]|auto].
  - destruct (new_d s sd k) as [v|e] eqn:C; cbn [fst snd bind]; [|split; [split; [reflexivity|assumption]|auto]].
    split; [|auto]. split; [reflexivity|]. intros sd' k'. cbn [s_m s_i s_d].
    destruct (I sd' k') as (I1 & I2 & I3). split; [exact I1|split; [exact I2|]].
    intros d Hd. apply store_some in Hd. destruct Hd as [(-> & -> & ->)|Hd]; [exact C|exact (I3 d Hd)].
Qed.
Lemma mderiv_inv B s sd k u a : inv B s -> inv B (fst (mderiv s sd k u a)) /\
  snd (mderiv s sd k u a) = match read_map (s_prop s) sd with None => Ok OZero | Some _ => do M <- new_d s sd k; Ok (inner_op (ncols s) M u a) end /\
  s_prop (fst (mderiv s sd k u a)) = s_prop s /\ s_model (fst (mderiv s sd k u a)) = s_model s.
Proof.
  intros I. unfold mderiv. destruct (read_map (s_prop s) sd); [|cbn; auto].
  destruct (get_d_inv B s sd k I) as (A & C & D & E). destruct (get_d s sd k) as [s1 r]. cbn [fst snd] in *. subst r. auto.
Qed.
Lemma ideriv_inv B s sd k u a : inv B s -> inv B (fst (ideriv s sd k u a)) /\
  snd (ideriv s sd k u a) = match read_map (s_prop s) sd with None => Ok OZero | Some _ =>
    do v <- current s sd; do M <- new_d s sd k; let d := vinv (diag_of (B k) v) in Ok (inner_op (ncols s) M (map (fun c => vmul d (vmul d (vopp c))) u) a) end.
Proof.
  intros I. unfold ideriv. destruct (read_map (s_prop s) sd) as [f|] eqn:F; [|cbn; auto].
  destruct (get_i_inv B s sd k I) as (A & C & D & E). destruct (get_i s sd k) as [s1 r]. cbn [fst snd] in *. subst r.
  destruct (current s sd) as [v|e]; cbn [bind]; [|auto].
  match goal with |- context[mderiv s1 sd k ?u' a] => destruct (mderiv_inv B s1 sd k u' a A) as (G & H & _) end.
  split; [exact G|]. rewrite H, D, F. unfold new_d, ncols. rewrite E, D, (proj1 A). destruct I as [-> _]. reflexivity.
Qed.

Lemma close_refl x : close x x = true.
Proof. unfold close. rewrite Rminus_eq_0, Rabs_R0. destruct (Rle_dec _ _) as [|N]; [reflexivity|]. exfalso; apply N. pose proof (Rabs_pos x). lra. Qed.
Lemma current_no_map s sd m : read_map (s_prop s) P = None -> current (put_model s m) sd = current s sd.
Proof.
  intros H. unfold current, read_value, put_model. cbn [s_prop s_model].
  assert (K : read_map (s_prop s) sd = None).
  { destruct sd; [exact H|]. unfold read_map in *. cbn [getm other] in *. destruct (m_p (s_prop s)); [discriminate|]. destruct (m_q (s_prop s)); [discriminate|reflexivity]. }
  rewrite K. reflexivity.
Qed.
Lemma new_d_no_map s sd k : read_map (s_prop s) P = None -> exists e, new_d s sd k = Err e.
Proof.
  intros H. assert (K : read_map (s_prop s) sd = None).
  { destruct sd; [exact H|]. unfold read_map in *. cbn [getm other] in *. destruct (m_p (s_prop s)); [discriminate|]. destruct (m_q (s_prop s)); [discriminate|reflexivity]. }
  unfold new_d, read_deriv. rewrite K. destruct (s_model s); eauto.
Qed.
Lemma inv_model B s m : inv B s -> careful s (MModel m) -> inv B (fst (assign_model s m)).
Proof.
  intros I C. unfold assign_model. destruct m as [v|].
  - destruct (read_map (s_prop s) P) as [f|] eqn:F; [|exact I]. destruct (fits (length v) (pm_in f)); [|exact I].
    destruct (s_model s) as [u|] eqn:Hu.
    + destruct (allclose u v) as [[]|e] eqn:A; cbn [fst].
      * cbn in C. rewrite Hu in C. destruct C as [->|C]; [|contradiction]. replace (put_model s (Some v)) with s; [exact I|]. unfold put_model. rewrite <- Hu. destruct s; reflexivity.
      * apply inv_empty; [apply I|]. intros sd k. repeat split.
      * exact I.
    + apply inv_empty; [apply I|]. intros sd k. repeat split.
  - destruct (s_model s) as [u|] eqn:Hu; [|exact I]. cbn [fst]. unfold has_map. destruct (read_map (s_prop s) P) as [f|] eqn:F.
    + apply inv_empty; [apply I|]. intros sd k. repeat split.
    + destruct I as [E I]. split; [exact E|]. intros sd k. destruct (I sd k) as (I1 & I2 & I3). rewrite (current_no_map s sd None F).
      split; [exact I1|]. split; [exact I2|]. intros d Hd. exfalso. destruct (new_d_no_map s sd k F) as [e He]. pose proof (I3 d Hd). congruence.
Qed.
Lemma inv_step B s o : inv B s -> careful s o -> inv (match o with MMesh B' => B' | _ => B end) (mstep s o).
Proof.
  intros I C. destruct o; cbn [mstep careful] in *.
  - apply inv_empty; [apply I|apply empty_clear].
  - apply inv_empty; [apply I|exact C].
  - apply inv_empty; [apply I|exact C].
  - apply inv_empty; [reflexivity|exact C].
  - apply inv_model; assumption.
  - apply (get_m_inv B); assumption.
  - apply (get_i_inv B); assumption.
  - apply (mderiv_inv B); assumption.
  - apply (ideriv_inv B); assumption.
Qed.
Lemma history_inv B s : history B s -> inv B s.
Proof.
  induction 1 as [B|B s o H IH C]; [|apply inv_step; assumption].
  apply inv_empty; [reflexivity|]. intros sd k. repeat split.
Qed.
Lemma c61_current B s sd k : history B s ->
  snd (get_m s sd k) = (do v <- current s sd; Ok (mv (B k) v)) /\
  snd (get_i s sd k) = (do v <- current s sd; Ok (map (fun x => 1 / x) (mv (B k) v))).
Proof.
  intros H. apply history_inv in H. split; [apply (get_m_inv B); assumption|].
  rewrite (proj1 (proj2 (get_i_inv B s sd k H))). reflexivity.
Qed.

(** ** Derivatives *)
Lemma mmul_mv n p B D v : is_mat p n D -> Forall (fun r => length r = p) B -> length v = n -> mv (mmul n B D) v = mv B (mv D v).
Proof.
  intros HD HB Lv. unfold mmul, mv at 1. rewrite map_map. unfold mv at 1. apply map_ext_in. intros r Hr.
  symmetry. apply (mv_mtv_adjoint p n); [assumption| |assumption]. rewrite Forall_forall in HB. apply HB; assumption.
Qed.
Lemma mmul_mat nk p n B D : is_mat nk p B -> is_mat p n D -> is_mat nk n (mmul n B D).
Proof.
  intros [LB HB] HD. split; [unfold mmul; rewrite map_length; assumption|]. apply Forall_forall. intros r Hr. unfold mmul in Hr. apply in_map_iff in Hr.
  destruct Hr as (r' & <- & Hr'). apply (mtv_length p); assumption.
Qed.
Lemma applied_jac nk n p B f x u : is_mat nk p B -> jac_at n p f x -> length u = nk ->
  has_jacobian n nk (applied B f u) x (fun v => vmul u (mv (mmul n B (pm_deriv f x)) v)).
Proof.
  intros HB (Lx & LF & HD & HJ) Lu h Lh. unfold applied.
  rewrite (mmul_mv n p) by (try assumption; apply HB).
  pose proof (vderiv_mv nk p B _ 0 _ HB (HJ h Lh)) as V. cbv beta in V.
  pose proof (vderiv_mul nk _ (fun _ => u) 0 _ _ V (vderiv_const nk u 0 Lu)) as W. cbv beta in W.
  replace (vmul u (mv B (mv (pm_deriv f x) h))) with
    (vadd (vmul (mv B (mv (pm_deriv f x) h)) u) (vmul (mv B (pm_val f (vadd x (vscale 0 h)))) (vzero nk))); [exact W|].
  assert (LB : forall w, length (mv B w) = nk) by (intros; rewrite mv_length; apply HB).
  apply vec_ext.
  - rewrite vadd_length; rewrite ?vmul_length; rewrite ?LB, ?vzero_length; congruence.
  - intros i Hi. rewrite vadd_length, vmul_length, LB in Hi by (rewrite ?vmul_length; rewrite ?LB, ?vzero_length; congruence).
    rewrite nth_vadd, !nth_vmul, nth_zero by (rewrite ?vmul_length; rewrite ?LB, ?vzero_length; congruence). ring.
Qed.
Lemma new_d_some B s sd k f x : inv B s -> read_map (s_prop s) sd = Some f -> s_model s = Some x -> new_d s sd k = Ok (mmul (length x) (B k) (pm_deriv f x)).
Proof. intros [E _] F M. unfold new_d, read_deriv. rewrite F, M, E. reflexivity. Qed.
Lemma c61_derivative B s sd k f x n p nk : history B s -> read_map (s_prop s) sd = Some f -> s_model s = Some x -> jac_at n p f x -> is_mat nk p (B k) ->
  exists J, (forall us v, length v = n -> snd (mderiv s sd k us (Along v)) = Ok (OCols (map (fun u => J u v) us))) /\
    forall u, length u = nk -> has_jacobian n nk (applied (B k) f u) x (J u).
Proof.
  intros H F M HJ HB. apply history_inv in H. exists (fun u v => vmul u (mv (mmul n (B k) (pm_deriv f x)) v)). split.
  - intros us v Lv. destruct (mderiv_inv B s sd k us (Along v) H) as (_ & -> & _). rewrite F, (new_d_some B s sd k f x H F M).
    cbn [bind inner_op]. rewrite (proj1 HJ). reflexivity.
  - intros u Lu. apply (applied_jac nk n p); assumption.
Qed.
Lemma c61_adjoint B s sd k f x n p nk us ws v : history B s -> read_map (s_prop s) sd = Some f -> s_model s = Some x -> jac_at n p f x -> is_mat nk p (B k) ->
  length us = length ws -> Forall (fun u => length u = nk) us -> Forall (fun w => length w = nk) ws -> length v = n ->
  exists c g, snd (mderiv s sd k us (Along v)) = Ok (OCols c) /\ snd (mderiv s sd k us (Adj ws)) = Ok (OVec g) /\
    vsum (map (fun cw => dot (fst cw) (snd cw)) (combine c ws)) = dot v g.
Proof.
  intros H F M HJ HB LL LU LW Lv. apply history_inv in H. pose proof (new_d_some B s sd k f x H F M) as ND.
  destruct (mderiv_inv B s sd k us (Along v) H) as (_ & -> & _). destruct (mderiv_inv B s sd k us (Adj ws) H) as (_ & -> & _).
  rewrite F, ND. cbn [bind inner_op]. unfold ncols. rewrite M, (proj1 HJ). eexists; eexists. split; [reflexivity|]. split; [reflexivity|].
  set (A := mmul n (B k) (pm_deriv f x)). assert (HA : is_mat nk n A) by (apply (mmul_mat nk p n); [assumption|apply HJ]). clearbody A.
  assert (LS : forall l, Forall (fun c => length c = nk) l -> length (vsums (length A) l) = nk).
  { induction 1 as [|c l Hc Hl IH]; unfold vsums in *; cbn [fold_right]; [rewrite vzero_length; apply HA|]. rewrite vadd_length; congruence. }
  assert (LP : Forall (fun c => length c = nk) (map (fun cw => vmul (fst cw) (snd cw)) (combine us ws))).
  { apply Forall_forall. intros c Hc. apply in_map_iff in Hc. destruct Hc as ([a b] & <- & Hab). pose proof (in_combine_l _ _ _ _ Hab). pose proof (in_combine_r _ _ _ _ Hab).
    rewrite Forall_forall in LU, LW. cbn. rewrite vmul_length; rewrite (LU a), ?(LW b) by assumption; reflexivity. }
  rewrite dot_comm, <- (mv_mtv_adjoint nk n) by (try assumption; apply LS; exact LP).
  assert (Lm : length (mv A v) = nk) by (rewrite mv_length; apply HA). set (y := mv A v) in *. clearbody y. clear LP.
  revert ws LL LW. induction LU as [|u us Hu LU IH]; intros [|w ws] LL LW; cbn in LL; try lia.
  - cbn. rewrite dot_zero_l. reflexivity.
  - cbn [map combine fst snd vsum vsums fold_right]. pose proof (Forall_inv LW) as Hw. cbv beta in Hw.
    rewrite IH; [|lia|exact (Forall_inv_tail LW)]. fold (vsums (length A) (map (fun cw => vmul (fst cw) (snd cw)) (combine us ws))).
    rewrite dot_vadd_l.
    + f_equal. clear - Hu Hw Lm. subst nk. revert w y Hw Lm. induction u as [|a u IHu]; intros [|b w] [|c y] Hw Lm; cbn in *; try lia; [reflexivity|].
      unfold vmul in IHu. fold vmul in *. rewrite IHu by lia. ring.
    + rewrite vmul_length by congruence. rewrite LS; [assumption|]. apply Forall_forall. intros c Hc. apply in_map_iff in Hc. destruct Hc as ([a b] & <- & Hab).
      pose proof (in_combine_l _ _ _ _ Hab). pose proof (in_combine_r _ _ _ _ Hab). pose proof (Forall_inv_tail LW) as LW'. rewrite Forall_forall in LU, LW'. cbn. rewrite vmul_length; rewrite (LU a), ?(LW' b) by assumption; reflexivity.
Qed.
Lemma c61_matrix B s sd k f x n p nk us v : history B s -> read_map (s_prop s) sd = Some f -> s_model s = Some x -> jac_at n p f x -> is_mat nk p (B k) ->
  Forall (fun u => length u = nk) us -> length v = n ->
  exists A c, snd (mderiv s sd k us AsMatrix) = Ok (OMat A) /\ snd (mderiv s sd k us (Along v)) = Ok (OCols c) /\ mv A v = concat c.
Proof.
  intros H F M HJ HB LU Lv. apply history_inv in H. pose proof (new_d_some B s sd k f x H F M) as ND.
  destruct (mderiv_inv B s sd k us (Along v) H) as (_ & -> & _). destruct (mderiv_inv B s sd k us AsMatrix H) as (_ & -> & _).
  rewrite F, ND. cbn [bind inner_op]. rewrite (proj1 HJ). eexists; eexists. split; [reflexivity|]. split; [reflexivity|].
  set (A := mmul n (B k) (pm_deriv f x)). assert (HA : is_mat nk n A) by (apply (mmul_mat nk p n); [assumption|apply HJ]). clearbody A.
  induction LU as [|u us Hu LU IH]; [reflexivity|]. cbn [flat_map map concat]. rewrite <- IH. unfold mv at 1. rewrite map_app.
  f_equal. rewrite <- scale_rows_mv; [reflexivity|]. rewrite Hu. symmetry; apply HA.
Qed.
(** ** The inverse *)
Lemma solved_jac nk n p B f x u : is_mat nk p B -> jac_at n p f x -> length u = nk -> (forall i, (i < nk)%nat -> nth i (mv B (pm_val f x)) 0 <> 0) ->
  let d := vinv (mv B (pm_val f x)) in
  has_jacobian n nk (solved B f u) x (fun v => vmul (vmul d (vmul d (vopp u))) (mv (mmul n B (pm_deriv f x)) v)).
Proof.
  intros HB (Lx & LF & HD & HJ) Lu NZ d h Lh. unfold solved.
  rewrite (mmul_mv n p) by (try assumption; apply HB).
  pose proof (vderiv_mv nk p B _ 0 _ HB (HJ h Lh)) as (V1 & V2 & V3). cbv beta in V1, V2, V3.
  assert (LB : forall w, length (mv B w) = nk) by (intros; rewrite mv_length; apply HB).
  assert (Ld : length d = nk) by (unfold d; rewrite vinv_length; apply LB).
  assert (E0 : vadd x (vscale 0 h) = x) by (rewrite vscale_0, Lh; apply vadd_zero_r; assumption).
  assert (L1 : length (vmul d (vopp u)) = nk) by (rewrite vmul_length; rewrite ?vopp_length; congruence).
  assert (L2 : length (vmul d (vmul d (vopp u))) = nk) by (rewrite vmul_length; congruence).
  split; [intros t; rewrite vdiv_length; rewrite ?LB; congruence|]. split; [rewrite vmul_length; rewrite ?LB; congruence|].
  intros i Hi. rewrite !nth_vmul by (rewrite ?vopp_length, ?LB; congruence).
  unfold d. rewrite vinv_nth by (rewrite LB; assumption). unfold vopp. rewrite map_nth_lt by congruence.
  apply (dpl_ext (fun t => nth i u 0 / nth i (mv B (pm_val f (vadd x (vscale t h)))) 0)).
  { intros t. unfold vdiv. rewrite zipw_nth by (rewrite ?LB; congruence). reflexivity. }
  specialize (V3 i Hi). specialize (NZ i Hi).
  eapply dpl_eq; [|apply (derivable_pt_lim_div (fun _ => nth i u 0) (fun t => nth i (mv B (pm_val f (vadd x (vscale t h)))) 0) 0 0 (nth i (mv B (mv (pm_deriv f x) h)) 0)); [apply dpl_const|exact V3|rewrite E0; exact NZ]].
  rewrite E0. unfold Rsqr. field. exact NZ.
Qed.
Lemma c61_inverse B s sd k f x n p nk : history B s -> read_map (s_prop s) sd = Some f -> s_model s = Some x -> current s sd = Ok (pm_val f x) ->
  jac_at n p f x -> is_mat nk p (B k) -> (forall i, (i < nk)%nat -> nth i (mv (B k) (pm_val f x)) 0 <> 0) ->
  exists J, (forall us v, length v = n -> snd (ideriv s sd k us (Along v)) = Ok (OCols (map (fun u => J u v) us))) /\
    forall u, length u = nk -> has_jacobian n nk (solved (B k) f u) x (J u).
Proof.
  intros H F M C HJ HB NZ. apply history_inv in H. set (d := vinv (mv (B k) (pm_val f x))).
  exists (fun u v => vmul (vmul d (vmul d (vopp u))) (mv (mmul n (B k) (pm_deriv f x)) v)). split.
  - intros us v Lv. rewrite (proj2 (ideriv_inv B s sd k us (Along v) H)). rewrite F, (new_d_some B s sd k f x H F M), C.
    cbn [bind inner_op]. rewrite (proj1 HJ), map_map. reflexivity.
  - intros u Lu. apply (solved_jac nk n p); assumption.
Qed.
(** With a mapping in use and a model, the property is the mapping's value. *)
Lemma history_wf B s : history B s -> exists ops, s_prop s = fold_left pstep ops pst0.
Proof.
  induction 1 as [B|B s o H (ops & IH) C]; [exists []; reflexivity|].
  assert (K : forall o', exists ops', pstep (s_prop s) o' = fold_left pstep ops' pst0) by (intros o'; exists (ops ++ [o']); rewrite fold_left_app, <- IH; reflexivity).
  assert (S : exists ops', s_prop s = fold_left pstep ops' pst0) by (exists ops; exact IH).
  pose proof (history_inv B s H) as I.
  destruct o as [sd v|sd|sd f|B'|m|sd k|sd k|sd k u a|sd k u a]; cbn [mstep set_prop del_prop assign_map assign_mesh clear with_prop s_prop].
  - destruct v as [v|]; [exact (K (SetValue sd v))|exact (K (ClearValue sd))].
  - exact (K (ClearValue sd)).
  - destruct f as [f|]; [exact (K (SetMap sd f))|exact (K (ClearMap sd))].
  - exact S.
  - unfold assign_model. destruct m as [v|].
    + destruct (read_map (s_prop s) P); [|exact S]. destruct (fits _ _); [|exact S]. destruct (s_model s); [|exact S]. destruct (allclose _ _) as [[]|]; exact S.
    + destruct (s_model s); [|exact S]. destruct (has_map s); exact S.
  - rewrite (proj1 (proj2 (proj2 (get_m_inv B s sd k I)))). exact S.
  - rewrite (proj1 (proj2 (proj2 (get_i_inv B s sd k I)))). exact S.
  - rewrite (proj1 (proj2 (proj2 (mderiv_inv B s sd k u a I)))). exact S.
  - unfold ideriv. destruct (read_map (s_prop s) sd); [|exact S]. destruct (get_i_inv B s sd k I) as (A1 & A2 & A3 & A4). destruct (get_i s sd k) as [s1 r]. cbn [fst snd] in *.
    destruct r as [d|e]; cbn [fst]; [|rewrite A3; exact S]. rewrite (proj1 (proj2 (proj2 (mderiv_inv B s1 sd k _ a A1)))), A3. exact S.
Qed.
Lemma c61_value B s sd f x : history B s -> read_map (s_prop s) sd = Some f -> s_model s = Some x -> current s sd = Ok (pm_val f x).
Proof.
  intros H F M. destruct (history_wf B s H) as [ops E]. pose proof (holds_run ops) as W. rewrite <- E in W.
  unfold current, read_value. rewrite F, M.
  assert (N : forall sd', getv (s_prop s) sd' = None).
  { intros sd'. destruct (getv (s_prop s) sd') as [v|] eqn:V; [|reflexivity]. apply (proj1 W) in V.
    unfold read_map in F. destruct (getm (s_prop s) sd) as [g|] eqn:G.
    - apply (proj2 W) in G. congruence.
    - destruct (getm (s_prop s) (other sd)) as [g|] eqn:G'; [|discriminate]. apply (proj2 W) in G'. congruence. }
  rewrite !N. reflexivity.
Qed.
