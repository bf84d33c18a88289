From Verif Require Import Py Vec VecDeriv PropsM PropsFacts SpecProps Mass SpecMass MassFacts.
From Coq Require Import Lra.
Local Open Scope R_scope.

Lemma c61_solves B s sd k v : history B s -> current s sd = Ok v -> (forall i, (i < length (B k))%nat -> nth i (mv (B k) v) 0 <> 0) ->
  exists M MI, snd (get_m s sd k) = Ok M /\ snd (get_i s sd k) = Ok MI /\ vmul MI M = vconst (length (B k)) 1.
Proof.
  intros H C NZ. destruct (c61_current B s sd k H) as [-> ->]. rewrite C. cbn [bind]. eexists; eexists. split; [reflexivity|]. split; [reflexivity|].
  assert (L : length (map (fun x => 1 / x) (mv (B k) v)) = length (B k)) by (rewrite map_length, mv_length; reflexivity).
  assert (L2 : length (vmul (map (fun x => 1 / x) (mv (B k) v)) (mv (B k) v)) = length (B k)) by (rewrite vmul_length; rewrite ?mv_length; congruence).
  apply vec_ext; [rewrite vconst_length; exact L2|]. rewrite L2. intros i Hi.
  rewrite nth_vmul by (rewrite ?mv_length; congruence). rewrite map_nth_lt by (rewrite mv_length; assumption).
  rewrite (nth_indep (vconst _ _) 0 1) by (rewrite vconst_length; assumption). unfold vconst. rewrite nth_repeat. field. apply NZ; assumption.
Qed.
Lemma c61_no_map B s sd k us a m : history B s -> read_map (s_prop s) sd = None ->
  snd (mderiv s sd k us a) = Ok OZero /\ snd (ideriv s sd k us a) = Ok OZero /\ current (put_model s m) sd = current s sd.
Proof.
  intros H F. apply history_inv in H. split; [|split].
  - rewrite (proj1 (proj2 (mderiv_inv B s sd k us a H))), F. reflexivity.
  - rewrite (proj2 (ideriv_inv B s sd k us a H)), F. reflexivity.
  - apply current_no_map. destruct sd; [exact F|]. unfold read_map in *. cbn [getm other] in *.
    destruct (m_q (s_prop s)); [discriminate|]. destruct (m_p (s_prop s)); [discriminate|reflexivity].
Qed.
Lemma scale_rows_mat p n d J : length d = p -> is_mat p n J -> is_mat p n (scale_rows d J).
Proof.
  intros Ld [LJ HJ]. unfold scale_rows. split; [rewrite map_length, combine_length; lia|].
  apply Forall_forall. intros r Hr. apply in_map_iff in Hr. destruct Hr as ([a b] & <- & Hab). cbn [fst snd]. rewrite ?vscale_length.
  rewrite Forall_forall in HJ. apply HJ. exact (in_combine_r _ _ _ _ Hab).
Qed.
Lemma c61_reciprocal n p f x : jac_at n p f x -> (forall i, (i < p)%nat -> nth i (pm_val f x) 0 <> 0) -> jac_at n p (recip_map f) x.
Proof.
  intros (Lx & LF & HD & HJ) NZ. split; [assumption|]. split; [intros y Ly; cbn; rewrite vinv_length; auto|]. split.
  - cbn. apply scale_rows_mat; [rewrite map_length; auto|assumption].
  - apply recip_map_jacobian; [apply HD|assumption|assumption|assumption].
Qed.
(** The findings. *)
Lemma c61_stale_map : exists B l sd k v, let s := mrun (sim_init B) l in current s sd = Ok v /\ snd (get_m s sd k) <> Ok (mv (B k) v) /\
  exists f, l = [MMap P (Some idmap); MModel (Some [1; 1]); MRead P Cc; MMap P (Some f)].
Proof.
  exists mesh23, [MMap P (Some idmap); MModel (Some [1; 1]); MRead P Cc; MMap P (Some twice)], P, Cc, [2 * 1; 2 * 1].
  split; [reflexivity|]. split; [|eexists; reflexivity].
  change (Ok (mv [[2; 0]; [0; 3]] [1; 1]) <> Ok (mv [[2; 0]; [0; 3]] [2 * 1; 2 * 1])). unfold mv, map. cbn [dot]. intros E. injection E. intros. lra.
Qed.
Lemma c61_stale_mesh : exists B B' l sd k v, let s := mrun (sim_init B) (l ++ [MMesh B']) in current s sd = Ok v /\ snd (get_m s sd k) <> Ok (mv (B' k) v).
Proof.
  exists mesh23, mesh55, [MProp P (Some [1; 1]); MRead P Cc], P, Cc, [1; 1].
  split; [reflexivity|].
  change (Ok (mv [[2; 0]; [0; 3]] [1; 1]) <> Ok (mv [[5; 0]; [0; 5]] [1; 1])). unfold mv, map. cbn [dot]. intros E. injection E. intros. lra.
Qed.
Lemma c61_deleted : exists B l sd k e d, let s := mrun (sim_init B) l in current s sd = Err e /\ snd (get_m s sd k) = Ok d.
Proof.
  exists mesh23, [MProp P (Some [1; 1]); MRead P Cc; MDel P], P, Cc, AttributeError. eexists. split; reflexivity.
Qed.
Lemma c61_close : exists B l sd k v, let s := mrun (sim_init B) l in current s sd = Ok v /\ snd (get_m s sd k) <> Ok (mv (B k) v) /\
  exists u w, l = [MMap P (Some idmap); MModel (Some u); MRead P Cc; MModel (Some w)].
Proof.
  exists mesh23, [MMap P (Some idmap); MModel (Some [1; 1]); MRead P Cc; MModel (Some [1 + / 1000000000; 1])], P, Cc, [1 + / 1000000000; 1].
  assert (A : allclose [1; 1] [1 + / 1000000000; 1] = Ok true).
  { unfold allclose. cbn [length Nat.eqb combine forallb fst snd]. rewrite close_refl. unfold close.
    replace (1 - (1 + / 1000000000)) with (- / 1000000000) by ring. rewrite Rabs_Ropp, !Rabs_pos_eq by lra.
    destruct (Rle_dec _ _) as [|N]; [reflexivity|]. exfalso. apply N. lra. }
  cbv zeta. cbn [mrun fold_left mstep].
  set (s2 := fst (get_m (fst (assign_model (assign_map (sim_init mesh23) P (Some idmap)) (Some [1; 1]))) P Cc)).
  assert (E : s2 = mkSim mesh23 (mkPst None None (Some idmap) None) (Some [1; 1]) (store none P Cc (mv (mesh23 Cc) [1; 1])) none none) by reflexivity.
  assert (E2 : fst (assign_model s2 (Some [1 + / 1000000000; 1])) = put_model s2 (Some [1 + / 1000000000; 1])).
  { rewrite E. unfold assign_model. cbn [s_prop read_map getm m_p idmap pm_in fits length Nat.eqb s_model]. rewrite A. reflexivity. }
  rewrite E2, E. split; [reflexivity|]. split; [|eexists; eexists; reflexivity].
  cbv [put_model get_m s_m s_mesh s_prop s_model s_i s_d store sd_eqb kind_eqb andb fst snd none]. unfold mesh23, mv, map. cbn [dot]. intros F. injection F. intros. lra.
Qed.
(** A history with a mapping, a model, reads and a second model, and its ends. *)
Lemma c61_ex : exists s, history mesh23 s /\ read_map (s_prop s) Q = Some (recip_map idmap) /\ s_model s = Some [4; 5] /\
  jac_at 2 2 idmap [4; 5] /\ is_mat 2 2 (mesh23 Fa) /\ s_m s Q Fa <> None.
Proof.
  exists (mrun (sim_init mesh23) [MMap P (Some idmap); MModel (Some [1; 2]); MRead P Cc; MModel (Some [4; 5]); MRead Q Fa]).
  set (s1 := mstep (sim_init mesh23) (MMap P (Some idmap))). set (s2 := mstep s1 (MModel (Some [1; 2]))). set (s3 := mstep s2 (MRead P Cc)). set (s4 := mstep s3 (MModel (Some [4; 5]))).
  assert (A : allclose [1; 2] [4; 5] = Ok false).
  { unfold allclose. cbn [length Nat.eqb combine forallb fst snd]. unfold close at 1. replace (Rabs (1 - 4)) with 3 by (rewrite Rabs_left by lra; ring). rewrite !Rabs_pos_eq by lra.
    destruct (Rle_dec _ _) as [L|N]; [exfalso; lra|reflexivity]. }
  assert (H1 : history mesh23 s1) by (apply (h_step mesh23 (sim_init mesh23) (MMap P (Some idmap))); [constructor|intros sd k; repeat split]).
  assert (H2 : history mesh23 s2) by (apply (h_step mesh23 s1 (MModel (Some [1; 2]))); [exact H1|exact I]).
  assert (H3 : history mesh23 s3) by (apply (h_step mesh23 s2 (MRead P Cc)); [exact H2|exact I]).
  assert (E3 : s3 = mkSim mesh23 (mkPst None None (Some idmap) None) (Some [1; 2]) (store none P Cc (mv (mesh23 Cc) [1; 2])) none none) by reflexivity.
  assert (H4 : history mesh23 s4).
  { apply (h_step mesh23 s3 (MModel (Some [4; 5]))); [exact H3|]. rewrite E3. cbn [careful s_model]. right. rewrite A. discriminate. }
  assert (E4 : s4 = mkSim mesh23 (mkPst None None (Some idmap) None) (Some [4; 5]) none none none).
  { unfold s4. rewrite E3. cbn [mstep]. unfold assign_model. cbn [s_prop read_map getm m_p idmap pm_in fits length Nat.eqb s_model]. rewrite A. reflexivity. }
  cbn [mrun fold_left]. fold s1. fold s2. fold s3. fold s4. split; [|split; [|split; [|split; [|split]]]].
  - apply (h_step mesh23 s4 (MRead Q Fa)); [exact H4|exact I].
  - rewrite E4. reflexivity.
  - rewrite E4. reflexivity.
  - split; [reflexivity|]. split; [intros y Ly; exact Ly|]. split; [split; [reflexivity|repeat constructor]|].
    intros h Lh. destruct h as [|a [|b [|c h]]]; cbn in Lh; try lia.
    replace (mv (pm_deriv idmap [4; 5]) [a; b]) with [a; b] by (cbn; f_equal; [ring|f_equal; ring]).
    apply (vderiv_line 2 [4; 5] [a; b]); reflexivity.
  - split; [reflexivity|repeat constructor].
  - rewrite E4. discriminate.
Qed.
