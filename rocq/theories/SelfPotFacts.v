From Coq Require Import Reals Lra Lia.
From Verif Require Import Py Vec VecDeriv Frechet Joint Richards RichardsFacts RichardsFacts2 RichardsFacts3 LinSimFacts SolveDeriv Dc SpecDc DcFacts DcFacts2 DcFacts3 DcFacts4 JointFacts SelfPot SpecSelfPot.
Local Open Scope R_scope.

Lemma dot_swap w a b : dot (vmul w a) b = dot a (vmul w b).
Proof. revert a b; induction w as [|x w IH]; intros [|y a] [|z b]; cbn; auto. fold (vmul w a) (vmul w b). rewrite IH; ring. Qed.
Section Fresh.
  Context (s : spot) (q : qmap) (rs : list receiver) (OK : spot_ok s q rs).
  Let d := z_dc s.
  Let n := d_n d.
  Let p := q_p q.
  Definition Sv (rho b : vec) : vec := d_solve (z_dc s) (getA (z_dc s) rho) b.
  Lemma SZ : sizes d. Proof. apply OK. Qed.
  Lemma Lvol : length (z_vol s) = n. Proof. apply OK. Qed.
  Lemma MO : map_ok n q. Proof. apply OK. Qed.
  Lemma SR : z_srcs s = [rs]. Proof. apply OK. Qed.
  Lemma crs : concat (z_srcs s) = rs. Proof. rewrite SR. cbn. apply app_nil_r. Qed.
  Lemma Sv_length rho b : length b = n -> length (Sv rho b) = n.
  Proof. intros. destruct SZ as (_ & _ & _ & _ & _ & _ & H'). apply H'. assumption. Qed.
  Lemma rx_mat r : rx_same r -> is_mat (nD r) n (getP d r).
  Proof.
    intros RO. destruct SZ as (_ & _ & _ & _ & _ & I & _). fold n in I. unfold getP, nD. unfold rx_same in RO. destruct (r_n r) as [ns|].
    - split; [rewrite map_length, combine_length; lia|]. apply Forall_forall. intros row Hr. apply in_map_iff in Hr. destruct Hr as (mn & <- & _). pose proof (I (fst mn)). pose proof (I (snd mn)). ln.
    - split; [apply map_length|]. apply Forall_forall. intros row Hr. apply in_map_iff in Hr. destruct Hr as (mn & <- & _). apply I.
  Qed.
  Lemma zP_mat_l l : Forall rx_same l -> is_mat (sp_size l) n (concat (map (getP d) l)).
  Proof.
    intros F. induction F as [|r l Hr F IH]; [split; [reflexivity|constructor]|].
    cbn [map concat]. destruct (rx_mat r Hr) as [L1 F1]. destruct IH as [L2 F2]. split; [rewrite app_length, L1, L2; reflexivity|]. apply Forall_app. auto.
  Qed.
  Lemma zP_mat : is_mat (sp_size rs) n (zP s).
  Proof. unfold zP. rewrite crs. apply zP_mat_l. apply OK. Qed.
  Lemma stack u : concat (map (fun r => mv (getP d r) u) rs) = mv (zP s) u.
  Proof. unfold zP. rewrite crs, mv_concat, map_map. reflexivity. Qed.
  (** pure results *)
  Definition fP (rho m : vec) : vec := Sv rho (vmul (z_vol s) (q_val q m)).
  Definition jP (rho m v : vec) : vec := mv (zP s) (Sv rho (vmul (z_vol s) (mv (q_der q m) v))).
  Definition JP (rho m : vec) : mat := map (fun row => mtv p (q_der q m) (vmul (z_vol s) (Sv rho row))) (zP s).
  Lemma Sv_sym rho : solves n (d_solve d) (getA d rho) -> symmetric n (getA d rho) -> forall a b, length a = n -> length b = n -> dot (Sv rho a) b = dot a (Sv rho b).
  Proof.
    intros SV SY a b La Lb. pose proof (Sv_length rho a La). pose proof (Sv_length rho b Lb).
    rewrite <- (proj1 (SV b Lb)) at 1. fold d. change (d_solve d (getA d rho) b) with (Sv rho b). rewrite SY by assumption.
    f_equal. apply (SV a La).
  Qed.
  Lemma Sv_lin rho : length rho = d_p d -> solves n (d_solve d) (getA d rho) -> lin_map n n (Sv rho).
  Proof.
    intros Lr SV. apply solves_lin; [|apply (Sv_length rho)|exact SV]. apply (lin_act _ _ _ (getA_wf d SZ rho Lr)).
  Qed.
  Lemma JP_mat rho m : length m = p -> is_mat (sp_size rs) p (JP rho m).
  Proof.
    intros Lm. destruct (MO m Lm) as [_ HQ]. split; [unfold JP; rewrite map_length; apply zP_mat|]. apply Forall_forall. intros r Hr. apply in_map_iff in Hr. destruct Hr as (row & <- & _).
    eapply mtv_length. exact HQ.
  Qed.
  Lemma JP_mv rho m v : length rho = d_p d -> length m = p -> length v = p -> solves n (d_solve d) (getA d rho) -> symmetric n (getA d rho) -> mv (JP rho m) v = jP rho m v.
  Proof.
    intros Lr Lm Lv SV SY. unfold JP, jP, mv at 1. rewrite map_map. unfold mv at 1. apply map_ext_in. intros row Hr. destruct (MO m Lm) as [_ HQ]. fold p in HQ. pose proof (proj1 HQ) as LQ.
    assert (Lrow : length row = n). { destruct zP_mat as [_ F]. rewrite Forall_forall in F. apply F. exact Hr. }
    pose proof (Sv_length rho row Lrow) as L1. pose proof Lvol as L2. assert (L3 : length (mv (q_der q m) v) = n) by (rewrite mv_length; apply HQ).
    rewrite <- (mv_mtv_adjoint n p) by (auto; ln). rewrite (dot_swap (z_vol s)). apply Sv_sym; auto. ln.
  Qed.
  (** one receiver after the other *)
  Lemma zjt_ok st m (SA : w_map st = q) rho : w_A st = Some rho -> length rho = d_p d -> length m = p -> solves n (d_solve d) (getA d rho) -> symmetric n (getA d rho) ->
    forall l w acc, Forall rx_same l -> length w = sp_size l -> length acc = p ->
    exists a, zjt s st m l w acc = Ok a /\ length a = p /\ forall v, length v = p -> dot a v = dot acc v + dot w (mv (concat (map (getP d) l)) (Sv rho (vmul (z_vol s) (mv (q_der q m) v)))).
  Proof.
    intros EA Lr Lm SV SY. destruct (MO m Lm) as [_ HQ]. fold p in HQ. pose proof (proj1 HQ) as LQ. induction l as [|r l IH]; intros w acc F Lw La; cbn [zjt].
    - exists acc. split; [reflexivity|]. split; [exact La|]. intros v Lv. destruct w; [cbn; ring|discriminate].
    - pose proof (rx_mat r (Forall_inv F)) as HR. unfold zAinv. rewrite EA. cbn [bind]. fold d n. change (d_solve d (getA d rho)) with (Sv rho).
      cbn [sp_size map list_sum fold_right] in Lw. change (fold_right Nat.add 0%nat (map (fun r0 => length (r_m r0)) l)) with (sp_size l) in Lw.
      assert (L1 : length (firstn (nD r) w) = nD r) by (rewrite firstn_length; unfold nD; lia). assert (L2 : length (skipn (nD r) w) = sp_size l) by (rewrite skipn_length; unfold nD; lia).
      assert (L3 : length (mtv n (getP d r) (firstn (nD r) w)) = n) by (eapply mtv_length; exact HR). pose proof (Sv_length rho _ L3) as L4. pose proof Lvol as L5.
      unfold zrhs_derivT. rewrite SA. fold p. assert (L6 : length (mtv p (q_der q m) (vmul (z_vol s) (Sv rho (mtv n (getP d r) (firstn (nD r) w))))) = p) by (eapply mtv_length; exact HQ).
      destruct (IH (skipn (nD r) w) (vadd acc (mtv p (q_der q m) (vmul (z_vol s) (Sv rho (mtv n (getP d r) (firstn (nD r) w)))))) (Forall_inv_tail F) L2 ltac:(ln)) as (a & Ea & Laa & Q).
      exists a. split; [exact Ea|]. split; [exact Laa|]. intros v Lv. rewrite (Q v Lv). rewrite dot_vadd_l by congruence.
      assert (L7 : length (mv (q_der q m) v) = n) by (rewrite mv_length; apply HQ). assert (L8 : length (Sv rho (vmul (z_vol s) (mv (q_der q m) v))) = n) by (apply Sv_length; ln).
      rewrite <- (mv_mtv_adjoint n p) by (auto; ln). rewrite (dot_swap (z_vol s)). rewrite (Sv_sym rho SV SY) by (auto; ln).
      rewrite <- (mv_mtv_adjoint (nD r) n) by assumption. cbn [map concat]. replace (mv (getP d r ++ concat (map (getP d) l)) (Sv rho (vmul (z_vol s) (mv (q_der q m) v)))) with (mv (getP d r) (Sv rho (vmul (z_vol s) (mv (q_der q m) v))) ++ mv (concat (map (getP d) l)) (Sv rho (vmul (z_vol s) (mv (q_der q m) v)))) by (symmetry; apply map_app).
      rewrite <- (firstn_skipn (nD r) w) at 3. rewrite dot_app' by (rewrite mv_length, L1; symmetry; apply HR). ring.
  Qed.
  Lemma zset_fresh rho m : length m = p -> exists st, zset_model s (zinit rho q) m = (st, Ok tt) /\ st = mkZ rho q (Some m) None None None.
  Proof. intros Lm. unfold zset_model. cbn [w_map zinit w_model w_rho w_A w_J w_gtg]. fold p. rewrite Lm, Nat.eqb_refl. destruct (z_storeJ s && negb (q_linear q))%bool; eexists; split; reflexivity. Qed.
End Fresh.
