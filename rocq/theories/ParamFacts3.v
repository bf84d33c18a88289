(** Interfaces (polynomial and spline), the documented formulas and the history of
    the layer map. *)
From Coq Require Import Lia Lra.
From Verif Require Import Py Vec VecDeriv Param SpecParam ParamFacts ParamFacts2.
Local Open Scope R_scope.

Lemma iface_gradient log a k F s1 s2 c w V : length c = k -> has_gradient k F c V ->
  has_gradient (2 + k) (fun m => iface_value log a m (F (skipn 2 m) - w)) (s1 :: s2 :: c)
    (iface_row log a (s1 :: s2 :: c) (F c - w) V).
Proof.
  intros Lc [LV HV]. split.
  { unfold iface_row. cbn [length]. rewrite vscale_length, LV. reflexivity. }
  intros h Lh. destruct h as [|d1 [|d2 hc]]; [discriminate Lh|discriminate Lh|]. cbn in Lh. injection Lh as Lh.
  unfold vadd, vscale. cbn [map zipw skipn]. fold (vscale). 
  unfold iface_value, at_. cbn [nth].
  specialize (HV hc Lh). unfold vadd, vscale in HV.
  pose proof (dpl_phys log (fun t => s1 + t * d1) 0 d1 ltac:(eapply dpl_eq; [|dd]; ring)) as H1.
  pose proof (dpl_phys log (fun t => s2 + t * d2) 0 d2 ltac:(eapply dpl_eq; [|dd]; ring)) as H2.
  cbv beta in H1, H2. rewrite Rmult_0_l, Rplus_0_r in H1, H2.
  assert (E0 : zipw Rplus c (map (Rmult 0) hc) = c).
  { apply vec_ext; [apply zipw_length; rewrite map_length; congruence|]. intros i Hi.
    rewrite zipw_length in Hi by (rewrite map_length; congruence).
    rewrite zipw_nth by (rewrite ?map_length; congruence). rewrite map_nth_lt by congruence. ring. }
  eapply dpl_eq; [|eapply dpl_plus; [exact H1|]; eapply (dpl_mult (fun t => phys log (s2 + t * d2) - phys log (s1 + t * d1))
    (fun t => atan (a * (F (zipw Rplus c (map (Rmult t) hc)) - w)) / PI + 1 / 2)); [eapply dpl_minus; [exact H2|exact H1]|];
    eapply dpl_plus; [|eapply dpl_const]; eapply (dpl_mult _ (fun _ => / PI)); [|eapply dpl_const];
    eapply dpl_atan; eapply dpl_scal; eapply dpl_minus; [exact HV|eapply dpl_const]].
  cbv beta. rewrite ?Rmult_0_l, ?Rplus_0_r, E0. unfold iface_row, at_. cbn [nth dot].
  rewrite dot_vscale_l. set (f := F c - w). set (D := dot V hc).
  pose proof (one_sq (a * f)) as Q. pose proof PI_nz.
  destruct log; cbn [phys]; field; repeat split; try assumption; rewrite Rplus_comm; exact Q.
Qed.

Lemma linear_gradient n F c V : length V = n -> (forall t h, length h = n -> F (vadd c (vscale t h)) = F c + t * dot V h) -> has_gradient n F c V.
Proof.
  intros LV H. split; [exact LV|]. intros h Lh.
  apply (dpl_ext (fun t => F c + t * dot V h)); [intros t; symmetry; apply H, Lh|].
  eapply dpl_eq; [|dd]. ring.
Qed.

Lemma map_pow_shift x k : map (fun i => x ^ i) (seq 1 k) = vscale x (map (fun i => x ^ i) (seq 0 k)).
Proof. rewrite <- seq_shift. unfold vscale. rewrite !map_map. apply map_ext. intros i. reflexivity. Qed.

Lemma polyval_dot x c : polyval x c = dot (polyvander x (length c)) c.
Proof.
  unfold polyvander. induction c as [|a c IH]; [reflexivity|]. cbn [polyval length seq map dot pow].
  rewrite map_pow_shift, dot_vscale_l, IH. ring.
Qed.

Lemma dot_linear V c t h : length h = length c -> dot V (vadd c (vscale t h)) = dot V c + t * dot V h.
Proof. intros L. rewrite dot_vadd_r by (rewrite vscale_length; congruence). rewrite dot_vscale_r. reflexivity. Qed.

Lemma vadd_vscale_length c t h : length h = length c -> length (vadd c (vscale t h)) = length c.
Proof. intros L. apply vadd_length. rewrite vscale_length. congruence. Qed.

Lemma poly2_gradient log a u w k m : length m = (2 + k)%nat -> has_gradient (2 + k) (poly2_cell log a u w) m (poly2_row log a u w m).
Proof.
  intros Lm. destruct m as [|s1 [|s2 c]]; [discriminate Lm|discriminate Lm|]. cbn in Lm. injection Lm as Lc.
  unfold poly2_row. cbn [skipn]. apply (iface_gradient log a k (polyval u)); [exact Lc|].
  apply linear_gradient; [unfold polyvander; rewrite map_length, seq_length; exact Lc|].
  intros t h Lh. rewrite !polyval_dot, vadd_vscale_length by congruence. apply dot_linear. congruence.
Qed.

(** 3-D *)
Lemma reshapeC_S nx ny c : reshapeC (S nx) ny c = map (fun j => at_ c j) (seq 0 ny) :: reshapeC nx ny (skipn ny c).
Proof.
  unfold reshapeC. cbn [seq map]. f_equal.
  rewrite <- seq_shift, map_map. apply map_ext. intros i. apply map_ext. intros j. unfold at_.
  rewrite <- (firstn_skipn ny c) at 1.
  destruct (Nat.le_gt_cases ny (length c)) as [H|H].
  - rewrite app_nth2; rewrite firstn_length, Nat.min_l by assumption; [f_equal; lia|lia].
  - rewrite (nth_overflow (skipn ny c)) by (rewrite skipn_length; lia).
    apply nth_overflow. rewrite app_length, firstn_length, skipn_length. lia.
Qed.

Lemma polyvander2d_S x y nx ny : polyvander2d x y (S nx) ny = polyvander y ny ++ vscale x (polyvander2d x y nx ny).
Proof.
  unfold polyvander2d, polyvander. cbn [seq flat_map]. f_equal.
  - apply map_ext. intros j. cbn. ring.
  - rewrite <- seq_shift. generalize (seq 0 nx). intros l. induction l as [|i l IH]; [reflexivity|].
    cbn [map flat_map]. rewrite IH. unfold vscale. rewrite map_app, map_map. f_equal. apply map_ext. intros j. cbn. ring.
Qed.

Lemma seq_at c : map (fun j => at_ c j) (seq 0 (length c)) = c.
Proof.
  apply vec_ext; [rewrite map_length, seq_length; reflexivity|]. intros i Hi. rewrite map_length, seq_length in Hi.
  rewrite (nth_indep _ 0 (at_ c 0)) by (rewrite map_length, seq_length; exact Hi).
  rewrite (map_nth (at_ c)), seq_nth by exact Hi. reflexivity.
Qed.

Lemma dot_app2 a b c d : length a = length c -> dot (a ++ b) (c ++ d) = dot a c + dot b d.
Proof. revert c. induction a as [|x a IH]; intros [|y c] L; cbn in *; try discriminate L; [ring|]. rewrite IH by congruence. ring. Qed.

Lemma polyval2d_dot x y nx ny c : length c = (nx * ny)%nat -> polyval2d x y (reshapeC nx ny c) = dot (polyvander2d x y nx ny) c.
Proof.
  revert c. induction nx as [|nx IH]; intros c Lc; [reflexivity|].
  rewrite reshapeC_S, polyvander2d_S. unfold polyval2d. cbn [map polyval].
  fold (polyval2d x y (reshapeC nx ny (skipn ny c))).
  rewrite IH by (rewrite skipn_length; cbn in Lc; lia).
  assert (L1 : length (firstn ny c) = ny) by (rewrite firstn_length; cbn in Lc; lia).
  replace (dot (polyvander y ny ++ vscale x (polyvander2d x y nx ny)) c)
    with (dot (polyvander y ny ++ vscale x (polyvander2d x y nx ny)) (firstn ny c ++ skipn ny c)) by (rewrite firstn_skipn; reflexivity).
  rewrite dot_app2 by (unfold polyvander; rewrite map_length, seq_length; congruence).
  rewrite dot_vscale_l. f_equal.
  replace (polyvander y ny) with (polyvander y (length (firstn ny c))) by (rewrite L1; reflexivity).
  rewrite <- polyval_dot. f_equal.
  rewrite <- (seq_at (firstn ny c)), L1. apply map_ext_in. intros j Hj. apply in_seq in Hj. unfold at_.
  rewrite <- (firstn_skipn ny c) at 1. rewrite app_nth1 by lia. reflexivity.
Qed.

Lemma polyvander2d_length x y nx ny : length (polyvander2d x y nx ny) = (nx * ny)%nat.
Proof.
  induction nx as [|nx IH]; [reflexivity|]. rewrite polyvander2d_S, app_length, vscale_length, IH.
  unfold polyvander. rewrite map_length, seq_length. reflexivity.
Qed.

Definition poly3_cellC (log : bool) (a : R) (nx ny : nat) (u v w : R) (m : vec) : R :=
  iface_value log a m (polyval2d u v (reshapeC nx ny (skipn 2 m)) - w).

Lemma poly3C_gradient log a nx ny u v w m : length m = (2 + nx * ny)%nat ->
  has_gradient (2 + nx * ny) (poly3_cellC log a nx ny u v w) m (poly3_row log a nx ny u v w m).
Proof.
  intros Lm. destruct m as [|s1 [|s2 c]]; [discriminate Lm|discriminate Lm|]. cbn in Lm. injection Lm as Lc.
  unfold poly3_row. cbn [skipn]. apply (iface_gradient log a (nx * ny) (fun c => polyval2d u v (reshapeC nx ny c))); [exact Lc|].
  apply linear_gradient; [apply polyvander2d_length|].
  intros t h Lh. rewrite !polyval2d_dot by (rewrite ?vadd_vscale_length; congruence). apply dot_linear. congruence.
Qed.

Lemma reshape_eq nx ny c : nx = 1%nat \/ ny = 1%nat -> reshapeF nx ny c = reshapeC nx ny c.
Proof.
  intros H. unfold reshapeF, reshapeC. apply map_ext_in. intros i Hi. apply in_seq in Hi.
  apply map_ext_in. intros j Hj. apply in_seq in Hj. f_equal. destruct H; subst; nia.
Qed.

Lemma poly3_gradient log a nx ny u v w m : nx = 1%nat \/ ny = 1%nat -> length m = (2 + nx * ny)%nat ->
  has_gradient (2 + nx * ny) (poly3_cell log a nx ny u v w) m (poly3_row log a nx ny u v w m).
Proof.
  intros H Lm. destruct (poly3C_gradient log a nx ny u v w m Lm) as [L G]. split; [exact L|].
  intros h Lh. eapply dpl_ext; [|exact (G h Lh)]. intros t. unfold poly3_cellC, poly3_cell. rewrite reshape_eq by exact H. reflexivity.
Qed.

Lemma unique_along n k F m J h v i : has_jacobian n k F m J -> length h = n -> (i < k)%nat ->
  derivable_pt_lim (fun t => nth i (F (vadd m (vscale t h))) 0) 0 v -> nth i (J h) 0 = v.
Proof. intros H Lh Hi Hv. destruct (H h Lh) as [_ [_ D]]. exact (uniqueness_limite _ _ _ _ (D i Hi) Hv). Qed.

Lemma poly3_wrong : ~ rows_are_derivative 6 (fun q => poly3_cell false 1 2 2 (fst q) (snd q) 0) (fun q => poly3_row false 1 2 2 (fst q) (snd q) 0)
  [0; 1; 0; 1; 0; 0] [(2, 3)].
Proof.
  intros [_ H].
  assert (D : derivable_pt_lim (fun t => nth 0 (map (fun q : R * R => poly3_cell false 1 2 2 (fst q) (snd q) 0
     (vadd [0; 1; 0; 1; 0; 0] (vscale t [0; 0; 0; 1; 0; 0]))) [(2, 3)]) 0) 0 (2 / 5 / PI)).
  { apply (dpl_ext (fun t => atan (2 + 2 * t) * / PI + 1 / 2)).
    { intros t. unfold poly3_cell, iface_value, vadd, vscale, polyval2d, reshapeF, at_. cbn.
      match goal with |- _ = _ + _ * (atan ?x / PI + _) => replace x with (2 + 2 * t) by ring end. unfold Rdiv. ring. }
    eapply dpl_eq; [|eapply dpl_plus; [eapply (dpl_mult _ (fun _ => / PI)); [eapply dpl_atan; dd|eapply dpl_const]|eapply dpl_const]].
    cbv beta. field. exact PI_nz. }
  pose proof (unique_along _ _ _ _ _ [0; 0; 0; 1; 0; 0] _ 0 H eq_refl ltac:(cbn; lia) D) as E.
  revert E. unfold poly3_row, iface_row, at_, polyval2d, reshapeC, polyvander2d, vscale, at_. cbn. intros E.
  pose proof PI_RGT_0 as PP.
  match type of E with ?x = _ => assert (E2 : x = 3 / 10 / PI) by (field; lra) end.
  rewrite E2 in E. apply (Rmult_eq_compat_r PI) in E. field_simplify in E; lra.
Qed.

(** ** On which side of a polynomial interface a cell lies *)
Lemma atan_pos x : 0 < x -> 0 < atan x.
Proof. intros H. rewrite <- atan_0. apply atan_increasing. exact H. Qed.
Lemma poly2_side log a X Y m normal : 0 < a -> (normal < 2)%nat ->
  let s1 := phys log (nth 0 m 0) in let s2 := phys log (nth 1 m 0) in let c := skipn 2 m in
  let p x := dot (map (fun k => x ^ k) (seq 0 (length c))) c in
  let d := match normal with O => p Y - X | _ => p X - Y end in
  exists u w q, poly2_coords normal X Y = Ok (u, w) /\ poly2_cell log a u w m = (s1 + s2) / 2 + (s2 - s1) * q /\
    (0 < d -> 0 < q < 1 / 2) /\ (d < 0 -> - (1 / 2) < q < 0) /\ (d = 0 -> q = 0).
Proof.
  intros Ha Hn s1 s2 c p d.
  assert (Q : (0 < d -> 0 < atan (a * d) / PI < 1 / 2) /\ (d < 0 -> - (1 / 2) < atan (a * d) / PI < 0) /\ (d = 0 -> atan (a * d) / PI = 0)).
  { pose proof PI_RGT_0 as HP. pose proof (atan_bound (a * d)) as HB. split; [|split].
    - intros Hd. assert (0 < atan (a * d)) by (apply atan_pos; apply Rmult_lt_0_compat; assumption). split.
      + apply Rdiv_lt_0_compat; assumption.
      + apply (Rmult_lt_reg_r PI); [exact HP|]. unfold Rdiv at 1. rewrite Rmult_assoc, Rinv_l by lra. lra.
    - intros Hd. assert (a * d < 0) by nra. assert (atan (a * d) < 0) by (rewrite <- atan_0; apply atan_increasing; assumption). split.
      + apply (Rmult_lt_reg_r PI); [exact HP|]. unfold Rdiv at 2. rewrite Rmult_assoc, Rinv_l by lra. lra.
      + apply (Rmult_lt_reg_r PI); [exact HP|]. unfold Rdiv. rewrite Rmult_assoc, Rinv_l by lra. lra.
    - intros ->. rewrite Rmult_0_r, atan_0. unfold Rdiv. ring. }
  destruct normal as [|[|normal]]; [| |lia].
  - exists Y, X, (atan (a * d) / PI). split; [reflexivity|]. split; [|exact Q]. unfold poly2_cell, iface_value. fold c. rewrite polyval_dot. unfold polyvander. change (dot _ c) with (p Y). fold d.
    unfold at_. fold s1 s2. field. apply PI_neq0.
  - exists X, Y, (atan (a * d) / PI). split; [reflexivity|]. split; [|exact Q]. unfold poly2_cell, iface_value. fold c. rewrite polyval_dot. unfold polyvander. change (dot _ c) with (p X). fold d.
    unfold at_. fold s1 s2. field. apply PI_neq0.
Qed.
