From Verif Require Import Py Vec VecDeriv PropsM PropsFacts ParamFacts SpecMass MassFacts2 Empir SpecEmpir.
From Coq Require Import Lra.
Local Open Scope R_scope.

(** ** Derivatives of powers *)
Lemma dpl_rpower f g x a b : derivable_pt_lim f x a -> derivable_pt_lim g x b -> 0 < f x ->
  derivable_pt_lim (fun t => Rpower (f t) (g t)) x (Rpower (f x) (g x) * (b * ln (f x) + g x * (a / f x))).
Proof.
  intros Hf Hg Hp. unfold Rpower.
  eapply dpl_eq; [|apply (dpl_comp (fun t => g t * ln (f t)) exp); [|apply derivable_pt_lim_exp]].
  2:{ apply (dpl_mult g (fun t => ln (f t))); [exact Hg|]. apply (dpl_comp f ln); [exact Hf|]. apply derivable_pt_lim_ln; exact Hp. }
  cbv beta. field. lra.
Qed.
Lemma dpl_div f g x a b : derivable_pt_lim f x a -> derivable_pt_lim g x b -> g x <> 0 ->
  derivable_pt_lim (fun t => f t / g t) x ((a * g x - f x * b) / (g x) ^ 2).
Proof.
  intros Hf Hg Hp. eapply dpl_eq; [|apply (derivable_pt_lim_div f g); eassumption]. unfold Rsqr. field. exact Hp.
Qed.
Lemma dpl_pow2 f x a : derivable_pt_lim f x a -> derivable_pt_lim (fun t => f t ^ 2) x (2 * f x * a).
Proof.
  intros Hf. apply (dpl_ext (fun t => f t * f t)); [intros; ring|]. eapply dpl_eq; [|apply (dpl_mult f f); eassumption]. ring.
Qed.
Lemma dpl_abs_neg f x a : derivable_pt_lim f x a -> f x < 0 -> derivable_pt_lim (fun t => Rabs (f t)) x (- a).
Proof.
  intros Hf Hn. eapply dpl_eq; [|apply (dpl_comp f Rabs); [exact Hf|apply Rabs_derive_2; exact Hn]]. ring.
Qed.
(** Builds derivatives of expressions of curves [p] with [derivable_pt_lim p _ _] in the context. *)
Ltac dr :=
  lazymatch goal with
  | |- derivable_pt_lim (fun _ => ?c) _ _ => eapply dpl_const
  | |- derivable_pt_lim (fun t => t) _ _ => eapply dpl_id
  | |- derivable_pt_lim (fun t => @?f t + @?g t) _ _ => eapply (dpl_plus f g); [dr|dr]
  | |- derivable_pt_lim (fun t => @?f t - @?g t) _ _ => eapply (dpl_minus f g); [dr|dr]
  | |- derivable_pt_lim (fun t => @?f t * @?g t) _ _ => eapply (dpl_mult f g); [dr|dr]
  | |- derivable_pt_lim (fun t => @?f t / @?g t) _ _ => eapply (dpl_div f g); [dr|dr|cbv beta]
  | |- derivable_pt_lim (fun t => (@?f t) ^ 2) _ _ => eapply (dpl_pow2 f); dr
  | |- derivable_pt_lim (fun t => Rpower (@?f t) (@?g t)) _ _ => eapply (dpl_rpower f g); [dr|dr|cbv beta]
  | |- derivable_pt_lim (fun t => Rabs (@?f t)) _ _ => eapply (dpl_abs_neg f); [dr|cbv beta]
  | |- derivable_pt_lim (fun t => ?p t) _ _ => first [eassumption | fail 1 "no derivative for" p]
  | |- _ => eassumption
  end.
Lemma rp_pos x y : 0 < Rpower x y.
Proof. apply exp_pos. Qed.
Lemma over_neg u s f : u < 0 -> over u s f = f.
Proof. intros H. unfold over. destruct (Rle_dec 0 u); [lra|reflexivity]. Qed.
Lemma over_nonneg u s f : 0 <= u -> over u s f = s.
Proof. intros H. unfold over. destruct (Rle_dec 0 u); [reflexivity|lra]. Qed.
Lemma sgn_neg x : x < 0 -> sgn x = -1.
Proof. intros H. unfold sgn. destruct (Rlt_dec x 0); [reflexivity|lra]. Qed.

(** ** Haverkamp, one cell *)
Lemma ht_cell_M r s a b r' s' a' b' u t0 : derivable_pt_lim r t0 r' -> derivable_pt_lim s t0 s' -> derivable_pt_lim a t0 a' -> derivable_pt_lim b t0 b' ->
  (u < 0 -> 0 < a t0) ->
  derivable_pt_lim (fun t => ht_cell (r t) (s t) (a t) (b t) u) t0
    (ht_dr (r t0) (s t0) (a t0) (b t0) u * r' + (proj_p u 1 * s' + proj_n u 1 * (ht_ds (r t0) (s t0) (a t0) (b t0) u * s'))
     + ht_da (r t0) (s t0) (a t0) (b t0) u * a' + ht_db (r t0) (s t0) (a t0) (b t0) u * b').
Proof.
  intros Hr Hs Ha Hb Hp. unfold ht_dr, ht_ds, ht_da, ht_db, proj_p, proj_n. destruct (Rlt_dec u 0) as [N|N].
  - rewrite !(over_neg u) by exact N. apply (dpl_ext (fun t => a t * (s t - r t) / (a t + Rpower (Rabs u) (b t)) + r t)).
    { intros t. unfold ht_cell. rewrite over_neg by exact N. reflexivity. }
    specialize (Hp N). assert (0 < Rabs u) by (apply Rabs_pos_lt; lra). pose proof (rp_pos (Rabs u) (b t0)).
    eapply dpl_eq; [|dr]; [|lra|lra]. cbv beta. field. split; lra.
  - rewrite !(over_nonneg u) by lra. apply (dpl_ext s).
    { intros t. unfold ht_cell. rewrite over_nonneg by lra. reflexivity. }
    eapply dpl_eq; [|exact Hs]. ring.
Qed.
Lemma ht_cell_u_neg r s a b u : u < 0 -> 0 < a -> derivable_pt_lim (ht_cell r s a b) u (ht_du r s a b u).
Proof.
  intros N Ha. unfold ht_du. rewrite over_neg by exact N. rewrite sgn_neg by exact N.
  apply (dpl_local (fun v => a * (s - r) / (a + Rpower (Rabs v) b) + r)).
  { exists (- u). split; [lra|]. intros h Hh. unfold ht_cell. rewrite over_neg; [reflexivity|]. apply Rabs_def2 in Hh. lra. }
  assert (0 < Rabs u) by (apply Rabs_pos_lt; lra). pose proof (rp_pos (Rabs u) b).
  eapply dpl_eq; [|dr]; [|lra|lra|lra]. cbv beta.
  replace (Rpower (Rabs u) (b - 1)) with (Rpower (Rabs u) b / Rabs u).
  2:{ replace (b - 1) with (b + - (1)) by ring. rewrite Rpower_plus, Rpower_Ropp, Rpower_1 by lra. reflexivity. }
  field. split; lra.
Qed.
(** Saturated cells: constant to the right of 0. *)
Lemma dpl_over_pos s (f : R -> R) u : 0 < u -> derivable_pt_lim (fun v => over v s (f v)) u 0.
Proof.
  intros H. apply (dpl_local (fun _ => s)); [|apply dpl_const]. exists u. split; [exact H|]. intros h Hh. apply Rabs_def2 in Hh.
  rewrite over_nonneg by lra. reflexivity.
Qed.
Lemma rpower_small c e : 0 < c -> 0 < e -> forall eps, 0 < eps -> exists d, 0 < d /\ forall h, 0 < h < d -> c * Rpower h e < eps.
Proof.
  intros Hc He eps Heps. exists (Rpower (eps / c) (/ e)). split; [apply rp_pos|]. intros h [H0 H1].
  assert (E : Rpower (Rpower (eps / c) (/ e)) e = eps / c).
  { rewrite Rpower_mult. replace (/ e * e) with 1 by (field; lra). apply Rpower_1. apply Rdiv_lt_0_compat; lra. }
  assert (K : Rpower h e < Rpower (Rpower (eps / c) (/ e)) e).
  { apply Rlt_Rpower_l; [exact He|split; lra]. }
  rewrite E in K. apply (Rmult_lt_compat_l c) in K; [|exact Hc]. replace (c * (eps / c)) with eps in K by (field; lra). exact K.
Qed.
Lemma dpl_over_0 s (f : R -> R) c e : 0 < c -> 1 < e -> (forall h, - (1) < h < 0 -> Rabs (f h - s) <= c * Rpower (- h) e) ->
  derivable_pt_lim (fun v => over v s (f v)) 0 0.
Proof.
  intros Hc He B eps Heps. destruct (rpower_small c (e - 1) Hc ltac:(lra) eps Heps) as (d & Hd & D).
  assert (Hm : 0 < Rmin d 1) by (apply Rmin_glb_lt; lra). exists (mkposreal _ Hm). cbn [pos]. intros h Hh Hd'. rewrite Rplus_0_l, (over_nonneg 0) by lra.
  pose proof (Rmin_l d 1). pose proof (Rmin_r d 1). apply Rabs_def2 in Hd'.
  destruct (Rlt_dec h 0) as [N|N].
  - rewrite over_neg by exact N. specialize (B h ltac:(lra)). rewrite Rminus_0_r. unfold Rdiv. rewrite Rabs_mult, Rabs_inv, (Rabs_left h) by exact N.
    apply Rle_lt_trans with (c * Rpower (- h) e * / - h).
    { apply Rmult_le_compat_r; [left; apply Rinv_0_lt_compat; lra|exact B]. }
    replace (c * Rpower (- h) e * / - h) with (c * Rpower (- h) (e - 1)); [apply D; lra|].
    replace (e - 1) with (e + - (1)) by ring. rewrite Rpower_plus, Rpower_Ropp, Rpower_1 by lra. ring.
  - rewrite over_nonneg by lra. replace ((s - s) / h - 0) with 0 by (field; exact Hh). rewrite Rabs_R0. exact Heps.
Qed.
Lemma ht_cell_u r s a b u : 0 < a -> (u = 0 -> 1 < b) -> derivable_pt_lim (ht_cell r s a b) u (ht_du r s a b u).
Proof.
  intros Ha Hb. destruct (Rlt_dec u 0) as [N|N]; [apply ht_cell_u_neg; assumption|]. unfold ht_du. rewrite over_nonneg by lra.
  destruct (Req_dec u 0) as [->|Z]; [|apply (dpl_over_pos s (fun u => a * (s - r) / (a + Rpower (Rabs u) b) + r)); lra].
  specialize (Hb eq_refl). pose proof (Rabs_pos (s - r)) as Hs.
  apply (dpl_over_0 s (fun u => a * (s - r) / (a + Rpower (Rabs u) b) + r) (Rabs (s - r) / a + 1) b); [|exact Hb|].
  - assert (0 <= Rabs (s - r) / a) by (apply Rmult_le_pos; [assumption|left; apply Rinv_0_lt_compat; lra]). lra.
  - intros h Hh. rewrite (Rabs_left h) by lra. pose proof (rp_pos (- h) b) as Hp. set (P := Rpower (- h) b) in *.
    replace (a * (s - r) / (a + P) + r - s) with (- ((s - r) * (P / (a + P)))) by (field; lra).
    rewrite Rabs_Ropp, Rabs_mult, (Rabs_pos_eq (P / (a + P))) by (left; apply Rdiv_lt_0_compat; lra).
    assert (K : P / (a + P) <= P / a).
    { apply Rmult_le_compat_l; [lra|]. apply Rinv_le_contravar; lra. }
    apply Rle_trans with (Rabs (s - r) * (P / a)); [apply Rmult_le_compat_l; assumption|].
    replace ((Rabs (s - r) / a + 1) * P) with (Rabs (s - r) * (P / a) + P) by (field; lra). lra.
Qed.
Lemma hk_is_ht u0 k a g u : u_int u0 = false -> hk_cell u0 k a g u = ht_cell 0 k a g u.
Proof.
  intros E. unfold hk_cell, ht_cell, proj_p, proj_n, full_like, over. rewrite E. destruct (Rle_dec 0 u); [ring|].
  replace (k - 0) with k by ring. replace (k * a) with (a * k) by ring. ring.
Qed.
Lemma hk_cell_M u0 k a g k' a' g' u t0 : u_int u0 = false -> derivable_pt_lim k t0 k' -> derivable_pt_lim a t0 a' -> derivable_pt_lim g t0 g' ->
  (u < 0 -> 0 < a t0) ->
  derivable_pt_lim (fun t => hk_cell u0 (k t) (a t) (g t) u) t0
    ((proj_p u 1 * k' + proj_n u 1 * (hk_dk (k t0) (a t0) (g t0) u * k')) + hk_da (k t0) (a t0) (g t0) u * a' + hk_dg (k t0) (a t0) (g t0) u * g').
Proof.
  intros E Hk Ha Hg Hp. apply (dpl_ext (fun t => ht_cell 0 (k t) (a t) (g t) u)); [intros; rewrite hk_is_ht by exact E; reflexivity|].
  eapply dpl_eq; [|apply (ht_cell_M (fun _ => 0) k a g 0 k' a' g' u t0); [apply dpl_const|assumption..]].
  unfold ht_dr, ht_ds, ht_da, ht_db, hk_dk, hk_da, hk_dg, over. destruct (Rle_dec 0 u) as [|N]; [ring|].
  assert (N' : u < 0) by lra. specialize (Hp N'). pose proof (rp_pos (Rabs u) (g t0)). field. lra.
Qed.
Lemma hk_cell_u u0 k a g u : u_int u0 = false -> 0 < a -> (u = 0 -> 1 < g) -> derivable_pt_lim (hk_cell u0 k a g) u (hk_du k a g u).
Proof.
  intros E Ha Hg. apply (dpl_ext (ht_cell 0 k a g)); [intros; rewrite hk_is_ht by exact E; reflexivity|].
  eapply dpl_eq; [|apply ht_cell_u; assumption]. unfold ht_du, hk_du, over. destruct (Rle_dec 0 u); [reflexivity|].
  pose proof (rp_pos (Rabs u) g). field. lra.
Qed.
