(** Directional derivatives of vector-valued functions, built on the standard
    library's [derivable_pt_lim]. *)
From Verif Require Import Py Vec.
Local Open Scope R_scope.

(** [f] is a curve in R^n with derivative [f'] at [t0]. *)
Definition vderiv (n : nat) (f : R -> vec) (t0 : R) (f' : vec) : Prop :=
  (forall t, length (f t) = n) /\ length f' = n /\
  forall i, (i < n)%nat -> derivable_pt_lim (fun t => nth i (f t) 0) t0 (nth i f' 0).

(** The scalar function [phi] has gradient [g] at [m]: its derivative along every
    direction [h] is [g . h]. *)
Definition has_gradient (n : nat) (phi : vec -> R) (m g : vec) : Prop :=
  length g = n /\
  forall h, length h = n -> derivable_pt_lim (fun t => phi (vadd m (vscale t h))) 0 (dot g h).

(** The vector function [F] has derivative [J h] along every direction [h] at [m]. *)
Definition has_jacobian (n k : nat) (F : vec -> vec) (m : vec) (J : vec -> vec) : Prop :=
  forall h, length h = n -> vderiv k (fun t => F (vadd m (vscale t h))) 0 (J h).

Lemma dpl_ext f g x l : (forall y, f y = g y) -> derivable_pt_lim f x l -> derivable_pt_lim g x l.
Proof.
  intros E H eps He. destruct (H eps He) as [d Hd]. exists d. intros h H1 H2.
  rewrite <- !E. apply Hd; assumption.
Qed.
Lemma dpl_const c x : derivable_pt_lim (fun _ => c) x 0.
Proof. apply derivable_pt_lim_const. Qed.
Lemma dpl_id x : derivable_pt_lim (fun t => t) x 1.
Proof. apply derivable_pt_lim_id. Qed.
Lemma dpl_plus f g x a b : derivable_pt_lim f x a -> derivable_pt_lim g x b ->
  derivable_pt_lim (fun t => f t + g t) x (a + b).
Proof. intros; apply (derivable_pt_lim_plus f g); assumption. Qed.
Lemma dpl_minus f g x a b : derivable_pt_lim f x a -> derivable_pt_lim g x b ->
  derivable_pt_lim (fun t => f t - g t) x (a - b).
Proof. intros; apply (derivable_pt_lim_minus f g); assumption. Qed.
Lemma dpl_mult f g x a b : derivable_pt_lim f x a -> derivable_pt_lim g x b ->
  derivable_pt_lim (fun t => f t * g t) x (a * g x + f x * b).
Proof. intros; apply (derivable_pt_lim_mult f g); assumption. Qed.
Lemma dpl_scal c f x a : derivable_pt_lim f x a -> derivable_pt_lim (fun t => c * f t) x (c * a).
Proof. intros; apply (derivable_pt_lim_scal f c); assumption. Qed.
Lemma dpl_comp f g x a b : derivable_pt_lim f x a -> derivable_pt_lim g (f x) b ->
  derivable_pt_lim (fun t => g (f t)) x (b * a).
Proof. intros; apply (derivable_pt_lim_comp f g); assumption. Qed.
Lemma dpl_eq f x a b : a = b -> derivable_pt_lim f x a -> derivable_pt_lim f x b.
Proof. intros ->; auto. Qed.
(** Locality. *)
Lemma dpl_local f g x l : (exists d, 0 < d /\ forall h, Rabs h < d -> f (x + h) = g (x + h)) ->
  derivable_pt_lim f x l -> derivable_pt_lim g x l.
Proof.
  intros (d0 & Hd0 & E) H eps He. destruct (H eps He) as [[d Hd] Hl].
  assert (Hm : 0 < Rmin d d0) by (apply Rmin_glb_lt; assumption).
  exists (mkposreal _ Hm). cbn. intros h H1 H2.
  rewrite <- E, <- (Rplus_0_r x).
  - rewrite <- (E 0); [rewrite Rplus_0_r; apply Hl; [assumption|cbn; eapply Rlt_le_trans; [exact H2|apply Rmin_l]]|].
    rewrite Rabs_R0; assumption.
  - eapply Rlt_le_trans; [exact H2|apply Rmin_r].
Qed.

Lemma vderiv_const n v t0 : length v = n -> vderiv n (fun _ => v) t0 (vzero n).
Proof.
  intros H; split; [intros; assumption|]. split; [apply vzero_length|].
  intros i Hi. unfold vzero, vconst.
  replace (nth i (repeat 0 n) 0) with 0; [apply dpl_const|].
  symmetry. clear. revert i; induction n; intros [|i]; cbn; auto.
Qed.
Lemma nth_zero n i : nth i (vzero n) 0 = 0.
Proof. unfold vzero, vconst. revert i; induction n; intros [|i]; cbn; auto. Qed.
Lemma nth_vadd a b i : (i < length a)%nat -> length a = length b -> nth i (vadd a b) 0 = nth i a 0 + nth i b 0.
Proof. apply zipw_nth. Qed.
Lemma nth_vsub a b i : (i < length a)%nat -> length a = length b -> nth i (vsub a b) 0 = nth i a 0 - nth i b 0.
Proof. apply zipw_nth. Qed.
Lemma nth_vmul a b i : (i < length a)%nat -> length a = length b -> nth i (vmul a b) 0 = nth i a 0 * nth i b 0.
Proof. apply zipw_nth. Qed.
Lemma nth_vscale c a i : nth i (vscale c a) 0 = c * nth i a 0.
Proof. unfold vscale. revert i; induction a; intros [|i]; cbn; auto; ring. Qed.

(** The straight line. *)
Lemma vderiv_line n m h : length m = n -> length h = n -> vderiv n (fun t => vadd m (vscale t h)) 0 h.
Proof.
  intros Hm Hh. split; [intros; rewrite vadd_length; rewrite ?vscale_length; congruence|].
  split; [assumption|]. intros i Hi.
  apply (dpl_ext (fun t => nth i m 0 + t * nth i h 0)).
  { intros t. rewrite nth_vadd, nth_vscale by (rewrite ?vscale_length; congruence). reflexivity. }
  apply (dpl_eq _ _ (0 + (1 * nth i h 0 + 0 * 0))); [ring|].
  apply dpl_plus; [apply dpl_const|].
  apply (dpl_eq _ _ (1 * nth i h 0 + 0 * 0)); [ring|].
  apply (dpl_mult (fun t => t) (fun _ => nth i h 0)); [apply dpl_id|apply dpl_const].
Qed.
Lemma vderiv_ext n f g t0 d : (forall t, f t = g t) -> vderiv n f t0 d -> vderiv n g t0 d.
Proof.
  intros E (H1 & H2 & H3). split; [intros; rewrite <- E; auto|]. split; [assumption|].
  intros i Hi. apply (dpl_ext (fun t => nth i (f t) 0)); [intros; rewrite E; reflexivity|auto].
Qed.
Lemma vderiv_add n f g t0 f' g' : vderiv n f t0 f' -> vderiv n g t0 g' ->
  vderiv n (fun t => vadd (f t) (g t)) t0 (vadd f' g').
Proof.
  intros (F1 & F2 & F3) (G1 & G2 & G3). split; [intros; rewrite vadd_length; congruence|].
  split; [rewrite vadd_length; congruence|]. intros i Hi.
  rewrite nth_vadd by congruence.
  apply (dpl_ext (fun t => nth i (f t) 0 + nth i (g t) 0)).
  { intros; rewrite nth_vadd by congruence; reflexivity. }
  apply dpl_plus; auto.
Qed.
Lemma vderiv_sub n f g t0 f' g' : vderiv n f t0 f' -> vderiv n g t0 g' ->
  vderiv n (fun t => vsub (f t) (g t)) t0 (vsub f' g').
Proof.
  intros (F1 & F2 & F3) (G1 & G2 & G3). split; [intros; rewrite vsub_length; congruence|].
  split; [rewrite vsub_length; congruence|]. intros i Hi.
  rewrite nth_vsub by congruence.
  apply (dpl_ext (fun t => nth i (f t) 0 - nth i (g t) 0)).
  { intros; rewrite nth_vsub by congruence; reflexivity. }
  apply dpl_minus; auto.
Qed.
Lemma vderiv_mul n f g t0 f' g' : vderiv n f t0 f' -> vderiv n g t0 g' ->
  vderiv n (fun t => vmul (f t) (g t)) t0 (vadd (vmul f' (g t0)) (vmul (f t0) g')).
Proof.
  intros (F1 & F2 & F3) (G1 & G2 & G3). split; [intros; rewrite vmul_length; congruence|].
  assert (L1 : length (vmul f' (g t0)) = n) by (rewrite vmul_length; congruence).
  assert (L2 : length (vmul (f t0) g') = n) by (rewrite vmul_length; [auto|rewrite F1; congruence]).
  split; [rewrite vadd_length; congruence|]. intros i Hi.
  rewrite nth_vadd by congruence. rewrite !nth_vmul by (rewrite ?F1, ?G1, ?F2; congruence).
  apply (dpl_ext (fun t => nth i (f t) 0 * nth i (g t) 0)).
  { intros; rewrite nth_vmul by congruence; reflexivity. }
  apply (dpl_mult (fun t => nth i (f t) 0) (fun t => nth i (g t) 0)); auto.
Qed.
Lemma vderiv_scale n c f t0 f' : vderiv n f t0 f' -> vderiv n (fun t => vscale c (f t)) t0 (vscale c f').
Proof.
  intros (F1 & F2 & F3). split; [intros; rewrite vscale_length; auto|].
  split; [rewrite vscale_length; assumption|]. intros i Hi. rewrite nth_vscale.
  apply (dpl_ext (fun t => c * nth i (f t) 0)); [intros; rewrite nth_vscale; reflexivity|].
  apply dpl_scal; auto.
Qed.
Lemma vderiv_tl n f t0 f' : vderiv (S n) f t0 f' -> vderiv n (fun t => tl (f t)) t0 (tl f').
Proof.
  intros (F1 & F2 & F3). split; [|split].
  - intros t; specialize (F1 t); destruct (f t); cbn in *; lia.
  - destruct f'; cbn in *; lia.
  - intros i Hi. specialize (F3 (S i) ltac:(lia)).
    destruct f' as [|x f']; [cbn in F2; lia|]. cbn in *.
    apply (dpl_ext (fun t => nth (S i) (f t) 0)); [|exact F3].
    intros t; specialize (F1 t). destruct (f t); cbn in *; [lia|reflexivity].
Qed.
Lemma deriv_dot n f g t0 f' g' : vderiv n f t0 f' -> vderiv n g t0 g' ->
  derivable_pt_lim (fun t => dot (f t) (g t)) t0 (dot f' (g t0) + dot (f t0) g').
Proof.
  revert f g f' g'; induction n as [|n IH]; intros f g f' g' HF HG.
  - destruct HF as (F1 & F2 & _). destruct f'; [|cbn in F2; lia]. cbn.
    apply (dpl_ext (fun _ => 0)).
    { intros t; specialize (F1 t). destruct (f t); [reflexivity|cbn in *; lia]. }
    apply (dpl_eq _ _ 0); [|apply dpl_const].
    specialize (F1 t0). destruct (f t0); [cbn; ring|cbn in *; lia].
  - pose proof (IH _ _ _ _ (vderiv_tl _ _ _ _ HF) (vderiv_tl _ _ _ _ HG)) as D.
    destruct HF as (F1 & F2 & F3), HG as (G1 & G2 & G3).
    specialize (F3 0%nat ltac:(lia)). specialize (G3 0%nat ltac:(lia)).
    apply (dpl_ext (fun t => nth 0 (f t) 0 * nth 0 (g t) 0 + dot (tl (f t)) (tl (g t)))).
    { intros t; specialize (F1 t); specialize (G1 t). destruct (f t), (g t); cbn in *; try lia; reflexivity. }
    pose proof (dpl_plus _ _ _ _ _ (dpl_mult _ _ _ _ _ F3 G3) D) as E.
    eapply dpl_eq; [|exact E].
    pose proof (F1 t0); pose proof (G1 t0).
    destruct f', g', (f t0), (g t0); cbn in *; try lia. ring.
Qed.
Lemma nth_mv M v i : (i < length M)%nat -> nth i (mv M v) 0 = dot (nth i M []) v.
Proof.
  revert i; induction M as [|r M IH]; cbn; intros i Hi; [lia|]. destruct i; [reflexivity|apply IH; lia].
Qed.
Lemma vderiv_mv m n M f t0 f' : is_mat m n M -> vderiv n f t0 f' ->
  vderiv m (fun t => mv M (f t)) t0 (mv M f').
Proof.
  intros [Hm HM] HF. split; [intros; rewrite mv_length; assumption|].
  split; [rewrite mv_length; assumption|]. intros i Hi. rewrite nth_mv by lia.
  apply (dpl_ext (fun t => dot (nth i M []) (f t))).
  { intros; rewrite nth_mv by lia; reflexivity. }
  assert (length (nth i M []) = n) as L.
  { rewrite Forall_forall in HM. apply HM, nth_In; lia. }
  eapply dpl_eq; [|apply (deriv_dot n (fun _ => nth i M []) f _ (vzero n) f'); [apply vderiv_const; assumption|exact HF]].
  rewrite dot_zero_l; ring.
Qed.
Lemma deriv_normsq n f t0 f' : vderiv n f t0 f' ->
  derivable_pt_lim (fun t => dot (f t) (f t)) t0 (2 * dot (f t0) f').
Proof.
  intros H. eapply dpl_eq; [|apply (deriv_dot n f f _ f' f' H H)].
  rewrite (dot_comm f'); ring.
Qed.

(** A gradient is unique. *)
Lemma gradient_unique n phi m g1 g2 : has_gradient n phi m g1 -> has_gradient n phi m g2 -> g1 = g2.
Proof.
  intros [L1 H1] [L2 H2]. apply dot_ext; [congruence|]. intros v Hv.
  eapply uniqueness_limite; [apply H1|apply H2]; congruence.
Qed.
