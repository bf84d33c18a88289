From Verif Require Import Py Vec VecDeriv PowerIt SpecPowerIt.
From Coq Require Import Lra.
Local Open Scope R_scope.

Lemma product_acc n (ts : terms) x : forall acc, length acc = n -> (forall t, In t ts -> length (snd t x) = n) ->
  length (fold_left (fun acc t => vadd acc (vscale (fst t) (snd t x))) ts acc) = n /\
  forall y, dot y (fold_left (fun acc t => vadd acc (vscale (fst t) (snd t x))) ts acc) = dot y acc + fold_right (fun t a => fst t * dot y (snd t x) + a) 0 ts.
Proof.
  induction ts as [|t ts IH]; intros acc La H; cbn; [split; [assumption|intros; ring]|].
  assert (Lt : length (snd t x) = n) by (apply H; left; reflexivity).
  destruct (IH (vadd acc (vscale (fst t) (snd t x)))) as [L D]; [rewrite vadd_length; rewrite ?vscale_length; congruence|intros; apply H; right; assumption|].
  split; [exact L|]. intros y. rewrite D, dot_vadd_r, dot_vscale_r by (rewrite vscale_length; congruence). ring.
Qed.
Lemma rayleigh_acc (ts : terms) x : forall acc, fold_left (fun acc t => acc + fst t * dot x (snd t x)) ts acc = acc + fold_right (fun t a => fst t * dot x (snd t x) + a) 0 ts.
Proof. induction ts as [|t ts IH]; intros acc; cbn; [ring|]. rewrite IH. ring. Qed.
Lemma norm_sq x : norm x * norm x = dot x x.
Proof. unfold norm. apply sqrt_sqrt, dot_self_nonneg. Qed.
Lemma norm_nonneg x : 0 <= norm x. Proof. apply sqrt_pos. Qed.
Lemma normalized_some x y : normalized x = Some y -> 0 < norm x /\ y = vscale (/ norm x) x /\ dot y y = 1.
Proof.
  unfold normalized. destruct (Req_EM_T (norm x) 0) as [|N]; [discriminate|]. intros E. injection E as <-. pose proof (norm_nonneg x).
  split; [lra|]. split; [reflexivity|]. rewrite dot_vscale_l, dot_vscale_r, <- norm_sq. field. assumption.
Qed.
Lemma normalized_pos x : dot x x <> 0 -> normalized x = Some (vscale (/ norm x) x).
Proof. intros H. unfold normalized. destruct (Req_EM_T (norm x) 0) as [E|]; [|reflexivity]. exfalso. apply H. rewrite <- norm_sq, E. ring. Qed.
Lemma cauchy n x y : length x = n -> length y = n -> dot x y * dot x y <= dot x x * dot y y.
Proof.
  intros Lx Ly. destruct (Req_dec (dot y y) 0) as [E|N].
  - apply dot_self_zero in E. rewrite E, dot_zero_r. pose proof (dot_self_nonneg x). rewrite dot_zero_l. lra.
  - pose proof (dot_self_nonneg y) as P. assert (0 < dot y y) by lra.
    pose proof (dot_self_nonneg (vsub (vscale (dot y y) x) (vscale (dot x y) y))) as Q.
    rewrite dot_vsub_l, !dot_vsub_r, !dot_vscale_l, !dot_vscale_r in Q by (rewrite !vscale_length; congruence). rewrite (dot_comm y x) in Q.
    assert (0 <= dot y y * (dot x x * dot y y - dot x y * dot x y)) by (eapply Rle_trans; [exact Q|right; ring]).
    apply Rmult_le_reg_l with (dot y y); [assumption|]. lra.
Qed.
Lemma mat_dot_form0 n (ts : terms) Ms (x y : vec) : matrices n ts Ms -> length x = n -> fold_right (fun t a => fst t * dot y (snd t x) + a) 0 ts = form ts Ms y x.
Proof.
  intros HM Lx. unfold form. induction HM as [|t M ts' Ms' [H1 H2] _ IH]; cbn; [reflexivity|]. rewrite IH, H2 by assumption. reflexivity.
Qed.
Lemma term_length0 n (ts : terms) Ms x : matrices n ts Ms -> length x = n -> forall t, In t ts -> length (snd t x) = n.
Proof.
  intros HM Lx. induction HM as [|t M ts' Ms' [H1 H2] _ IH]; intros u Hu; [destruct Hu|]. destruct Hu as [->|Hu]; [rewrite H2, mv_length by assumption; apply H1|apply IH; assumption].
Qed.
Section Form.
  Context (n : nat) (ts : terms) (Ms : list mat) (HM : matrices n ts Ms).
  Notation Q := (form ts Ms).
  Lemma mat_dot_form (x y : vec) : length x = n -> fold_right (fun t a => fst t * dot y (snd t x) + a) 0 ts = Q y x.
  Proof. apply (mat_dot_form0 n). assumption. Qed.
  Lemma term_length x : length x = n -> forall t, In t ts -> length (snd t x) = n.
  Proof. apply (term_length0 n ts Ms). assumption. Qed.
  Lemma product_length x : length x = n -> length (product n ts x) = n.
  Proof. intros Lx. apply (product_acc n ts x (vzero n)); [apply vzero_length|apply term_length; assumption]. Qed.
  Lemma product_dot x y : length x = n -> dot y (product n ts x) = Q y x.
  Proof.
    intros Lx. destruct (product_acc n ts x (vzero n)) as [_ D]; [apply vzero_length|apply term_length; assumption|].
    unfold product. rewrite D, dot_zero_r, Rplus_0_l. apply mat_dot_form. assumption.
  Qed.
  Lemma rayleigh_form x : length x = n -> rayleigh ts x = Q x x.
  Proof. intros Lx. unfold rayleigh. rewrite rayleigh_acc, Rplus_0_l. apply mat_dot_form. assumption. Qed.
  Lemma form_scale c d x y : Q (vscale c x) (vscale d y) = c * d * Q x y.
  Proof.
    unfold form. generalize (combine ts Ms) as l. induction l as [|[t M] l IH]; cbn [fold_right fst snd]; [ring|]. rewrite IH, mv_vscale, dot_vscale_l, dot_vscale_r. ring.
  Qed.
  Lemma form_add_l x y z : length x = length y -> Q (vadd x y) z = Q x z + Q y z.
  Proof. intros L. unfold form. generalize (combine ts Ms) as l. induction l as [|[t M] l IH]; cbn [fold_right fst snd]; [ring|]. rewrite IH, dot_vadd_l by assumption. ring. Qed.
  Lemma form_add_r x y z : length x = length y -> Q z (vadd x y) = Q z x + Q z y.
  Proof. intros L. unfold form. generalize (combine ts Ms) as l. induction l as [|[t M] l IH]; cbn [fold_right fst snd]; [ring|]. rewrite IH, mv_vadd, dot_vadd_r by (rewrite ?mv_length; trivial). ring. Qed.
  Lemma form_scale_l c x y : Q (vscale c x) y = c * Q x y.
  Proof. rewrite <- (vscale_1 y) at 1. rewrite form_scale. ring. Qed.
  Lemma form_scale_r c x y : Q x (vscale c y) = c * Q x y.
  Proof. rewrite <- (vscale_1 x) at 1. rewrite form_scale. ring. Qed.
  Lemma product_scale c x : length x = n -> product n ts (vscale c x) = vscale c (product n ts x).
  Proof.
    intros Lx. apply dot_ext; [rewrite vscale_length, !product_length by (rewrite ?vscale_length; assumption); reflexivity|].
    intros y _. rewrite (dot_comm _ y), (dot_comm _ y), dot_vscale_r, !product_dot by (rewrite ?vscale_length; assumption). rewrite <- (vscale_1 y) at 1. rewrite form_scale. ring.
  Qed.
  (** the vectors before they are normalized *)
  Fixpoint pows (k : nat) (x : vec) : vec := match k with O => x | S k' => product n ts (pows k' x) end.
  Lemma pows_shift k x : pows k (product n ts x) = product n ts (pows k x).
  Proof. induction k as [|k IH]; cbn; [reflexivity|]. rewrite IH. reflexivity. Qed.
  Lemma pows_length k x : length x = n -> length (pows k x) = n.
  Proof. intros L. induction k as [|k IH]; cbn; [assumption|]. apply product_length. assumption. Qed.
  Lemma pows_scale k c x : length x = n -> pows k (vscale c x) = vscale c (pows k x).
  Proof. intros L. induction k as [|k IH]; cbn; [reflexivity|]. rewrite IH. apply product_scale, pows_length. assumption. Qed.
  Lemma iterate_pows k : forall x x', length x = n -> dot x x = 1 -> iterate k n ts x = Some x' ->
    exists s, 0 < s /\ x' = vscale s (pows k x) /\ dot x' x' = 1.
  Proof.
    induction k as [|k IH]; intros x x' Lx Ux E; cbn in E.
    - injection E as <-. exists 1. cbn [pows]. rewrite vscale_1. split; [lra|]. split; [reflexivity|assumption].
    - destruct (normalized (product n ts x)) as [y|] eqn:EN; [|discriminate]. apply normalized_some in EN. destruct EN as (P & EY & UY).
      assert (Ly : length y = n) by (rewrite EY, vscale_length; apply product_length; assumption).
      destruct (IH y x' Ly UY E) as (s & Ps & EX & UX). exists (s * / norm (product n ts x)). split; [apply Rmult_lt_0_compat; [assumption|apply Rinv_0_lt_compat; assumption]|].
      split; [|assumption]. rewrite EX, EY, pows_scale by (apply product_length; assumption). rewrite vscale_vscale. cbn [pows]. rewrite pows_shift. reflexivity.
  Qed.
  Lemma iterate_some k : forall x, length x = n -> dot x x = 1 -> (forall j, (j <= k)%nat -> dot (pows j x) (pows j x) <> 0) -> exists x', iterate k n ts x = Some x'.
  Proof.
    induction k as [|k IH]; intros x Lx Ux H; cbn; [eauto|].
    assert (N1 : dot (product n ts x) (product n ts x) <> 0) by (apply (H 1%nat); lia). rewrite normalized_pos by assumption.
    assert (PN : 0 < norm (product n ts x)).
    { pose proof (norm_nonneg (product n ts x)). destruct (Req_dec (norm (product n ts x)) 0) as [E|]; [|lra]. exfalso. apply N1. rewrite <- norm_sq, E. ring. }
    apply IH.
    - rewrite vscale_length. apply product_length. assumption.
    - rewrite dot_vscale_l, dot_vscale_r, <- norm_sq. field. lra.
    - intros j Hj. rewrite pows_scale by (apply product_length; assumption). rewrite dot_vscale_l, dot_vscale_r, pows_shift. change (product n ts (pows j x)) with (pows (S j) x).
      intros E. apply (H (S j)); [lia|]. pose proof (Rinv_0_lt_compat _ PN). apply Rmult_integral in E. destruct E as [E|E]; [lra|]. apply Rmult_integral in E. destruct E as [E|E]; [lra|assumption].
  Qed.
  Notation a k x := (dot (pows k x) (pows k x)).
  Notation b k x := (Q (pows k x) (pows k x)).
  Lemma eigenvalue_spec x0 k lam : length x0 = n -> eigenvalue ts x0 k = Some lam -> 0 < a k x0 /\ lam = b k x0 / a k x0.
  Proof.
    intros L0. unfold eigenvalue. destruct (normalized x0) as [x|] eqn:EN; [|discriminate]. rewrite L0. destruct (iterate k n ts x) as [x'|] eqn:EI; [|discriminate].
    intros E. injection E as <-. apply normalized_some in EN. destruct EN as (P & EX & UX).
    assert (Lx : length x = n) by (rewrite EX, vscale_length; assumption). destruct (iterate_pows k x x' Lx UX EI) as (s & Ps & EX' & UX').
    rewrite EX, pows_scale, vscale_vscale in EX' by assumption. set (c := s * / norm x0) in *. rewrite rayleigh_form by (rewrite EX', vscale_length; apply pows_length; assumption).
    rewrite EX', form_scale. rewrite EX', dot_vscale_l, dot_vscale_r in UX'. pose proof (dot_self_nonneg (pows k x0)) as NN.
    assert (N : a k x0 <> 0) by (intros E; rewrite E in UX'; lra). split; [lra|]. apply (Rmult_eq_reg_r (a k x0)); [|assumption].
    unfold Rdiv. rewrite (Rmult_assoc (b k x0)), Rinv_l by assumption. rewrite Rmult_1_r.
    replace (c * c * b k x0 * a k x0) with (c * (c * a k x0) * b k x0) by ring. rewrite UX'. ring.
  Qed.
  Lemma eigenvalue_some x0 k : length x0 = n -> (forall j, (j <= k)%nat -> a j x0 <> 0) -> exists lam, eigenvalue ts x0 k = Some lam.
  Proof.
    intros L0 H. unfold eigenvalue. assert (H0 : dot x0 x0 <> 0) by (apply (H 0%nat); lia). rewrite normalized_pos by assumption. rewrite L0.
    assert (PN : 0 < norm x0).
    { pose proof (norm_nonneg x0). destruct (Req_dec (norm x0) 0) as [E|]; [|lra]. exfalso. apply H0. rewrite <- norm_sq, E. ring. }
    destruct (iterate_some k (vscale (/ norm x0) x0)) as [x' ->].
    - rewrite vscale_length. assumption.
    - rewrite dot_vscale_l, dot_vscale_r, <- norm_sq. field. lra.
    - intros j Hj. rewrite pows_scale, dot_vscale_l, dot_vscale_r by assumption. intros E. apply (H j Hj). pose proof (Rinv_0_lt_compat _ PN).
      apply Rmult_integral in E. destruct E as [E|E]; [lra|]. apply Rmult_integral in E. destruct E as [E|E]; [lra|assumption].
    - eauto.
  Qed.
  (** The estimate lies between bounds of the quadratic form. *)
  Lemma c52_bounds lo hi x0 k lam : length x0 = n -> (forall x, length x = n -> lo * dot x x <= Q x x <= hi * dot x x) ->
    eigenvalue ts x0 k = Some lam -> lo <= lam <= hi.
  Proof.
    intros L0 HB E. destruct (eigenvalue_spec x0 k lam L0 E) as [P ->]. destruct (HB (pows k x0) (pows_length k x0 L0)) as [B1 B2].
    split; apply (Rmult_le_reg_r (a k x0)); try assumption; unfold Rdiv; rewrite Rmult_assoc, Rinv_l by lra; lra.
  Qed.
  (** Exact on eigenvectors. *)
  Lemma c52_eigen lam x0 k : eigenvector n ts Ms lam x0 -> lam <> 0 -> eigenvalue ts x0 k = Some lam.
  Proof.
    intros (L0 & N0 & HE) HL.
    assert (PE : product n ts x0 = vscale lam x0).
    { apply dot_ext; [rewrite vscale_length, product_length; congruence|]. intros y Ly. rewrite product_length in Ly by assumption.
      rewrite (dot_comm _ y), (dot_comm _ y), product_dot, dot_vscale_r by assumption. apply HE. assumption. }
    assert (PP : forall j, pows j x0 = vscale (lam ^ j) x0).
    { induction j as [|j IH]; cbn [pows pow]; [rewrite vscale_1; reflexivity|]. rewrite IH, product_scale, PE, vscale_vscale by assumption. f_equal. ring. }
    assert (D0 : dot x0 x0 <> 0) by (intros E; apply dot_self_zero in E; rewrite L0 in E; contradiction).
    assert (AJ : forall j, a j x0 <> 0).
    { intros j. rewrite PP, dot_vscale_l, dot_vscale_r. pose proof (pow_nonzero lam j HL). intros E. apply Rmult_integral in E. destruct E as [E|E]; [contradiction|]. apply Rmult_integral in E. destruct E; contradiction. }
    destruct (eigenvalue_some x0 k L0 (fun j _ => AJ j)) as [mu E]. destruct (eigenvalue_spec x0 k mu L0 E) as [P EM]. rewrite E. f_equal. rewrite EM.
    pose proof (pow_nonzero lam k HL). rewrite PP, form_scale, dot_vscale_l, dot_vscale_r, (HE x0) by assumption. field. split; assumption.
  Qed.
  Context (HS : symmetric n ts Ms) (HP : semidefinite n ts Ms).
  Lemma form_cauchy x y : length x = n -> length y = n -> Q x y * Q x y <= Q x x * Q y y.
  Proof.
    intros Lx Ly. pose proof (HP x Lx) as Px. pose proof (HP y Ly) as Py.
    assert (G : forall s t, 0 <= s * s * Q x x - 2 * s * t * Q x y + t * t * Q y y).
    { intros s t. assert (L : length (vscale s x) = length (vscale (- t) y)) by (rewrite !vscale_length; congruence).
      pose proof (HP (vadd (vscale s x) (vscale (- t) y)) ltac:(rewrite vadd_length, vscale_length; congruence)) as H.
      rewrite form_add_l, !form_add_r, !form_scale in H by assumption. rewrite (HS y x) in H by assumption. eapply Rle_trans; [exact H|right; ring]. }
    destruct (Req_dec (Q y y) 0) as [E|N].
    - rewrite E, Rmult_0_r. destruct (Req_dec (Q x y) 0) as [->|N]; [lra|]. exfalso.
      pose proof (G 1 ((Q x x + 1) / Q x y)) as H. rewrite E in H.
      replace (1 * 1 * Q x x - 2 * 1 * ((Q x x + 1) / Q x y) * Q x y + (Q x x + 1) / Q x y * ((Q x x + 1) / Q x y) * 0) with (- Q x x - 2) in H by (field; assumption). lra.
    - assert (0 < Q y y) by lra. pose proof (G (Q y y) (Q x y)) as H0.
      apply Rmult_le_reg_l with (Q y y); [assumption|]. eapply Rplus_le_reg_r with (- (Q y y * (Q x y * Q x y))). eapply Rle_trans; [|eapply Rle_trans; [exact H0|right; ring]]. lra.
  Qed.
  Lemma b_nonneg k x : length x = n -> 0 <= b k x.
  Proof. intros L. apply HP, pows_length. assumption. Qed.
  Lemma step_a k x : length x = n -> a (S k) x * a (S k) x <= b k x * b (S k) x.
  Proof.
    intros L. pose proof (form_cauchy (pows k x) (pows (S k) x) (pows_length k x L) (pows_length (S k) x L)) as C.
    assert (E : Q (pows k x) (pows (S k) x) = a (S k) x); [|rewrite E in C; exact C].
    rewrite HS by (apply pows_length; assumption). rewrite <- product_dot by (apply pows_length; assumption). reflexivity.
  Qed.
  Lemma step_b k x : length x = n -> b k x * b k x <= a k x * a (S k) x.
  Proof.
    intros L. pose proof (cauchy n (pows k x) (pows (S k) x) (pows_length k x L) (pows_length (S k) x L)) as C.
    assert (E : dot (pows k x) (pows (S k) x) = b k x) by (cbn [pows]; apply product_dot, pows_length; assumption). rewrite E in C. exact C.
  Qed.
  Lemma ratio_mono k x : length x = n -> 0 < a k x -> 0 < a (S k) x -> b k x / a k x <= b (S k) x / a (S k) x.
  Proof.
    intros L P1 P2. pose proof (step_a k x L) as SA. pose proof (step_b k x L) as SB. pose proof (b_nonneg k x L) as B0. pose proof (b_nonneg (S k) x L) as B1.
    set (a0 := a k x) in *. set (a1 := a (S k) x) in *. set (b0 := b k x) in *. set (b1 := b (S k) x) in *.
    assert (PB : 0 < b0). { destruct (Req_dec b0 0) as [E|]; [|lra]. rewrite E in SA. nra. }
    apply (Rmult_le_reg_r (a0 * a1)); [apply Rmult_lt_0_compat; assumption|].
    replace (b0 / a0 * (a0 * a1)) with (b0 * a1) by (field; lra). replace (b1 / a1 * (a0 * a1)) with (b1 * a0) by (field; lra).
    apply (Rmult_le_reg_l b0); [assumption|]. assert (b0 * b0 * a1 <= a0 * a1 * a1) by (apply Rmult_le_compat_r; lra).
    assert (a0 * (a1 * a1) <= a0 * (b0 * b1)) by (apply Rmult_le_compat_l; lra). lra.
  Qed.
  Lemma c52_monotone x0 k l1 l2 : length x0 = n -> eigenvalue ts x0 k = Some l1 -> eigenvalue ts x0 (S k) = Some l2 -> l1 <= l2.
  Proof.
    intros L0 E1 E2. destruct (eigenvalue_spec x0 k l1 L0 E1) as [P1 ->]. destruct (eigenvalue_spec x0 (S k) l2 L0 E2) as [P2 ->]. apply ratio_mono; assumption.
  Qed.
  (** Convergence to the largest eigenvalue. *)
  Context (lam : R) (e x0 : vec) (HL : 0 < lam) (HE : eigenvector n ts Ms lam e) (HT : forall x, length x = n -> Q x x <= lam * dot x x) (L0 : length x0 = n) (HC : dot e x0 <> 0).
  Lemma along k : dot e (pows k x0) = lam ^ k * dot e x0.
  Proof.
    induction k as [|k IH]; cbn [pows pow]; [ring|]. rewrite product_dot by (apply pows_length; assumption). destruct HE as (Le & _ & HE').
    rewrite HS by (try apply pows_length; assumption). rewrite HE' by (apply pows_length; assumption). rewrite dot_comm, IH. ring.
  Qed.
  Lemma e_pos : 0 < dot e e.
  Proof. pose proof (dot_self_nonneg e). destruct HE as (Le & Ne & _). destruct (Req_dec (dot e e) 0) as [E|]; [|lra]. apply dot_self_zero in E. rewrite Le in E. contradiction. Qed.
  Lemma a_big k : (lam ^ k * dot e x0) * (lam ^ k * dot e x0) <= dot e e * a k x0.
  Proof. rewrite <- along. apply (cauchy n); [apply HE|apply pows_length; assumption]. Qed.
  Lemma a_pos k : 0 < a k x0.
  Proof.
    pose proof (a_big k) as B. pose proof e_pos as PE. pose proof (dot_self_nonneg (pows k x0)) as N. destruct (Req_dec (a k x0) 0) as [E|]; [|lra].
    exfalso. rewrite E, Rmult_0_r in B. pose proof (pow_lt lam k HL). assert (lam ^ k * dot e x0 <> 0) by (apply Rmult_integral_contrapositive; split; [lra|assumption]).
    pose proof (Rsqr_pos_lt _ H0). unfold Rsqr in *. lra.
  Qed.
  Lemma ratio_mono_le j k : (j <= k)%nat -> b j x0 / a j x0 <= b k x0 / a k x0.
  Proof. induction 1 as [|k _ IH]; [lra|]. eapply Rle_trans; [exact IH|]. apply ratio_mono; [assumption|apply a_pos|apply a_pos]. Qed.
  Lemma a_small mu k : 0 <= mu -> (forall j, (j <= k)%nat -> b j x0 / a j x0 <= mu) -> a k x0 <= (mu ^ k * mu ^ k) * a 0 x0.
  Proof.
    intros PM. induction k as [|k IH]; intros H; [cbn; lra|].
    assert (B : forall j, (j <= S k)%nat -> b j x0 <= mu * a j x0).
    { intros j Hj. pose proof (H j Hj) as Hr. pose proof (a_pos j) as P. apply (Rmult_le_compat_r (a j x0)) in Hr; [|lra]. unfold Rdiv in Hr. rewrite Rmult_assoc, Rinv_l in Hr by lra. lra. }
    pose proof (step_a k x0 L0) as SA. pose proof (B k ltac:(lia)) as B0. pose proof (B (S k) ltac:(lia)) as B1. pose proof (a_pos (S k)) as PS.
    pose proof (b_nonneg k x0 L0) as N0. pose proof (b_nonneg (S k) x0 L0) as N1. specialize (IH ltac:(intros; apply H; lia)).
    assert (A1 : a (S k) x0 <= mu * mu * a k x0).
    { apply (Rmult_le_reg_r (a (S k) x0)); [assumption|]. eapply Rle_trans; [exact SA|]. eapply Rle_trans; [apply Rmult_le_compat; [assumption|assumption|exact B0|exact B1]|]. right. ring. }
    eapply Rle_trans; [exact A1|]. eapply Rle_trans; [apply Rmult_le_compat_l; [nra|exact IH]|]. right. cbn [pow]. ring.
  Qed.
  Lemma c52_converges : exists l, (forall k, eigenvalue ts x0 k = Some (l k)) /\ Un_cv l lam.
  Proof.
    exists (fun k => b k x0 / a k x0). split.
    - intros k. destruct (eigenvalue_some x0 k L0) as [l E]; [intros j _; pose proof (a_pos j); lra|]. rewrite E. f_equal. destruct (eigenvalue_spec x0 k l L0 E) as [_ ->]. reflexivity.
    - intros eps He. set (mu := Rmax 0 (lam - eps)). assert (M1 : 0 <= mu) by apply Rmax_l. assert (M2 : mu < lam) by (apply Rmax_lub_lt; lra).
      set (q := mu / lam). assert (Q0 : 0 <= q < 1). { unfold q. split; [apply Rmult_le_pos; [assumption|apply Rlt_le, Rinv_0_lt_compat; assumption]|]. apply (Rmult_lt_reg_r lam); [assumption|]. unfold Rdiv. rewrite Rmult_assoc, Rinv_l by lra. lra. }
      set (C := dot e x0 * dot e x0 / (dot e e * a 0 x0)).
      assert (PC : 0 < C). { unfold C. apply Rdiv_lt_0_compat; [apply Rsqr_pos_lt; assumption|apply Rmult_lt_0_compat; [apply e_pos|apply a_pos]]. }
      destruct (pow_lt_1_zero q ltac:(rewrite Rabs_right; lra) C PC) as [N HN]. exists N. intros k Hk.
      assert (UP : b k x0 / a k x0 <= lam). { pose proof (a_pos k). apply (Rmult_le_reg_r (a k x0)); [assumption|]. unfold Rdiv. rewrite Rmult_assoc, Rinv_l by lra. rewrite Rmult_1_r. apply HT, pows_length. assumption. }
      assert (LOW : mu < b k x0 / a k x0).
      { destruct (Rlt_le_dec mu (b k x0 / a k x0)) as [|H]; [assumption|]. exfalso.
        assert (HA : a k x0 <= (mu ^ k * mu ^ k) * a 0 x0) by (apply a_small; [assumption|]; intros j Hj; eapply Rle_trans; [apply ratio_mono_le; exact Hj|exact H]).
        pose proof (a_big k) as HB. pose proof (HN k Hk) as HQ. rewrite Rabs_right in HQ by (apply Rle_ge, pow_le; lra).
        assert (Q1 : q ^ k <= 1) by (rewrite <- (pow1 k); apply pow_incr; lra). assert (Q2 : 0 <= q ^ k) by (apply pow_le; lra).
        assert (EM : mu ^ k = q ^ k * lam ^ k). { rewrite <- Rpow_mult_distr. f_equal. unfold q. field. lra. }
        pose proof (pow_lt lam k HL) as PL. rewrite EM in HA.
        assert (S : (lam ^ k * dot e x0) * (lam ^ k * dot e x0) <= dot e e * ((q ^ k * lam ^ k * (q ^ k * lam ^ k)) * a 0 x0)) by (eapply Rle_trans; [exact HB|apply Rmult_le_compat_l; [pose proof e_pos; lra|exact HA]]).
        assert (S2 : dot e x0 * dot e x0 <= dot e e * a 0 x0 * (q ^ k * q ^ k)).
        { apply (Rmult_le_reg_l (lam ^ k * lam ^ k)); [nra|]. eapply Rle_trans; [|eapply Rle_trans; [exact S|]]; right; ring. }
        assert (PD : 0 < dot e e * a 0 x0) by (apply Rmult_lt_0_compat; [apply e_pos|apply a_pos]).
        assert (S3 : C <= q ^ k * q ^ k). { unfold C. apply (Rmult_le_reg_r (dot e e * a 0 x0)); [assumption|]. unfold Rdiv. rewrite Rmult_assoc, Rinv_l by lra. lra. }
        nra. }
      unfold R_dist. pose proof (Rmax_r 0 (lam - eps)). fold mu in H. rewrite Rabs_left1 by lra. lra.
  Qed.
End Form.
(** Scaling the combination scales the estimate. *)
Lemma matrices_scaled n c ts Ms : matrices n ts Ms -> matrices n (scaled c ts) Ms.
Proof. intros H. induction H as [|t M ts Ms H _ IH]; cbn; constructor; auto. Qed.
Lemma form_scaled c ts Ms x y : form (scaled c ts) Ms x y = c * form ts Ms x y.
Proof.
  unfold form. revert Ms. induction ts as [|t ts IH]; intros [|M Ms]; cbn; try ring. fold (scaled c ts). rewrite IH. ring.
Qed.
Lemma c52_scaled n c ts Ms x0 k lam : matrices n ts Ms -> length x0 = n -> 0 < c -> eigenvalue ts x0 k = Some lam -> eigenvalue (scaled c ts) x0 k = Some (c * lam).
Proof.
  intros HM L0 Hc E. pose proof (matrices_scaled n c ts Ms HM) as HM'.
  assert (PP : forall j, pows n (scaled c ts) j x0 = vscale (c ^ j) (pows n ts j x0)).
  { induction j as [|j IH]; cbn [pows pow]; [rewrite vscale_1; reflexivity|]. assert (LJ : length (pows n ts j x0) = n) by (eapply pows_length; eassumption).
    rewrite IH. rewrite (product_scale n (scaled c ts) Ms HM') by assumption.
    apply dot_ext; [rewrite !vscale_length, (product_length n _ Ms HM'), (product_length n _ Ms HM); trivial|]. intros y Ly.
    rewrite !(dot_comm _ y), !dot_vscale_r, (product_dot n _ Ms HM'), (product_dot n _ Ms HM), form_scaled by assumption. ring. }
  assert (AJ : forall j, (j <= k)%nat -> dot (pows n ts j x0) (pows n ts j x0) <> 0).
  { destruct (eigenvalue_spec n ts Ms HM x0 k lam L0 E) as [PK _]. intros j Hj EJ. apply dot_self_zero in EJ. rewrite (pows_length n ts Ms HM j x0 L0) in EJ.
    assert (Z : forall i, pows n ts (i + j) x0 = vzero n).
    { induction i as [|i IH]; [exact EJ|]. cbn [plus pows]. rewrite IH. rewrite <- (vscale_0 (vzero n)) at 1 || idtac.
      assert (V : vzero n = vscale 0 (vzero n)) by (rewrite vscale_vzero; reflexivity). rewrite V at 1. rewrite (product_scale n ts Ms HM) by apply vzero_length. rewrite vscale_0. rewrite (product_length n ts Ms HM) by apply vzero_length. reflexivity. }
    specialize (Z (k - j)%nat). replace (k - j + j)%nat with k in Z by lia. rewrite Z, dot_zero_l in PK. lra. }
  destruct (eigenvalue_some n (scaled c ts) Ms HM' x0 k L0) as [mu E'].
  - intros j Hj. rewrite PP, dot_vscale_l, dot_vscale_r. pose proof (pow_lt c j Hc). pose proof (AJ j Hj). intros Z. apply Rmult_integral in Z. destruct Z as [Z|Z]; [lra|]. apply Rmult_integral in Z. destruct Z as [Z|Z]; [lra|contradiction].
  - rewrite E'. f_equal. destruct (eigenvalue_spec n _ Ms HM' x0 k mu L0 E') as [_ ->]. destruct (eigenvalue_spec n ts Ms HM x0 k lam L0 E) as [P ->].
    pose proof (pow_lt c k Hc). rewrite PP, form_scaled, form_scale, dot_vscale_l, dot_vscale_r. field. split; lra.
Qed.
(** With opposite eigenvalues of the same size the estimate never moves. *)
Lemma c52_indefinite k : eigenvalue [(1, fun v => mv [[1; 0]; [0; -1]] v)] [3; 4] k = Some (- (7 / 25)).
Proof.
  set (ts := [(1, fun v => mv [[1; 0]; [0; -1]] v)]). set (Ms := [[[1; 0]; [0; -1]]]).
  assert (HM : matrices 2 ts Ms) by (constructor; [split; [split; [reflexivity|repeat constructor]|reflexivity]|constructor]).
  assert (PP : forall j, pows 2 ts j [3; 4] = [3; 4] \/ pows 2 ts j [3; 4] = [3; -4]).
  { induction j as [|j [IH|IH]]; [left; reflexivity| |]; cbn [pows]; rewrite IH; unfold product, ts; cbn; [right|left]; (f_equal; [ring|f_equal; ring]). }
  destruct (eigenvalue_some 2 ts Ms HM [3; 4] k eq_refl) as [mu E].
  - intros j _. destruct (PP j) as [->| ->]; cbn; lra.
  - rewrite E. f_equal. destruct (eigenvalue_spec 2 ts Ms HM [3; 4] k mu eq_refl E) as [_ ->]. destruct (PP k) as [->| ->]; unfold form, Ms, ts; cbn; field.
Qed.
Lemma c52_indefinite_witness : exists n ts Ms x0 mu, matrices n ts Ms /\ symmetric n ts Ms /\ length x0 = n /\ Rabs mu < 1 /\
  (exists e, eigenvector n ts Ms 1 e /\ dot e x0 <> 0) /\ forall k, eigenvalue ts x0 k = Some mu.
Proof.
  exists 2%nat, [(1, fun v => mv [[1; 0]; [0; -1]] v)], [[[1; 0]; [0; -1]]], [3; 4], (- (7 / 25)). split; [repeat constructor|]. split.
  - intros [|x [|y [|]]] [|x' [|y' [|]]] L L'; try discriminate. unfold form. cbn. ring.
  - split; [reflexivity|]. split; [rewrite Rabs_Ropp, Rabs_pos_eq by lra; lra|]. split; [|exact c52_indefinite]. exists [1; 0]. split; [|cbn; lra].
    split; [reflexivity|]. split; [intros H; injection H as H; lra|]. intros [|x [|y [|]]] L; try discriminate. unfold form. cbn. ring.
Qed.
