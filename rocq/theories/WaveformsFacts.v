(** Proofs about waveforms. *)
From Coq Require Import Lra Sorted Permutation.
From Verif Require Import Py Vec VecDeriv Waveforms SpecWaveforms.
Local Open Scope R_scope.

Ltac cmp := unfold rlt, rle in *; repeat match goal with
  | |- context [Rlt_dec ?a ?b] => destruct (Rlt_dec a b); cbn [andb orb negb]; try (exfalso; lra)
  | |- context [Rle_dec ?a ?b] => destruct (Rle_dec a b); cbn [andb orb negb]; try (exfalso; lra)
  end.
Lemma dpl_int f g a b t l : a < t < b -> (forall s, a < s < b -> f s = g s) -> derivable_pt_lim g t l -> derivable_pt_lim f t l.
Proof.
  intros I E D. apply (dpl_local g f); [|exact D]. exists (Rmin (t - a) (b - t)). split; [apply Rmin_pos; lra|].
  intros h H. symmetry. apply E. pose proof (Rmin_l (t - a) (b - t)). pose proof (Rmin_r (t - a) (b - t)). apply Rabs_def2 in H. lra.
Qed.
Lemma dpl_left f g b t l : t < b -> (forall s, s < b -> f s = g s) -> derivable_pt_lim g t l -> derivable_pt_lim f t l.
Proof. intros I E. apply (dpl_int f g (t - 1) b t l); [lra|]. intros s Hs. apply E. lra. Qed.
Lemma dpl_right f g a t l : a < t -> (forall s, a < s -> f s = g s) -> derivable_pt_lim g t l -> derivable_pt_lim f t l.
Proof. intros I E. apply (dpl_int f g a (t + 1) t l); [lra|]. intros s Hs. apply E. lra. Qed.
(** ** Clamping *)
Definition clamp (x : R) : R := (Rabs x - Rabs (x - 1) + 1) / 2.
Lemma clamp_lo x : x <= 0 -> clamp x = 0.
Proof. intros H. unfold clamp. rewrite !Rabs_left1 by lra. lra. Qed.
Lemma clamp_hi x : 1 <= x -> clamp x = 1.
Proof. intros H. unfold clamp. rewrite !Rabs_right by lra. lra. Qed.
Lemma clamp_mid x : 0 <= x <= 1 -> clamp x = x.
Proof. intros H. unfold clamp. rewrite Rabs_right, Rabs_left1 by lra. lra. Qed.
Lemma clamp_range x : 0 <= clamp x <= 1.
Proof. destruct (Rle_dec x 0); [rewrite clamp_lo by lra; lra|]. destruct (Rle_dec 1 x); [rewrite clamp_hi by lra; lra|]. rewrite clamp_mid by lra. lra. Qed.
Lemma cont_ext f g : (forall t, f t = g t) -> continuous g -> continuous f.
Proof. intros E C t. apply (continuity_pt_locally_ext g f 1 t); [lra|intros; symmetry; apply E|]. apply C. Qed.
Lemma cont_comp f g : continuous f -> continuous g -> continuous (fun t => g (f t)).
Proof. intros F G t. apply (continuity_pt_comp f g); [apply F|apply G]. Qed.
Lemma cont_plus f g : continuous f -> continuous g -> continuous (fun t => f t + g t).
Proof. intros F G t. apply (continuity_pt_plus f g); [apply F|apply G]. Qed.
Lemma cont_minus f g : continuous f -> continuous g -> continuous (fun t => f t - g t).
Proof. intros F G t. apply (continuity_pt_minus f g); [apply F|apply G]. Qed.
Lemma cont_mult f g : continuous f -> continuous g -> continuous (fun t => f t * g t).
Proof. intros F G t. apply (continuity_pt_mult f g); [apply F|apply G]. Qed.
Lemma cont_const c : continuous (fun _ => c).
Proof. intros t. apply continuity_pt_const. intros x y. reflexivity. Qed.
Lemma cont_id : continuous (fun t => t).
Proof. intros t. apply derivable_continuous_pt, derivable_pt_id. Qed.
Lemma cont_abs : continuous Rabs.
Proof. exact Rcontinuity_abs. Qed.
Lemma cont_clamp : continuous clamp.
Proof.
  unfold clamp. apply cont_mult; [|apply cont_const]. apply cont_plus; [|apply cont_const]. apply cont_minus; [apply cont_abs|].
  apply (cont_comp (fun t => t - 1) Rabs); [apply cont_minus; [apply cont_id|apply cont_const]|apply cont_abs].
Qed.
Lemma cont_lin a w : continuous (fun t => (t - a) / w).
Proof. apply cont_mult; [apply cont_minus; [apply cont_id|apply cont_const]|apply cont_const]. Qed.
Lemma cont_exp : continuous exp.
Proof. intros t. apply derivable_continuous_pt, derivable_pt_exp. Qed.
Lemma cont_sin : continuous sin.
Proof. exact continuity_sin. Qed.
Lemma cont_cos : continuous cos.
Proof. exact continuity_cos. Qed.
Lemma lin_lo a b t : a < b -> t <= a -> (t - a) / (b - a) <= 0.
Proof. intros H L. assert (0 < / (b - a)) by (apply Rinv_0_lt_compat; lra). unfold Rdiv. nra. Qed.
Lemma lin_hi a b t : a < b -> b <= t -> 1 <= (t - a) / (b - a).
Proof. intros H L. apply (Rmult_le_reg_r (b - a)); [lra|]. unfold Rdiv. rewrite Rmult_assoc, Rinv_l by lra. lra. Qed.
Lemma lin_mid a b t : a < b -> a <= t <= b -> 0 <= (t - a) / (b - a) <= 1.
Proof.
  intros H L. split; [apply (Rmult_le_reg_r (b - a))|apply (Rmult_le_reg_r (b - a))]; try lra; unfold Rdiv; rewrite Rmult_assoc, Rinv_l by lra; lra.
Qed.
(** ** Trapezoid-like pulses *)
Definition shape (u d : R -> R) (r : ramps) (t : R) : R :=
  if rlt t (on0 r) then 0 else if rle t (on1 r) then u ((t - on0 r) / (on1 r - on0 r)) else if rlt t (off0 r) then 1
  else if rle t (off1 r) then d ((t - off0 r) / (off1 r - off0 r)) else 0.
Definition arc (u : R -> R) : Prop := continuous u /\ forall x, 0 <= x <= 1 -> 0 <= u x <= 1.
Lemma shape_prod u d r t : ordered r -> u 0 = 0 -> u 1 = 1 -> d 0 = 1 -> d 1 = 0 ->
  shape u d r t = u (clamp ((t - on0 r) / (on1 r - on0 r))) * d (clamp ((t - off0 r) / (off1 r - off0 r))).
Proof.
  intros [[A B] C] U0 U1 D0 D1. unfold shape.
  assert (Z : forall a b, a < b -> (b - a) / (b - a) = 1) by (intros; unfold Rdiv; apply Rinv_r; lra).
  destruct (Rlt_dec t (on0 r)) as [H1|H1].
  { unfold rlt at 1. destruct (Rlt_dec t (on0 r)); [|lra]. rewrite clamp_lo by (apply lin_lo; lra). rewrite U0. lra. }
  unfold rlt at 1. destruct (Rlt_dec t (on0 r)); [lra|]. unfold rle at 1. destruct (Rle_dec t (on1 r)) as [H2|H2].
  { rewrite (clamp_mid ((t - on0 r) / _)) by (apply lin_mid; lra). rewrite clamp_lo by (apply lin_lo; lra). rewrite D0. lra. }
  rewrite (clamp_hi ((t - on0 r) / _)) by (apply lin_hi; lra). rewrite U1. unfold rlt. destruct (Rlt_dec t (off0 r)) as [H3|H3].
  { rewrite clamp_lo by (apply lin_lo; lra). rewrite D0. lra. }
  unfold rle. destruct (Rle_dec t (off1 r)) as [H4|H4]; [rewrite clamp_mid by (apply lin_mid; lra); lra|]. rewrite clamp_hi by (apply lin_hi; lra). rewrite D1. lra.
Qed.
Lemma shape_pulse u d r : ordered r -> u 0 = 0 -> u 1 = 1 -> d 0 = 1 -> d 1 = 0 -> arc u -> arc d ->
  continuous (shape u d r) /\ pulse (on0 r) (on1 r) (off1 r) (shape u d r) /\ forall t, on1 r <= t <= off0 r -> shape u d r t = 1.
Proof.
  intros O U0 U1 D0 D1 [CU RU] [CD RD]. pose proof O as [[A B] C]. split; [|split].
  - apply (cont_ext _ (fun t => u (clamp ((t - on0 r) / (on1 r - on0 r))) * d (clamp ((t - off0 r) / (off1 r - off0 r))))); [intros t; apply shape_prod; assumption|].
    apply cont_mult; (apply cont_comp; [apply cont_comp; [apply cont_lin|apply cont_clamp]|assumption]).
  - split; [|split; [|split]].
    + intros t H. rewrite shape_prod by assumption. rewrite (clamp_lo ((t - on0 r) / _)) by (apply lin_lo; lra). rewrite U0. lra.
    + intros t H. rewrite shape_prod by assumption. rewrite (clamp_hi ((t - off0 r) / _)) by (apply lin_hi; lra). rewrite D1. lra.
    + rewrite shape_prod by assumption. rewrite (clamp_hi ((on1 r - on0 r) / _)) by (apply lin_hi; lra). rewrite (clamp_lo ((on1 r - off0 r) / _)) by (apply lin_lo; lra). rewrite U1, D0. lra.
    + intros t. rewrite shape_prod by assumption. pose proof (RU _ (clamp_range ((t - on0 r) / (on1 r - on0 r)))). pose proof (RD _ (clamp_range ((t - off0 r) / (off1 r - off0 r)))). nra.
  - intros t H. rewrite shape_prod by assumption. rewrite (clamp_hi ((t - on0 r) / _)) by (apply lin_hi; lra). rewrite (clamp_lo ((t - off0 r) / _)) by (apply lin_lo; lra). rewrite U1, D0. lra.
Qed.
Lemma shape_deriv u d u' d' r t : ordered r -> ~ In t (ramp_nodes r) -> (forall x, derivable_pt_lim u x (u' x)) -> (forall x, derivable_pt_lim d x (d' x)) ->
  derivable_pt_lim (shape u d r) t
    (if rlt t (on0 r) then 0 else if rlt t (on1 r) then u' ((t - on0 r) / (on1 r - on0 r)) / (on1 r - on0 r) else if rlt t (off0 r) then 0
     else if rlt t (off1 r) then d' ((t - off0 r) / (off1 r - off0 r)) / (off1 r - off0 r) else 0).
Proof.
  intros [[A B] C] N U D. assert (t <> on0 r /\ t <> on1 r /\ t <> off0 r /\ t <> off1 r) as (N0 & N1 & N2 & N3).
  { unfold ramp_nodes in N. cbn in N. repeat split; intros E; apply N; auto. }
  assert (L : forall (f f' : R -> R) a w, (forall x, derivable_pt_lim f x (f' x)) -> derivable_pt_lim (fun t => f ((t - a) / w)) t (f' ((t - a) / w) / w)).
  { intros f f' a w Hf. apply (dpl_eq _ _ (f' ((t - a) / w) * (1 / w))); [unfold Rdiv; ring|]. apply (dpl_comp (fun t => (t - a) / w) f); [|apply Hf].
    unfold Rdiv. apply (dpl_ext (fun t => / w * (t - a))); [intros; ring|]. apply (dpl_eq _ _ (/ w * (1 - 0))); [ring|]. apply dpl_scal, dpl_minus; [apply dpl_id|apply dpl_const]. }
  unfold rlt at 1. destruct (Rlt_dec t (on0 r)).
  { apply (dpl_left _ (fun _ => 0) (on0 r)); [lra| |apply dpl_const]. intros s H. unfold shape. cmp; reflexivity. }
  unfold rlt at 1. destruct (Rlt_dec t (on1 r)).
  { apply (dpl_int _ (fun t => u ((t - on0 r) / (on1 r - on0 r))) (on0 r) (on1 r)); [lra| |apply L, U]. intros s H. unfold shape. cmp; reflexivity. }
  unfold rlt at 1. destruct (Rlt_dec t (off0 r)).
  { apply (dpl_int _ (fun _ => 1) (on1 r) (off0 r)); [lra| |apply dpl_const]. intros s H. unfold shape. cmp; reflexivity. }
  unfold rlt. destruct (Rlt_dec t (off1 r)).
  { apply (dpl_int _ (fun t => d ((t - off0 r) / (off1 r - off0 r))) (off0 r) (off1 r)); [lra| |apply L, D]. intros s H. unfold shape. cmp; reflexivity. }
  apply (dpl_right _ (fun _ => 0) (off1 r)); [lra| |apply dpl_const]. intros s H. unfold shape. cmp; reflexivity.
Qed.
Definition rise (x : R) : R := x.
Definition fall (x : R) : R := 1 - x.
Definition srise (x : R) : R := sin (PI / 2 * x).
Definition cfall (x : R) : R := cos (PI / 2 * x).
Lemma rise_arc : arc rise.
Proof. split; [apply cont_id|]. unfold rise. intros; lra. Qed.
Lemma fall_arc : arc fall.
Proof. split; [apply cont_minus; [apply cont_const|apply cont_id]|]. unfold fall. intros; lra. Qed.
Lemma srise_arc : arc srise.
Proof.
  split; [apply (cont_comp (fun x => PI / 2 * x) sin); [apply cont_mult; [apply cont_const|apply cont_id]|apply cont_sin]|].
  intros x H. unfold srise. pose proof PI_RGT_0. split; [apply sin_ge_0; nra|apply SIN_bound].
Qed.
Lemma cfall_arc : arc cfall.
Proof.
  split; [apply (cont_comp (fun x => PI / 2 * x) cos); [apply cont_mult; [apply cont_const|apply cont_id]|apply cont_cos]|].
  intros x H. unfold cfall. pose proof PI_RGT_0. split; [apply cos_ge_0; nra|apply COS_bound].
Qed.
Lemma srise0 : srise 0 = 0. Proof. unfold srise. rewrite Rmult_0_r. apply sin_0. Qed.
Lemma srise1 : srise 1 = 1. Proof. unfold srise. rewrite Rmult_1_r. apply sin_PI2. Qed.
Lemma cfall0 : cfall 0 = 1. Proof. unfold cfall. rewrite Rmult_0_r. apply cos_0. Qed.
Lemma cfall1 : cfall 1 = 0. Proof. unfold cfall. rewrite Rmult_1_r. apply cos_PI2. Qed.
Lemma trapezoid_shape r t : trapezoid r t = shape rise fall r t.
Proof. unfold trapezoid, shape, rise, fall. cmp; unfold Rdiv; try reflexivity; ring. Qed.
Lemma quarter_shape r t : quarter_sine r t = shape srise fall r t.
Proof. unfold quarter_sine, shape, srise, fall. cmp; try reflexivity; try (unfold Rdiv; ring); f_equal; unfold Rdiv; ring. Qed.
Lemma half_shape r t : half_sine r t = shape srise cfall r t.
Proof. unfold half_sine, shape, srise, cfall. cmp; reflexivity. Qed.
Lemma pulse_ext a p b f g : (forall t, f t = g t) -> pulse a p b g -> pulse a p b f.
Proof. intros E (P1 & P2 & P3 & P4). repeat split; intros; rewrite E; auto; apply P4. Qed.
Lemma trap_ok f u d r : (forall t, f t = shape u d r t) -> ordered r -> u 0 = 0 -> u 1 = 1 -> d 0 = 1 -> d 1 = 0 -> arc u -> arc d ->
  continuous f /\ pulse (on0 r) (on1 r) (off1 r) f /\ forall t, on1 r <= t <= off0 r -> f t = 1.
Proof.
  intros E O U0 U1 D0 D1 AU AD. destruct (shape_pulse u d r O U0 U1 D0 D1 AU AD) as (P1 & P2 & P3). split; [eapply cont_ext; eauto|]. split; [eapply pulse_ext; eauto|].
  intros t H. rewrite E. apply P3, H.
Qed.
Lemma rise_d x : derivable_pt_lim rise x 1.
Proof. apply dpl_id. Qed.
Lemma fall_d x : derivable_pt_lim fall x (-1).
Proof. apply (dpl_eq _ _ (0 - 1)); [ring|]. apply dpl_minus; [apply dpl_const|apply dpl_id]. Qed.
Lemma srise_d x : derivable_pt_lim srise x (PI / 2 * cos (PI / 2 * x)).
Proof. apply (dpl_eq _ _ (cos (PI / 2 * x) * (PI / 2 * 1))); [ring|]. apply (dpl_comp (fun x => PI / 2 * x) sin); [apply dpl_scal, dpl_id|apply derivable_pt_lim_sin]. Qed.
Lemma cfall_d x : derivable_pt_lim cfall x (- (PI / 2 * sin (PI / 2 * x))).
Proof. apply (dpl_eq _ _ (- sin (PI / 2 * x) * (PI / 2 * 1))); [ring|]. apply (dpl_comp (fun x => PI / 2 * x) cos); [apply dpl_scal, dpl_id|apply derivable_pt_lim_cos]. Qed.
Lemma nodes4 t r : ~ In t (ramp_nodes r) -> t <> on0 r /\ t <> on1 r /\ t <> off0 r /\ t <> off1 r.
Proof. unfold ramp_nodes. cbn. intros N. repeat split; intros E; apply N; auto. Qed.
Lemma trapezoid_d r : ordered r -> deriv_off_nodes (ramp_nodes r) (trapezoid r) (trapezoid_deriv r).
Proof.
  intros O t N. apply (dpl_ext (shape rise fall r)); [intros; symmetry; apply trapezoid_shape|]. pose proof (shape_deriv rise fall (fun _ => 1) (fun _ => -1) r t O N rise_d fall_d) as D.
  eapply dpl_eq; [|exact D]. apply nodes4 in N. destruct O as [[A B] C]. unfold trapezoid_deriv. cmp; reflexivity.
Qed.
Lemma quarter_d r : ordered r -> deriv_off_nodes (ramp_nodes r) (quarter_sine r) (quarter_sine_deriv r).
Proof.
  intros O t N. apply (dpl_ext (shape srise fall r)); [intros; symmetry; apply quarter_shape|]. pose proof (shape_deriv srise fall (fun x => PI / 2 * cos (PI / 2 * x)) (fun _ => -1) r t O N srise_d fall_d) as D.
  eapply dpl_eq; [|exact D]. apply nodes4 in N. destruct O as [[A B] C]. unfold quarter_sine_deriv. cmp; try reflexivity. replace (PI / 2 * ((t - on0 r) / (on1 r - on0 r))) with (PI / 2 * (t - on0 r) / (on1 r - on0 r)) by (unfold Rdiv; ring). unfold Rdiv; ring.
Qed.
Lemma half_d r : ordered r -> deriv_off_nodes (ramp_nodes r) (half_sine r) (half_sine_deriv r).
Proof.
  intros O t N. apply (dpl_ext (shape srise cfall r)); [intros; symmetry; apply half_shape|].
  pose proof (shape_deriv srise cfall (fun x => PI / 2 * cos (PI / 2 * x)) (fun x => - (PI / 2 * sin (PI / 2 * x))) r t O N srise_d cfall_d) as D.
  eapply dpl_eq; [|exact D]. apply nodes4 in N. destruct O as [[A B] C]. unfold half_sine_deriv. cmp; try reflexivity.
  - replace (PI / 2 * ((t - on0 r) / (on1 r - on0 r))) with (PI / 2 * (t - on0 r) / (on1 r - on0 r)) by (unfold Rdiv; ring). unfold Rdiv; ring.
  - replace (PI / 2 * ((t - off0 r) / (off1 r - off0 r))) with (PI / 2 * (t - off0 r) / (off1 r - off0 r)) by (unfold Rdiv; ring). unfold Rdiv; ring.
Qed.

(** ** Ramp off *)
Lemma ramp_cont a b : a < b -> continuous (ramp_off a b 0).
Proof.
  intros H. apply (cont_ext _ (fun t => 1 - clamp ((t - a) / (b - a)))).
  - intros t. unfold ramp_off. cmp; [rewrite clamp_lo by (apply lin_lo; lra); lra| |].
    + rewrite clamp_mid by (apply lin_mid; lra). reflexivity.
    + rewrite clamp_hi by (apply lin_hi; lra). lra.
  - apply cont_minus; [apply cont_const|]. apply (cont_comp (fun t => (t - a) / (b - a)) clamp); [apply cont_lin|apply cont_clamp].
Qed.
Lemma ramp_values a b eps : 0 <= eps -> a + eps < b -> (forall t, t <= a -> a < a + eps \/ t < a -> ramp_off a b eps t = 1) /\ (forall t, b <= t -> ramp_off a b eps t = 0) /\ forall t, 0 <= ramp_off a b eps t <= 1.
Proof.
  intros He H. unfold ramp_off. repeat split; intros; cmp; try lra.
  - pose proof (lin_mid a b t ltac:(lra) ltac:(lra)). lra.
  - pose proof (lin_mid a b t ltac:(lra) ltac:(lra)). lra.
Qed.
Lemma lin_d a w t : derivable_pt_lim (fun t => (t - a) / w) t (1 / w).
Proof.
  unfold Rdiv. apply (dpl_ext (fun t => / w * (t - a))); [intros; ring|]. apply (dpl_eq _ _ (/ w * (1 - 0))); [ring|]. apply dpl_scal, dpl_minus; [apply dpl_id|apply dpl_const].
Qed.
Lemma ramp_d a b eps : 0 <= eps -> a + eps < b -> forall t, t <> a + eps -> t <> b -> derivable_pt_lim (ramp_off a b eps) t (ramp_off_deriv a b eps t).
Proof.
  intros He H t N1 N2. unfold ramp_off_deriv. destruct (Rlt_dec t (a + eps)).
  { replace (rlt t b && rle eps (t - a)) with false by (cmp; reflexivity). apply (dpl_left _ (fun _ => 1) (a + eps)); [lra| |apply dpl_const]. intros s Hs. unfold ramp_off. cmp; reflexivity. }
  destruct (Rlt_dec t b).
  { replace (rlt t b && rle eps (t - a)) with true by (cmp; reflexivity). apply (dpl_int _ (fun t => 1 - (t - a) / (b - a)) (a + eps) b); [lra| |].
    - intros s Hs. unfold ramp_off. cmp; reflexivity.
    - apply (dpl_eq _ _ (0 - 1 / (b - a))); [unfold Rdiv; ring|]. apply dpl_minus; [apply dpl_const|apply lin_d]. }
  replace (rlt t b && rle eps (t - a)) with false by (cmp; reflexivity). apply (dpl_right _ (fun _ => 0) b); [lra| |apply dpl_const]. intros s Hs. unfold ramp_off. cmp; reflexivity.
Qed.
(** ** Exponential rise, linear fall *)
Lemma exp_neg x : 0 < x -> 0 < 1 - exp (- x).
Proof. intros H. pose proof (exp_increasing (- x) 0 ltac:(lra)) as E. rewrite exp_0 in E. lra. Qed.
Lemma fall_line p o t : p < o -> - 1 / (o - p) * (t - o) = 1 - (t - p) / (o - p).
Proof. intros H. field. lra. Qed.
Lemma cont_min p : continuous (fun t => (t + p - Rabs (t - p)) / 2).
Proof.
  apply cont_mult; [|apply cont_const]. apply cont_minus; [apply cont_plus; [apply cont_id|apply cont_const]|].
  apply (cont_comp (fun t => t - p) Rabs); [apply cont_minus; [apply cont_id|apply cont_const]|apply cont_abs].
Qed.
Lemma vtem_cont off peak rate : 0 < peak < off -> 0 < rate -> continuous (vtem off peak rate).
Proof.
  intros [H0 H] Hr. pose proof (exp_neg rate Hr) as He.
  apply (cont_ext _ (fun t => ((1 - exp (- rate * ((t + peak - Rabs (t - peak)) / 2) * / peak)) * / (1 - exp (- rate))) * (1 - clamp ((t - peak) / (off - peak))))).
  - intros t. unfold vtem. unfold rle at 1. destruct (Rle_dec t peak).
    + rewrite Rabs_left1 by lra. rewrite clamp_lo by (apply lin_lo; lra). replace ((t + peak - - (t - peak)) / 2) with t by lra. unfold Rdiv. ring.
    + rewrite Rabs_right by lra. replace ((t + peak - (t - peak)) / 2) with peak by lra. replace (- rate * peak * / peak) with (- rate) by (field; lra).
      cmp; [rewrite fall_line by lra; rewrite clamp_mid by (apply lin_mid; lra)|rewrite clamp_hi by (apply lin_hi; lra)]; field; lra.
  - apply cont_mult.
    + apply cont_mult; [|apply cont_const]. apply cont_minus; [apply cont_const|]. apply (cont_comp (fun t => - rate * ((t + peak - Rabs (t - peak)) / 2) * / peak) exp); [|apply cont_exp].
      apply cont_mult; [|apply cont_const]. apply cont_mult; [apply cont_const|]. apply cont_min.
    + apply cont_minus; [apply cont_const|]. apply (cont_comp (fun t => (t - peak) / (off - peak)) clamp); [apply cont_lin|apply cont_clamp].
Qed.
Lemma quot_range x y : 0 < y -> 0 <= x <= y -> 0 <= x / y <= 1.
Proof. intros Hy H. split; apply (Rmult_le_reg_r y); try lra; unfold Rdiv; rewrite Rmult_assoc, Rinv_l by lra; lra. Qed.
Lemma rise_range a b c : 0 <= a -> a <= b -> 0 < b -> 0 < c -> 0 <= (1 - exp (- a / c)) / (1 - exp (- b / c)) <= 1.
Proof.
  intros Ha Hab Hb Hc. assert (I : 0 < / c) by (apply Rinv_0_lt_compat; lra).
  assert (P : 0 < 1 - exp (- b / c)) by (replace (- b / c) with (- (b * / c)) by (unfold Rdiv; ring); apply exp_neg; nra).
  assert (E1 : exp (- b / c) <= exp (- a / c)).
  { destruct (Req_dec a b) as [->|N]; [lra|]. left. apply exp_increasing. unfold Rdiv. nra. }
  assert (E2 : exp (- a / c) <= 1).
  { rewrite <- exp_0. destruct (Req_dec a 0) as [->|N]; [replace (- 0 / c) with 0 by (unfold Rdiv; ring); lra|]. left. apply exp_increasing. unfold Rdiv. nra. }
  apply quot_range; lra.
Qed.
Lemma vtem_values off peak rate : 0 < peak < off -> 0 < rate ->
  vtem off peak rate 0 = 0 /\ vtem off peak rate peak = 1 /\ (forall t, off <= t -> vtem off peak rate t = 0) /\ forall t, 0 <= t -> 0 <= vtem off peak rate t <= 1.
Proof.
  intros [H0 H] Hr. pose proof (exp_neg rate Hr) as He. split; [|split; [|split]]; unfold vtem.
  - cmp. replace (- rate * 0 / peak) with 0 by (unfold Rdiv; ring). rewrite exp_0. unfold Rdiv. ring.
  - cmp. replace (- rate * peak / peak) with (- rate) by (field; lra). field. lra.
  - intros t Ht. cmp; reflexivity.
  - intros t Ht. assert (G : t <= peak -> 0 <= (1 - exp (- rate * t / peak)) / (1 - exp (- rate)) <= 1).
    { intros Hp. replace (- rate * t / peak) with (- (rate * t) / peak) by (unfold Rdiv; ring). replace (- rate) with (- (rate * peak) / peak) by (field; lra). apply rise_range; nra. }
    cmp; try lra; rewrite fall_line by lra; pose proof (lin_mid peak off t ltac:(lra) ltac:(lra)); lra.
Qed.
Lemma fall_line_d o p t : derivable_pt_lim (fun t => - 1 / (o - p) * (t - o)) t (- 1 / (o - p)).
Proof. apply (dpl_eq _ _ (- 1 / (o - p) * (1 - 0))); [ring|]. apply dpl_scal, dpl_minus; [apply dpl_id|apply dpl_const]. Qed.
Lemma exp_lin_d a c t : derivable_pt_lim (fun t => exp (a * t + c)) t (a * exp (a * t + c)).
Proof.
  apply (dpl_eq _ _ (exp (a * t + c) * (a * 1 + 0))); [ring|]. apply (dpl_comp (fun t => a * t + c) exp); [apply dpl_plus; [apply dpl_scal, dpl_id|apply dpl_const]|apply derivable_pt_lim_exp].
Qed.
Lemma vtem_d off peak rate : 0 < peak < off -> forall t, 0 < t -> t <> peak -> t <> off -> derivable_pt_lim (vtem off peak rate) t (vtem_deriv off peak rate t).
Proof.
  intros [H0 H] t Ht N1 N2. unfold vtem_deriv. destruct (Rlt_dec t peak).
  { replace (rlt peak t && rlt t off) with false by (cmp; reflexivity). replace (rle t peak && rle 0 t) with true by (cmp; reflexivity).
    apply (dpl_left _ (fun t => / (1 - exp (- rate)) * (1 - exp (- rate / peak * t + 0))) peak); [lra| |].
    - intros s Hs. unfold vtem. cmp. replace (- rate / peak * s + 0) with (- rate * s / peak) by (unfold Rdiv; ring). unfold Rdiv. ring.
    - apply (dpl_eq _ _ (/ (1 - exp (- rate)) * (0 - - rate / peak * exp (- rate / peak * t + 0)))).
      + replace (- rate / peak * t + 0) with (- rate * t / peak) by (unfold Rdiv; ring). unfold Rdiv. ring.
      + apply dpl_scal, dpl_minus; [apply dpl_const|apply exp_lin_d]. }
  destruct (Rlt_dec t off).
  { replace (rlt peak t && rlt t off) with true by (cmp; reflexivity). apply (dpl_int _ (fun t => - 1 / (off - peak) * (t - off)) peak off); [lra| |apply fall_line_d].
    intros s Hs. unfold vtem. cmp; reflexivity. }
  replace (rlt peak t && rlt t off) with false by (cmp; reflexivity). replace (rle t peak && rle 0 t) with false by (cmp; reflexivity).
  apply (dpl_right _ (fun _ => 0) off); [lra| |apply dpl_const]. intros s Hs. unfold vtem. cmp; reflexivity.
Qed.
Definition exp_valid (w : expw) : Prop := e_start w < e_peak w < e_off w /\ 0 < e_tau w.
Lemma exp_init_valid start peak tau off w : exp_init start peak tau off = Ok w -> w = mkExpw start peak tau off /\ start < peak <= off /\ 0 < tau.
Proof.
  unfold exp_init, exp_set_start, exp_set_peak, exp_set_tau. cbn [e_off e_start e_peak e_tau]. unfold rlt, rle.
  destruct (Rlt_dec start off); [|discriminate]. cbn [bind e_off e_start e_peak e_tau]. destruct (Rlt_dec start peak); [|discriminate]. destruct (Rle_dec peak off); [|discriminate].
  cbn [bind andb e_off e_start e_peak e_tau]. destruct (Rlt_dec 0 tau); [|discriminate]. intros [= <-]. repeat split; lra.
Qed.
Lemma exp_den w : exp_valid w -> 0 < 1 - exp (- (e_peak w - e_start w) / e_tau w).
Proof.
  intros [[A B] C]. replace (- (e_peak w - e_start w) / e_tau w) with (- ((e_peak w - e_start w) * / e_tau w)) by (unfold Rdiv; ring). apply exp_neg.
  assert (0 < / e_tau w) by (apply Rinv_0_lt_compat; lra). nra.
Qed.
Lemma exp_cont w : exp_valid w -> continuous (exp_eval w).
Proof.
  intros V. pose proof (exp_den w V) as D. destruct V as [[A B] C].
  apply (cont_ext _ (fun t => ((1 - exp (- (e_peak w - e_start w) * / e_tau w * clamp ((t - e_start w) / (e_peak w - e_start w)))) * / (1 - exp (- (e_peak w - e_start w) / e_tau w))) * (1 - clamp ((t - e_peak w) / (e_off w - e_peak w))))).
  - intros t. unfold exp_eval. unfold rle at 1. destruct (Rle_dec t (e_start w)).
    + rewrite (clamp_lo ((t - e_start w) / _)) by (apply lin_lo; lra). rewrite Rmult_0_r, exp_0. ring.
    + unfold rle. destruct (Rle_dec t (e_peak w)).
      * rewrite (clamp_lo ((t - e_peak w) / _)) by (apply lin_lo; lra).  rewrite (clamp_mid ((t - e_start w) / _)) by (apply lin_mid; lra).
        replace (- (e_peak w - e_start w) * / e_tau w * ((t - e_start w) / (e_peak w - e_start w))) with (- (t - e_start w) / e_tau w) by (field; lra). unfold Rdiv. ring.
      * rewrite (clamp_hi ((t - e_start w) / _)) by (apply lin_hi; lra). replace (- (e_peak w - e_start w) * / e_tau w * 1) with (- (e_peak w - e_start w) / e_tau w) by (unfold Rdiv; ring).
        cmp; [rewrite fall_line by lra; rewrite clamp_mid by (apply lin_mid; lra)|rewrite clamp_hi by (apply lin_hi; lra)]; generalize dependent (exp (- (e_peak w - e_start w) / e_tau w)); intros Z D; field; lra.
  - apply cont_mult.
    + apply cont_mult; [|apply cont_const]. apply cont_minus; [apply cont_const|]. apply (cont_comp (fun t => - (e_peak w - e_start w) * / e_tau w * clamp ((t - e_start w) / (e_peak w - e_start w))) exp); [|apply cont_exp].
      apply cont_mult; [apply cont_const|]. apply (cont_comp (fun t => (t - e_start w) / (e_peak w - e_start w)) clamp); [apply cont_lin|apply cont_clamp].
    + apply cont_minus; [apply cont_const|]. apply (cont_comp (fun t => (t - e_peak w) / (e_off w - e_peak w)) clamp); [apply cont_lin|apply cont_clamp].
Qed.
Lemma exp_pulse w : exp_valid w -> pulse (e_start w) (e_peak w) (e_off w) (exp_eval w).
Proof.
  intros V. pose proof (exp_den w V) as D. destruct V as [[A B] C]. split; [|split; [|split]]; unfold exp_eval.
  - intros t Ht. cmp; reflexivity.
  - intros t Ht. cmp; reflexivity.
  - cmp. unfold Rdiv at 1. apply Rinv_r. lra.
  - intros t. assert (G : e_start w <= t <= e_peak w -> 0 <= (1 - exp (- (t - e_start w) / e_tau w)) / (1 - exp (- (e_peak w - e_start w) / e_tau w)) <= 1) by (intros Hp; apply rise_range; lra).
    cmp; try lra; rewrite fall_line by lra; pose proof (lin_mid (e_peak w) (e_off w) t ltac:(lra) ltac:(lra)); lra.
Qed.
Lemma exp_d w : exp_valid w -> deriv_off_nodes (exp_nodes w) (exp_eval w) (exp_deriv w).
Proof.
  intros V t N. pose proof (exp_den w V) as D. destruct V as [[A B] C]. assert (t <> e_start w /\ t <> e_peak w /\ t <> e_off w) as (N0 & N1 & N2).
  { unfold exp_nodes in N. cbn in N. repeat split; intros E; apply N; auto. }
  unfold exp_deriv. destruct (Rlt_dec t (e_start w)).
  { replace (rlt (e_peak w) t && rlt t (e_off w)) with false by (cmp; reflexivity). replace (rle t (e_peak w) && rle (e_start w) t) with false by (cmp; reflexivity).
    apply (dpl_left _ (fun _ => 0) (e_start w)); [lra| |apply dpl_const]. intros s Hs. unfold exp_eval. cmp; reflexivity. }
  destruct (Rlt_dec t (e_peak w)).
  { replace (rlt (e_peak w) t && rlt t (e_off w)) with false by (cmp; reflexivity). replace (rle t (e_peak w) && rle (e_start w) t) with true by (cmp; reflexivity).
    set (Q := 1 - exp (- (e_peak w - e_start w) / e_tau w)) in *.
    apply (dpl_int _ (fun t => / Q * (1 - exp (- 1 / e_tau w * t + e_start w / e_tau w))) (e_start w) (e_peak w)); [lra| |].
    - intros s Hs. unfold exp_eval. fold Q. cmp. replace (- 1 / e_tau w * s + e_start w / e_tau w) with (- (s - e_start w) / e_tau w) by (unfold Rdiv; ring). unfold Rdiv. ring.
    - apply (dpl_eq _ _ (/ Q * (0 - - 1 / e_tau w * exp (- 1 / e_tau w * t + e_start w / e_tau w)))).
      + replace (- 1 / e_tau w * t + e_start w / e_tau w) with (- (t - e_start w) / e_tau w) by (unfold Rdiv; ring). field. lra.
      + apply dpl_scal, dpl_minus; [apply dpl_const|apply exp_lin_d]. }
  destruct (Rlt_dec t (e_off w)).
  { replace (rlt (e_peak w) t && rlt t (e_off w)) with true by (cmp; reflexivity). apply (dpl_int _ (fun t => - 1 / (e_off w - e_peak w) * (t - e_off w)) (e_peak w) (e_off w)); [lra| |apply fall_line_d].
    intros s Hs. unfold exp_eval. cmp; reflexivity. }
  replace (rlt (e_peak w) t && rlt t (e_off w)) with false by (cmp; reflexivity). replace (rle t (e_peak w) && rle (e_start w) t) with false by (cmp; reflexivity).
  apply (dpl_right _ (fun _ => 0) (e_off w)); [lra| |apply dpl_const]. intros s Hs. unfold exp_eval. cmp; reflexivity.
Qed.
(** ** Piecewise linear *)
Definition plE (l : list (R * R)) (t : R) : R := pl_eval (map fst l) (map snd l) t.
Definition plD (l : list (R * R)) (t : R) : R := pl_deriv (map fst l) (map snd l) t.
Definition increasing (l : list (R * R)) : Prop := StronglySorted (fun p q => fst p < fst q) l.
Lemma incr_last p q l : increasing (p :: q :: l) -> fst q <= nth (length l) (fst q :: map fst l) 0.
Proof.
  intros H. inversion H as [|? ? H1 _]; subst. inversion H1 as [|? ? _ H2]; subst. destruct l as [|r l]; [cbn; lra|]. rewrite Forall_forall in H2.
  assert (I : In (nth (length (r :: l)) (fst q :: map fst (r :: l)) 0) (map fst (r :: l))).
  { change (In (nth (length l) (map fst (r :: l)) 0) (map fst (r :: l))). apply nth_In. rewrite map_length. cbn. lia. }
  apply in_map_iff in I as (x & <- & Hx). left. apply H2, Hx.
Qed.
Lemma plE_first p l t : t <= fst p -> plE (p :: l) t = snd p.
Proof. intros H. unfold plE, pl_eval. cbn [map nth]. cmp; reflexivity. Qed.
Definition seg (p q : R * R) (t : R) : R := (snd q - snd p) * (t - fst p) / (fst q - fst p) + snd p.
Lemma plE_seg p q l t : increasing (p :: q :: l) -> fst p < t <= fst q -> plE (p :: q :: l) t = seg p q t.
Proof.
  intros I H. pose proof (incr_last p q l I) as HL. unfold plE, pl_eval. cbn [map nth length]. rewrite !map_length. replace (S (S (length l)) - 1)%nat with (S (length l)) by lia. cbn [nth].
  unfold rle at 1. destruct (Rle_dec t (fst p)); [lra|]. unfold rle. destruct (Rle_dec _ t) as [G|G].
  - change (nth (length l) (fst q :: map fst l) 0 <= t) in G. destruct l as [|r l].
    + cbn [length nth map] in *. unfold seg. assert (t = fst q) as -> by lra. field. lra.
    + exfalso. inversion I as [|? ? I1 _]; subst. inversion I1 as [|? ? I2 F]; subst. pose proof (Forall_inv F) as Fr. cbn beta in Fr.
      assert (J : increasing (q :: r :: l)) by exact I1. pose proof (incr_last q r l J). cbn [length map nth] in *. lra.
  - cbn [searchsorted map]. unfold rlt at 1. destruct (Rlt_dec (fst p) t); [|lra]. unfold rlt at 1. destruct (Rlt_dec (fst q) t); [lra|].
    unfold rlt. repeat match goal with |- context [Rlt_dec ?a ?b] => destruct (Rlt_dec a b); try lra end. cbn [Nat.sub nth map]. reflexivity.
Qed.
Lemma ss_pos x l t : x < t -> searchsorted (x :: l) t = S (searchsorted l t).
Proof. intros H. cbn. cmp. reflexivity. Qed.
Lemma plE_rest p q l t : increasing (p :: q :: l) -> fst q < t -> plE (p :: q :: l) t = plE (q :: l) t.
Proof.
  intros I H. assert (Hp : fst p < fst q) by (inversion I as [|? ? _ F]; subst; apply (Forall_inv F)).
  unfold plE, pl_eval. cbn [map]. rewrite (ss_pos (fst p)) by lra. rewrite (ss_pos (fst q)) by lra. cbn [length]. rewrite !map_length.
  replace (S (S (length l)) - 1)%nat with (S (length l)) by lia. replace (S (length l) - 1)%nat with (length l) by lia. replace (nth 0 (fst p :: fst q :: map fst l) 0) with (fst p) by reflexivity.
  replace (nth 0 (fst q :: map fst l) 0) with (fst q) by reflexivity. unfold rle. destruct (Rle_dec t (fst p)); [lra|]. destruct (Rle_dec t (fst q)); [lra|].
  cbn [nth]. replace (S (S (searchsorted (map fst l) t)) - 1)%nat with (S (searchsorted (map fst l) t)) by lia. replace (S (searchsorted (map fst l) t) - 1)%nat with (searchsorted (map fst l) t) by lia. reflexivity.
Qed.
Fixpoint plC (l : list (R * R)) (t : R) : R :=
  match l with
  | [] => 0
  | p :: l' => match l' with [] => snd p | q :: _ => plC l' t - (snd q - snd p) * (1 - clamp ((t - fst p) / (fst q - fst p))) end
  end.
Lemma plC_first p l t : increasing (p :: l) -> t <= fst p -> plC (p :: l) t = snd p.
Proof.
  revert p; induction l as [|q l IH]; intros p I H; [reflexivity|]. inversion I as [|? ? I1 F]; subst. pose proof (Forall_inv F) as Hp. cbn beta in Hp.
  change (plC (q :: l) t - (snd q - snd p) * (1 - clamp ((t - fst p) / (fst q - fst p))) = snd p). rewrite IH by (try exact I1; lra). rewrite clamp_lo by (apply lin_lo; lra). lra.
Qed.
Lemma plE_plC l t : increasing l -> l <> [] -> plE l t = plC l t.
Proof.
  induction l as [|p l IH]; intros I N; [congruence|]. destruct l as [|q l].
  - unfold plE, pl_eval. cbn [map nth length Nat.sub]. unfold rle. destruct (Rle_dec t (fst p)); [reflexivity|]. destruct (Rle_dec (fst p) t); [reflexivity|exfalso; lra].
  - inversion I as [|? ? I1 F]; subst. pose proof (Forall_inv F) as Hp. cbn beta in Hp.
    change (plE (p :: q :: l) t = plC (q :: l) t - (snd q - snd p) * (1 - clamp ((t - fst p) / (fst q - fst p)))).
    destruct (Rlt_dec (fst q) t).
    + rewrite plE_rest by (try exact I; lra). rewrite IH by (try exact I1; congruence). rewrite clamp_hi by (apply lin_hi; lra). lra.
    + rewrite (plC_first q l t) by (try exact I1; lra). destruct (Rle_dec t (fst p)).
      * rewrite plE_first by lra. rewrite clamp_lo by (apply lin_lo; lra). lra.
      * rewrite plE_seg by (try exact I; lra). rewrite clamp_mid by (apply lin_mid; lra). unfold seg, Rdiv. ring.
Qed.
Lemma plC_cont l : continuous (plC l).
Proof.
  induction l as [|p l IH]; [apply cont_const|]. destruct l as [|q l]; [apply cont_const|].
  change (continuous (fun t => plC (q :: l) t - (snd q - snd p) * (1 - clamp ((t - fst p) / (fst q - fst p))))). apply cont_minus; [exact IH|]. apply cont_mult; [apply cont_const|].
  apply cont_minus; [apply cont_const|]. apply (cont_comp (fun t => (t - fst p) / (fst q - fst p)) clamp); [apply cont_lin|apply cont_clamp].
Qed.
Lemma pl_cont l : increasing l -> l <> [] -> continuous (plE l).
Proof. intros I N. apply (cont_ext _ (plC l)); [intros t; apply plE_plC; assumption|apply plC_cont]. Qed.
(** Through every node. *)
Lemma pl_nodes l p : increasing l -> In p l -> plE l (fst p) = snd p.
Proof.
  induction l as [|a l IH]; intros I H; [destruct H|]. destruct H as [->|H]; [apply plE_first; lra|]. destruct l as [|q l]; [destruct H|].
  inversion I as [|? ? I1 F]; subst. pose proof (Forall_inv F) as Hp. cbn beta in Hp. destruct H as [->|H].
  - rewrite plE_seg by (try exact I; lra). unfold seg. field. lra.
  - inversion I1 as [|? ? _ F1]; subst. rewrite Forall_forall in F1. rewrite plE_rest by (try exact I; apply F1, H). apply IH; [exact I1|right; exact H].
Qed.
Lemma pl_seg l i t : increasing l -> (S i < length l)%nat -> fst (nth i l (0, 0)) <= t <= fst (nth (S i) l (0, 0)) -> plE l t = seg (nth i l (0, 0)) (nth (S i) l (0, 0)) t.
Proof.
  revert i; induction l as [|p l IH]; intros i I L H; [cbn in L; lia|]. destruct l as [|q l]; [cbn in L; lia|].
  inversion I as [|? ? I1 F]; subst. pose proof (Forall_inv F) as Hp. cbn beta in Hp. destruct i as [|i].
  - cbn [nth] in *. destruct (Req_dec t (fst p)) as [->|N]; [rewrite plE_first by lra; unfold seg; unfold Rdiv; ring|]. apply plE_seg; [exact I|lra].
  - change (fst (nth i (q :: l) (0, 0)) <= t <= fst (nth (S i) (q :: l) (0, 0))) in H. change (plE (p :: q :: l) t = seg (nth i (q :: l) (0, 0)) (nth (S i) (q :: l) (0, 0)) t).
    rewrite <- IH; [|exact I1|cbn in *; lia|exact H]. assert (Hq : fst q <= t).
    { destruct i as [|i]; [cbn in H; lra|]. inversion I1 as [|? ? _ F1]; subst. rewrite Forall_forall in F1. pose proof (F1 (nth i l (0, 0)) ltac:(apply nth_In; cbn in L; lia)). cbn [nth] in H. lra. }
    destruct (Req_dec t (fst q)) as [->|N]; [|apply plE_rest; [exact I|lra]]. rewrite plE_seg by (try exact I; lra). rewrite plE_first by lra. unfold seg. field. lra.
Qed.
Lemma plD_lo p l t : t <= fst p -> plD (p :: l) t = 0.
Proof. intros H. unfold plD, pl_deriv. cbn [map nth]. cmp; reflexivity. Qed.
Lemma plD_seg p q l t : increasing (p :: q :: l) -> fst p < t < fst q -> plD (p :: q :: l) t = (snd q - snd p) / (fst q - fst p).
Proof.
  intros I H. pose proof (incr_last p q l I) as HL. unfold plD, pl_deriv. cbn [map nth length]. rewrite !map_length. replace (S (S (length l)) - 1)%nat with (S (length l)) by lia. cbn [nth].
  rewrite ss_pos by lra. cbn [searchsorted]. unfold rlt. destruct (Rlt_dec (fst p) t); [|lra]. destruct (Rlt_dec t _) as [G|G]; [|change (~ t < nth (length l) (fst q :: map fst l) 0) in G; lra]. destruct (Rlt_dec (fst q) t); [lra|]. reflexivity.
Qed.
Lemma plD_rest p q l t : increasing (p :: q :: l) -> fst q < t -> plD (p :: q :: l) t = plD (q :: l) t.
Proof.
  intros I H. assert (Hp : fst p < fst q) by (inversion I as [|? ? _ F]; subst; apply (Forall_inv F)).
  unfold plD, pl_deriv. cbn [map]. rewrite (ss_pos (fst p)) by lra. rewrite (ss_pos (fst q)) by lra. cbn [length]. rewrite !map_length.
  replace (S (S (length l)) - 1)%nat with (S (length l)) by lia. replace (S (length l) - 1)%nat with (length l) by lia. replace (nth 0 (fst p :: fst q :: map fst l) 0) with (fst p) by reflexivity.
  replace (nth 0 (fst q :: map fst l) 0) with (fst q) by reflexivity. unfold rlt. destruct (Rlt_dec (fst p) t); [|lra]. destruct (Rlt_dec (fst q) t); [|lra].
  cbn [nth andb]. replace (S (S (searchsorted (map fst l) t)) - 1)%nat with (S (searchsorted (map fst l) t)) by lia. replace (S (searchsorted (map fst l) t) - 1)%nat with (searchsorted (map fst l) t) by lia. reflexivity.
Qed.
Lemma pl_d l : increasing l -> l <> [] -> deriv_off_nodes (map fst l) (plE l) (plD l).
Proof.
  induction l as [|p l IH]; intros I N t H; [congruence|]. assert (Np : t <> fst p) by (intros ->; apply H; left; reflexivity). destruct (Rlt_dec t (fst p)).
  { rewrite plD_lo by lra. apply (dpl_left _ (fun _ => snd p) (fst p)); [lra| |apply dpl_const]. intros s Hs. apply plE_first. lra. }
  destruct l as [|q l].
  { replace (plD [p] t) with 0 by (unfold plD, pl_deriv; cbn; cmp; reflexivity). apply (dpl_ext (fun _ => snd p)); [|apply dpl_const]. intros s. rewrite plE_plC by (try exact I; congruence). reflexivity. }
  inversion I as [|? ? I1 F]; subst. pose proof (Forall_inv F) as Hp. cbn beta in Hp. assert (Nq : t <> fst q) by (intros ->; apply H; right; left; reflexivity).
  destruct (Rlt_dec t (fst q)).
  - rewrite plD_seg by (try exact I; lra). apply (dpl_int _ (seg p q) (fst p) (fst q)); [lra|intros s Hs; apply plE_seg; [exact I|lra]|].
    unfold seg, Rdiv. apply (dpl_eq _ _ ((snd q - snd p) * (1 / (fst q - fst p)) + 0)); [unfold Rdiv; ring|]. apply (dpl_plus (fun t => (snd q - snd p) * (t - fst p) * / (fst q - fst p)) (fun _ => snd p)); [|apply dpl_const].
    apply (dpl_ext (fun t => (snd q - snd p) * ((t - fst p) / (fst q - fst p)))); [intros; unfold Rdiv; ring|]. apply dpl_scal, lin_d.
  - rewrite plD_rest by (try exact I; lra). apply (dpl_right _ (plE (q :: l)) (fst q)); [lra|intros s Hs; apply plE_rest; [exact I|lra]|]. apply IH; [exact I1|congruence|]. intros Ht. apply H. right. exact Ht.
Qed.
(** Sorting *)
Lemma insert_perm p l : Permutation (p :: l) (insert_node p l).
Proof.
  induction l as [|q l IH]; cbn; [reflexivity|]. destruct (rle (fst p) (fst q)); [reflexivity|]. rewrite perm_swap. constructor. exact IH.
Qed.
Lemma sort_perm l : Permutation l (sort_nodes l).
Proof. induction l as [|p l IH]; cbn; [constructor|]. rewrite <- insert_perm. constructor. exact IH. Qed.
Lemma insert_sorted p l : (forall q, In q l -> fst p <> fst q) -> increasing l -> increasing (insert_node p l).
Proof.
  induction l as [|q l IH]; intros N I; cbn; [repeat constructor|]. inversion I as [|? ? I1 F]; subst. unfold rle. destruct (Rle_dec (fst p) (fst q)) as [G|G].
  - assert (fst p < fst q) by (destruct G as [G|G]; [exact G|]; exfalso; apply (N q); [left; reflexivity|exact G]). constructor; [exact I|]. constructor; [assumption|].
    rewrite Forall_forall in *. intros x Hx. specialize (F x Hx). lra.
  - constructor; [apply IH; [intros x Hx; apply N; right; exact Hx|exact I1]|]. rewrite Forall_forall in *. intros x Hx. apply (Permutation_in _ (Permutation_sym (insert_perm p l))) in Hx.
    destruct Hx as [<-|Hx]; [lra|apply F, Hx].
Qed.
Lemma sort_incr l : NoDup (map fst l) -> increasing (sort_nodes l).
Proof.
  induction l as [|p l IH]; intros N; [constructor|]. cbn in *. inversion N as [|? ? H N']; subst. apply insert_sorted; [|apply IH, N'].
  intros q Hq E. apply H. rewrite E. apply in_map. apply (Permutation_in _ (Permutation_sym (sort_perm l))), Hq.
Qed.
Lemma map_fst_comb : forall (a b : vec), length a = length b -> map fst (combine a b) = a.
Proof. induction a as [|x a IH]; intros [|y b] L; try discriminate; cbn; [reflexivity|]. rewrite IH by (cbn in L; congruence). reflexivity. Qed.
Lemma pl_made times currents ts cs : pl_init times currents = Ok (ts, cs) -> NoDup times ->
  exists l, increasing l /\ l <> [] /\ ts = map fst l /\ cs = map snd l /\ Permutation (combine times currents) l /\ Permutation times ts.
Proof.
  unfold pl_init. destruct (Nat.eqb _ _) eqn:E; cbn [negb]; [|discriminate]. apply Nat.eqb_eq in E. intros H N. exists (sort_nodes (combine times currents)).
  assert (H' : times <> [] /\ ts = map fst (sort_nodes (combine times currents)) /\ cs = map snd (sort_nodes (combine times currents))) by (destruct times; [discriminate|]; injection H as <- <-; split; [discriminate|split; reflexivity]).
  destruct H' as (N0 & -> & ->). assert (P := sort_perm (combine times currents)). repeat split; try reflexivity; try exact P.
  - apply sort_incr. rewrite map_fst_comb by exact E. exact N.
  - intros Z. rewrite Z in P. apply Permutation_sym, Permutation_nil in P. destruct times, currents; discriminate || congruence.
  - rewrite <- (map_fst_comb times currents E) at 1. apply Permutation_map, P.
Qed.
(** ** Counterexamples *)
Lemma vtem_neg off peak rate t : 0 < peak < off -> 0 < rate -> t < 0 -> vtem off peak rate t < 0 /\ vtem_deriv off peak rate t = 0 /\ ~ derivable_pt_lim (vtem off peak rate) t 0.
Proof.
  intros [H0 H] Hr Ht. pose proof (exp_neg rate Hr) as He. assert (I : 0 < / peak) by (apply Rinv_0_lt_compat; lra). split; [|split].
  - unfold vtem. cmp. assert (E : exp 0 < exp (- rate * t / peak)) by (apply exp_increasing; replace (- rate * t / peak) with (rate * - t * / peak) by (unfold Rdiv; ring); apply Rmult_lt_0_compat; nra). rewrite exp_0 in E. assert (0 < / (1 - exp (- rate))) by (apply Rinv_0_lt_compat; lra). unfold Rdiv at 1. nra.
  - unfold vtem_deriv. cmp; reflexivity.
  - intros D. assert (D2 : derivable_pt_lim (vtem off peak rate) t (/ (1 - exp (- rate)) * (0 - - rate / peak * exp (- rate / peak * t + 0)))).
    { apply (dpl_left _ (fun t => / (1 - exp (- rate)) * (1 - exp (- rate / peak * t + 0))) peak); [lra| |].
      - intros s Hs. unfold vtem. cmp. replace (- rate / peak * s + 0) with (- rate * s / peak) by (unfold Rdiv; ring). unfold Rdiv. ring.
      - apply dpl_scal, dpl_minus; [apply dpl_const|apply exp_lin_d]. }
    pose proof (uniqueness_limite _ _ _ _ D D2) as E. pose proof (exp_pos (- rate / peak * t + 0)). assert (0 < / (1 - exp (- rate))) by (apply Rinv_0_lt_compat; lra).
    assert (0 < rate / peak) by (unfold Rdiv; nra). replace (- rate / peak) with (- (rate / peak)) in * by (unfold Rdiv; ring).
    assert (0 < / (1 - exp (- rate)) * (0 - - (rate / peak) * exp (- (rate / peak) * t + 0))) by (apply Rmult_lt_0_compat; nra). lra.
Qed.
Lemma ramp_jump a b eps : 0 < eps -> a + eps < b -> ~ continuity_pt (ramp_off a b eps) (a + eps).
Proof.
  intros He H C. assert (V : ramp_off a b eps (a + eps) = 1 - eps / (b - a)) by (unfold ramp_off; replace (a + eps - a) with eps by lra; cmp; reflexivity).
  assert (P : 0 < eps / (b - a)) by (apply Rdiv_lt_0_compat; lra). destruct (C (eps / (b - a)) P) as (d & Hd & K).
  specialize (K (a + eps - d / 2)). cbn in K. unfold R_dist in K. rewrite V in K. assert (Vl : ramp_off a b eps (a + eps - d / 2) = 1) by (unfold ramp_off; cmp; reflexivity). rewrite Vl in K.
  replace (1 - (1 - eps / (b - a))) with (eps / (b - a)) in K by ring. rewrite (Rabs_right (eps / (b - a))) in K by lra. assert (eps / (b - a) < eps / (b - a)); [|lra]. apply K.
  split; [split; [exact I|intros E; lra]|]. rewrite Rabs_left; lra.
Qed.
Lemma overlap_bad : let r := mkRamps 0 2 1 3 in ~ In (3 / 2) (ramp_nodes r) /\ ~ derivable_pt_lim (trapezoid r) (3 / 2) (trapezoid_deriv r (3 / 2)).
Proof.
  cbn zeta. split; [unfold ramp_nodes; cbn; intros [E|[E|[E|[E|[]]]]]; lra|]. intros D. assert (D2 : derivable_pt_lim (trapezoid (mkRamps 0 2 1 3)) (3 / 2) (1 / 2)).
  { apply (dpl_int _ (fun t => (t - 0) / 2) 1 2); [lra| |apply lin_d]. intros s Hs. unfold trapezoid. cbn [on0 on1 off0 off1]. cmp; field. }
  pose proof (uniqueness_limite _ _ _ _ D D2) as E. unfold trapezoid_deriv in E. cbn [on0 on1 off0 off1] in E. revert E. cmp; lra.
Qed.
