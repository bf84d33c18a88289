(** Property C37: source waveforms. *)
From Coq Require Import Lra Permutation.
From Verif Require Import Py Vec VecDeriv Waveforms SpecWaveforms WaveformsFacts.
Local Open Scope R_scope.

(** Trapezoid, quarter-sine and half-sine waveforms with ordered ramps are continuous pulses
    that are 1 between the ramps. *)
Theorem C37_trapezoid : forall r, ordered r ->
  continuous (trapezoid r) /\ pulse (on0 r) (on1 r) (off1 r) (trapezoid r) /\ (forall t, on1 r <= t <= off0 r -> trapezoid r t = 1) /\
  deriv_off_nodes (ramp_nodes r) (trapezoid r) (trapezoid_deriv r).
Proof.
  intros r O. destruct (trap_ok _ _ _ r (trapezoid_shape r) O) as (A & B & C); try (unfold rise, fall; lra); try apply rise_arc; try apply fall_arc. repeat split; auto; try apply B. apply trapezoid_d, O.
Qed.
Print Assumptions C37_trapezoid.
Theorem C37_quarter_sine : forall r, ordered r ->
  continuous (quarter_sine r) /\ pulse (on0 r) (on1 r) (off1 r) (quarter_sine r) /\ (forall t, on1 r <= t <= off0 r -> quarter_sine r t = 1) /\
  deriv_off_nodes (ramp_nodes r) (quarter_sine r) (quarter_sine_deriv r).
Proof.
  intros r O. destruct (trap_ok _ _ _ r (quarter_shape r) O srise0 srise1) as (A & B & C); try (unfold rise, fall; lra); try apply srise_arc; try apply fall_arc. repeat split; auto; try apply B. apply quarter_d, O.
Qed.
Print Assumptions C37_quarter_sine.
Theorem C37_half_sine : forall r, ordered r ->
  continuous (half_sine r) /\ pulse (on0 r) (on1 r) (off1 r) (half_sine r) /\ (forall t, on1 r <= t <= off0 r -> half_sine r t = 1) /\
  deriv_off_nodes (ramp_nodes r) (half_sine r) (half_sine_deriv r).
Proof.
  intros r O. destruct (trap_ok _ _ _ r (half_shape r) O srise0 srise1 cfall0 cfall1 srise_arc cfall_arc) as (A & B & C). repeat split; auto; try apply B. apply half_d, O.
Qed.
Print Assumptions C37_half_sine.
(** A triangular waveform as constructed is the trapezoid with both ramps meeting at the
    peak. *)
Theorem C37_triangle : forall start off peak w, start < peak < off -> tri_init start off peak = Ok w ->
  continuous (tri_eval w) /\ pulse start peak off (tri_eval w).
Proof.
  intros start off peak w H E. unfold tri_init, tri_set_peak in E. cbn in E. unfold rle in E. destruct (Rle_dec peak off); [|discriminate]. injection E as <-.
  destruct (C37_trapezoid (mkRamps start peak peak off)) as (A & B & _); [split; cbn; lra|]. split; [exact A|exact B].
Qed.
Print Assumptions C37_triangle.
(** The ramp-off waveform, without tolerance. *)
Theorem C37_ramp_off : forall a b, a < b -> continuous (ramp_off a b 0) /\ (forall t, t < a -> ramp_off a b 0 t = 1) /\ ramp_off a b 0 a = 1 /\ (forall t, b <= t -> ramp_off a b 0 t = 0) /\
  (forall t, 0 <= ramp_off a b 0 t <= 1) /\ deriv_off_nodes [a; b] (ramp_off a b 0) (ramp_off_deriv a b 0).
Proof.
  intros a b H. destruct (ramp_values a b 0 ltac:(lra) ltac:(lra)) as (V1 & V2 & V3). split; [apply ramp_cont, H|]. split; [intros t Ht; apply V1; [lra|right; lra]|].
  split; [unfold ramp_off; cmp; replace (a - a) with 0 by ring; unfold Rdiv; rewrite Rmult_0_l; ring|]. split; [exact V2|]. split; [exact V3|].
  intros t N. apply ramp_d; try lra; intros E; apply N; cbn; [left; lra|right; left; lra].
Qed.
Print Assumptions C37_ramp_off.
(** With a tolerance [eps], away from [a + eps] and the end. *)
Theorem C37_ramp_off_partial : forall a b eps, 0 <= eps -> a + eps < b ->
  (forall t, t < a -> ramp_off a b eps t = 1) /\ (forall t, b <= t -> ramp_off a b eps t = 0) /\ (forall t, 0 <= ramp_off a b eps t <= 1) /\
  deriv_off_nodes [a + eps; b] (ramp_off a b eps) (ramp_off_deriv a b eps).
Proof.
  intros a b eps He H. destruct (ramp_values a b eps He H) as (V1 & V2 & V3). split; [intros t Ht; apply V1; [lra|right; lra]|]. split; [exact V2|]. split; [exact V3|].
  intros t N. apply ramp_d; try lra; intros E; apply N; cbn; auto.
Qed.
Print Assumptions C37_ramp_off_partial.
(** VTEM waveform, from time 0. *)
Theorem C37_vtem_partial : forall off peak rate, 0 < peak < off -> 0 < rate ->
  continuous (vtem off peak rate) /\ vtem off peak rate 0 = 0 /\ vtem off peak rate peak = 1 /\ (forall t, off <= t -> vtem off peak rate t = 0) /\
  (forall t, 0 <= t -> 0 <= vtem off peak rate t <= 1) /\
  forall t, 0 < t -> t <> peak -> t <> off -> derivable_pt_lim (vtem off peak rate) t (vtem_deriv off peak rate t).
Proof.
  intros off peak rate H Hr. destruct (vtem_values off peak rate H Hr) as (V1 & V2 & V3 & V4). split; [apply vtem_cont; assumption|].
  split; [exact V1|]. split; [exact V2|]. split; [exact V3|]. split; [exact V4|]. apply vtem_d, H.
Qed.
Print Assumptions C37_vtem_partial.
(** Exponential waveform, as constructed. *)
Theorem C37_exponential : forall start peak tau off w, exp_init start peak tau off = Ok w -> peak <> off ->
  continuous (exp_eval w) /\ pulse start peak off (exp_eval w) /\ deriv_off_nodes [start; peak; off] (exp_eval w) (exp_deriv w).
Proof.
  intros start peak tau off w E N. apply exp_init_valid in E as (-> & H & Ht). assert (V : exp_valid (mkExpw start peak tau off)) by (split; cbn; lra).
  split; [apply exp_cont, V|]. split; [apply (exp_pulse _ V)|apply (exp_d _ V)].
Qed.
Print Assumptions C37_exponential.
(** Piecewise linear waveform, nodes given in any order: continuous, through every node,
    straight between neighbours, constant outside, with the right derivative. *)
Theorem C37_piecewise_linear : forall times currents ts cs, pl_init times currents = Ok (ts, cs) -> NoDup times ->
  continuous (pl_eval ts cs) /\ (forall p, In p (combine times currents) -> pl_eval ts cs (fst p) = snd p) /\
  deriv_off_nodes times (pl_eval ts cs) (pl_deriv ts cs) /\ Permutation times ts.
Proof.
  intros times currents ts cs H N. destruct (pl_made times currents ts cs H N) as (l & I & Nl & -> & -> & P & Pt). split; [apply (pl_cont l I Nl)|]. split; [|split; [|exact Pt]].
  - intros p Hp. apply (pl_nodes l p I). apply (Permutation_in _ P), Hp.
  - intros t Ht. apply (pl_d l I Nl). intros Hi. apply Ht. apply (Permutation_in _ (Permutation_sym Pt)), Hi.
Qed.
Print Assumptions C37_piecewise_linear.
Theorem C37_piecewise_straight : forall times currents ts cs i t, pl_init times currents = Ok (ts, cs) -> NoDup times -> (S i < length ts)%nat -> nth i ts 0 <= t <= nth (S i) ts 0 ->
  pl_eval ts cs t = nth i cs 0 + (nth (S i) cs 0 - nth i cs 0) * ((t - nth i ts 0) / (nth (S i) ts 0 - nth i ts 0)).
Proof.
  intros times currents ts cs i t H N L Ht. destruct (pl_made times currents ts cs H N) as (l & I & Nl & -> & -> & P & Pt). rewrite map_length in L.
  assert (A : forall k, nth k (map fst l) 0 = fst (nth k l (0, 0))) by (intros k; apply (map_nth fst l (0, 0))). assert (B : forall k, nth k (map snd l) 0 = snd (nth k l (0, 0))) by (intros k; apply (map_nth snd l (0, 0))).
  rewrite !A in *. rewrite !B. pose proof (pl_seg l i t I L Ht) as E. unfold plE in E. rewrite E. unfold seg, Rdiv. ring.
Qed.
Print Assumptions C37_piecewise_straight.

Example C37_case : ordered (mkRamps 0 1 2 3) /\ (exists w, exp_init (-2) (-1) 1 0 = Ok w) /\ (exists w, pl_init [1; 0; 2] [5; 3; 4] = Ok w) /\ (exists w, tri_init 0 2 1 = Ok w).
Proof.
  split; [split; cbn; lra|]. split; [|split].
  - unfold exp_init, exp_set_start, exp_set_peak, exp_set_tau. cbn [e_off e_start e_peak e_tau]. cmp. cbn [bind e_off e_start e_peak e_tau]. cmp. cbn [bind]. cmp. eexists. reflexivity.
  - eexists. reflexivity.
  - unfold tri_init, tri_set_peak. cbn [tri_off]. cmp. eexists. reflexivity.
Qed.

(** Refuted before time 0 for VTEM: not zero, and its derivative is not the reported one. *)
Theorem C37_vtem_refuted : forall off peak rate t, 0 < peak < off -> 0 < rate -> t < 0 ->
  vtem off peak rate t < 0 /\ ~ derivable_pt_lim (vtem off peak rate) t (vtem_deriv off peak rate t).
Proof. intros off peak rate t H Hr Ht. destruct (vtem_neg off peak rate t H Hr Ht) as (A & B & C). rewrite B. auto. Qed.
Print Assumptions C37_vtem_refuted.
(** Refuted: a step-off waveform that ended before time 0 is on again at 0. *)
Theorem C37_step_off_refuted : forall off eps, 0 < eps -> off + eps < - eps -> step_off off eps (off + eps) = 0 /\ step_off off eps (- eps) = 0 /\ step_off off eps 0 = 1.
Proof.
  intros off eps He H. unfold step_off. replace (0 - 0) with 0 by ring. rewrite Rabs_R0. rewrite (Rabs_left (off + eps - 0)), (Rabs_left (- eps - 0)) by lra. repeat split; cmp; reflexivity.
Qed.
Print Assumptions C37_step_off_refuted.
(** Refuted: with a positive tolerance the ramp-off waveform jumps. *)
Theorem C37_ramp_off_refuted : forall a b eps, 0 < eps -> a + eps < b -> ~ continuity_pt (ramp_off a b eps) (a + eps).
Proof. exact ramp_jump. Qed.
Print Assumptions C37_ramp_off_refuted.
(** Refuted: overlapping ramps are accepted, and then the derivative is that of the wrong
    ramp. *)
Theorem C37_overlap_refuted : exists r t, ~ In t (ramp_nodes r) /\ ~ derivable_pt_lim (trapezoid r) t (trapezoid_deriv r t).
Proof. exists (mkRamps 0 2 1 3), (3 / 2). exact overlap_bad. Qed.
Print Assumptions C37_overlap_refuted.
(** Refuted: assigning [off_time] later is not checked against the peak, and does not move
    the end of a triangle. *)
Theorem C37_set_off_refuted : forall w x, e_start w < x < e_peak w -> 0 < e_tau w -> exists w', exp_set_off w x = Ok w' /\ exists t, e_off w' <= t /\ exp_eval w' t <> 0.
Proof.
  intros w x H Ht. eexists. split; [reflexivity|]. exists (e_peak w). cbn [e_off]. split; [lra|]. unfold exp_eval. cbn [e_start e_peak e_tau e_off]. cmp.
  assert (0 < 1 - exp (- (e_peak w - e_start w) / e_tau w)). { replace (- (e_peak w - e_start w) / e_tau w) with (- ((e_peak w - e_start w) * / e_tau w)) by (unfold Rdiv; ring). apply exp_neg. assert (0 < / e_tau w) by (apply Rinv_0_lt_compat; lra). nra. }
  unfold Rdiv at 1. rewrite Rinv_r; lra.
Qed.
Print Assumptions C37_set_off_refuted.
Theorem C37_triangle_refuted : forall w x t, tri_eval (tri_set_off w x) t = tri_eval w t.
Proof. reflexivity. Qed.
Print Assumptions C37_triangle_refuted.
