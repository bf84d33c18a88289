(** C93: responses to a waveform are convolutions with the derivative of its current. *)
From Coq Require Import Reals Lra.
From Verif Require Import Py Vec Convolve SpecConvolve Waveforms ConvolveFacts ConvolveFacts2.
Local Open Scope R_scope.

(** With an exact quadrature the answer is minus the integral of w'(t - s) f(s) over the delays
    since the first node and before t, by any primitive [F] of the integrand. *)
Theorem C93_convolution : forall quad wd func t n l F, exact quad (integrand wd func t) (n :: l) t -> ordered (n :: l) ->
  (forall s, continuity_pt F s) ->
  (forall s, 0 < s -> ~ In (t - s) (n :: l) -> derivable_pt_lim F s (wd (t - s) * func s)) ->
  convolve quad func wd (Some (n :: l)) [t] = Ok [F (Rmax (t - last l n) 0) - F (Rmax (t - n) 0)].
Proof. exact conv_primitive. Qed.
Print Assumptions C93_convolution.
Example C93_convolution_case :
  exact (fun g a b => (b - a) * g ((a + b) / 2)) (integrand (trapezoid_deriv (mkRamps 0 1 2 3)) (fun _ => 1) (3 / 2)) [0; 1; 2; 3] (3 / 2)
  /\ convolve (fun g a b => (b - a) * g ((a + b) / 2)) (fun _ => 1) (trapezoid_deriv (mkRamps 0 1 2 3)) (Some [0; 1; 2; 3]) [3 / 2] = Ok [-1].
Proof. exact (conj midpoint_case conv_case). Qed.

(** Every time has its own answer, in order. *)
Theorem C93_times : forall quad wd func nodes times, convolve quad func wd (Some nodes) times
  = Ok (concat (map (fun t => match convolve quad func wd (Some nodes) [t] with Ok x => x | Err _ => [] end) times)).
Proof. exact conv_times. Qed.
Print Assumptions C93_times.

(** Nothing happens before the waveform. *)
Theorem C93_causal : forall quad wd func t nodes, exact quad (integrand wd func t) nodes t -> (forall n, In n nodes -> t <= n) ->
  convolve quad func wd (Some nodes) [t] = Ok [0].
Proof. exact conv_causal. Qed.
Print Assumptions C93_causal.
Example C93_causal_case : exact (fun g a b => (b - a) * g ((a + b) / 2)) (integrand (trapezoid_deriv (mkRamps 0 1 2 3)) (fun _ => 1) (- (1))) [0; 1; 2; 3] (- (1)).
Proof. apply midpoint_exact; lra. Qed.

(** A steady response follows the drop of the current since the first node. *)
Theorem C93_steady : forall quad w wd c t n l, exact quad (integrand wd (fun _ => c) t) (n :: l) t -> ordered (n :: l) ->
  (forall s, continuity_pt w s) -> (forall s, ~ In s (n :: l) -> derivable_pt_lim w s (wd s)) ->
  convolve quad (fun _ => c) wd (Some (n :: l)) [t] = Ok [c * (w (Rmin t n) - w (Rmin t (last l n)))].
Proof. exact conv_steady. Qed.
Print Assumptions C93_steady.

(** More nodes change nothing. *)
Theorem C93_nodes : forall quad wd func t n l l' F, exact quad (integrand wd func t) (n :: l) t -> exact quad (integrand wd func t) (n :: l') t ->
  ordered (n :: l) -> ordered (n :: l') -> last l n = last l' n ->
  (forall s, continuity_pt F s) ->
  (forall s, 0 < s -> ~ (In (t - s) (n :: l) /\ In (t - s) (n :: l')) -> derivable_pt_lim F s (wd (t - s) * func s)) ->
  convolve quad func wd (Some (n :: l)) [t] = convolve quad func wd (Some (n :: l')) [t].
Proof. exact conv_nodes. Qed.
Print Assumptions C93_nodes.

(** After a trapezoid: the mean response over the ramp off less that over the ramp on. *)
Theorem C93_trapezoid : forall quad func Phi p q r s t,
  let wd := trapezoid_deriv (mkRamps p q r s) in
  p < q -> q < r -> r < s -> s <= t -> exact quad (integrand wd func t) [p; q; r; s] t ->
  (forall x, 0 < x -> derivable_pt_lim Phi x (func x)) -> (forall x, continuity_pt Phi x) ->
  convolve quad func wd (Some [p; q; r; s]) [t]
  = Ok [(Phi (t - r) - Phi (t - s)) / (s - r) - (Phi (t - p) - Phi (t - q)) / (q - p)].
Proof. exact conv_trapezoid. Qed.
Print Assumptions C93_trapezoid.
Example C93_trapezoid_case : exact (fun g a b => (b - a) * g ((a + b) / 2)) (integrand (trapezoid_deriv (mkRamps 0 1 2 3)) (fun _ => 1) 5) [0; 1; 2; 3] 5.
Proof. apply midpoint_exact; lra. Qed.

(** A jump of the current is left out: after a trapezoid that is switched on at once, whose current
    is zero before and after, a steady response does not vanish. *)
Theorem C93_jump_refuted : forall quad c p r s t, p < r -> r < s -> s <= t ->
  let rs := mkRamps p p r s in
  exact quad (integrand (trapezoid_deriv rs) (fun _ => c) t) [p; r; s] t ->
  convolve quad (fun _ => c) (trapezoid_deriv rs) (Some [p; r; s]) [t] = Ok [c]
  /\ (forall x, x < p -> trapezoid rs x = 0) /\ (forall x, s < x -> trapezoid rs x = 0).
Proof. exact conv_jump_steady. Qed.
Print Assumptions C93_jump_refuted.

Example C93_jump_case : exact (fun g a b => (b - a) * g ((a + b) / 2)) (integrand (trapezoid_deriv (mkRamps 0 0 1 2)) (fun _ => 7) 3) [0; 1; 2] 3.
Proof. apply midpoint_jump; lra. Qed.
