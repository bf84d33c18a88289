(** Specification vocabulary for waveforms. *)
From Coq Require Import Sorted.
From Verif Require Import Py Vec Waveforms.
Local Open Scope R_scope.
(** Away from the nodes the derivative is right. *)
Definition deriv_off_nodes (nodes : list R) (f f' : R -> R) : Prop := forall t, ~ In t nodes -> derivable_pt_lim f t (f' t).
Definition continuous (f : R -> R) : Prop := forall t, continuity_pt f t.
(** A pulse: nothing outside [a, b], at most 1, reached at [p]. *)
Definition pulse (a p b : R) (f : R -> R) : Prop :=
  (forall t, t <= a -> f t = 0) /\ (forall t, b <= t -> f t = 0) /\ f p = 1 /\ forall t, 0 <= f t <= 1.
Definition ordered (r : ramps) : Prop := on0 r < on1 r <= off0 r /\ off0 r < off1 r.
Definition ramp_nodes (r : ramps) : list R := [on0 r; on1 r; off0 r; off1 r].
Definition exp_nodes (w : expw) : list R := [e_start w; e_peak w; e_off w].
(** Later assignments to an exponential waveform. *)
Inductive exp_op := ESStart (x : R) | ESPeak (x : R) | ESTau (x : R) | ESOff (x : R).
Definition exp_step (w : expw) (o : exp_op) : expw :=
  match (match o with ESStart x => exp_set_start w x | ESPeak x => exp_set_peak w x | ESTau x => exp_set_tau w x | ESOff x => exp_set_off w x end) with
  | Ok w' => w' | Err _ => w end.
