(** Convolutions with the derivative of a waveform, by primitives. *)
From Verif Require Import Py Vec.
Local Open Scope R_scope.

(** [F] is a primitive of [g] between [a] and [b]. *)
Definition primitive (g F : R -> R) (a b : R) : Prop :=
  (forall s, a <= s <= b -> continuity_pt F s) /\ (forall s, a < s < b -> derivable_pt_lim F s (g s)).
(** No node lies between the delays [a] and [b]. *)
Definition smooth (nodes : vec) (t a b : R) : Prop := forall n, In n nodes -> ~ (a < t - n < b).
(** The quadrature is exact for [g] between nodes. *)
Definition exact (quad : (R -> R) -> R -> R -> R) (g : R -> R) (nodes : vec) (t : R) : Prop :=
  forall F a b, 0 <= a <= b -> smooth nodes t a b -> primitive g F a b -> quad g a b = F b - F a.
(** Nodes in increasing order *)
Fixpoint ordered (l : vec) : Prop :=
  match l with n0 :: ((n1 :: _) as r) => n0 < n1 /\ ordered r | _ => True end.
