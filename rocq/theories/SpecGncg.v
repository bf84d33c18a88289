(** Specification vocabulary for the projected Gauss-Newton-CG direction. *)
From Verif Require Import Py Vec Optim SpecOptim.
Local Open Scope R_scope.

(** Component [i] sits on one of its bounds. *)
Definition on_bound (B : bounds) (x : vec) (i : nat) : Prop := at_lower B x i \/ at_upper B x i.
(** Component [i] sits on a bound and moving downhill would leave the box (or the
    gradient vanishes). *)
Definition blocked (B : bounds) (x g : vec) (i : nat) : Prop :=
  (at_lower B x i /\ 0 <= nth i g 0) \/ (at_upper B x i /\ nth i g 0 <= 0).
(** [v] does not move any component that sits on a bound. *)
Definition leaves_bounds_alone (B : bounds) (x v : vec) : Prop :=
  forall i, (i < length x)%nat -> on_bound B x i -> nth i v 0 = 0.
Definition linear_on (n : nat) (H : vec -> vec) : Prop :=
  forall c u v, length u = n -> length v = n -> H (vadd u (vscale c v)) = vadd (H u) (vscale c (H v)).
(** Symmetric positive definite operator on [n]-vectors. *)
Definition spd (n : nat) (H : vec -> vec) : Prop :=
  (forall v, length v = n -> length (H v) = n) /\ linear_on n H /\
  (forall u v, length u = n -> length v = n -> dot u (H v) = dot v (H u)) /\
  (forall u, length u = n -> u <> vzero n -> 0 < dot u (H u)).
(** [w] is [v] with the components on a bound set to zero. *)
Definition free_part (B : bounds) (x v w : vec) : Prop :=
  length w = length x /\ forall i, (i < length x)%nat ->
    (on_bound B x i -> nth i w 0 = 0) /\ (~ on_bound B x i -> nth i w 0 = nth i v 0).
