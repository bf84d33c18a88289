(** Specification vocabulary for distance weights. *)
From Verif Require Import Py Vec SensW DistW.
Local Open Scope R_scope.

(** Reference locations with as many coordinates as the mesh has dimensions. *)
Definition points (dim : nat) (l : mat) : Prop := l <> [] /\ Forall (fun p => length p = dim) l.
(** Euclidean distance, squared. *)
Fixpoint sqdist (a b : vec) : R := match a, b with x :: a', y :: b' => (x - y) * (x - y) + sqdist a' b' | _, _ => 0 end.
(** One cell is at least as far from every reference location as another. *)
Definition farther (refs : mat) (far near : vec) : Prop := forall r, In r refs -> sqdist near r <= sqdist far r.
Definition strictly_farther (refs : mat) (far near : vec) : Prop := farther refs far near /\ exists r, In r refs /\ sqdist near r < sqdist far r.
(** The threshold in use, given or half the smallest cell width, is positive: only then
    are all distances plus threshold positive, as the model of powers needs. *)
Definition above_zero (hmin : R) (thr : option R) : Prop := match thr with None => 0 < hmin | Some t => 0 < t end.
