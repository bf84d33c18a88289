(** Specification vocabulary for optimisation. *)
From Verif Require Import Py Vec Optim.
Local Open Scope R_scope.

(** Lower/upper bound of component [i] of an [n]-vector, if there is one. *)
Definition lower_at (B : bounds) (n i : nat) : option R := option_map (fun l => nth i l 0) (bvec n (b_lower B)).
Definition upper_at (B : bounds) (n i : nat) : option R := option_map (fun l => nth i l 0) (bvec n (b_upper B)).
Definition above (b : option R) (x : R) : Prop := match b with None => True | Some l => l <= x end.
Definition below (b : option R) (x : R) : Prop := match b with None => True | Some u => x <= u end.
(** Every component within its bounds. *)
Definition feasible (B : bounds) (x : vec) : Prop :=
  forall i, (i < length x)%nat ->
    above (lower_at B (length x) i) (nth i x 0) /\ below (upper_at B (length x) i) (nth i x 0).
(** Bounds of the right size, lower <= upper. *)
Definition wf_bounds (n : nat) (B : bounds) : Prop :=
  (forall l, bvec n (b_lower B) = Some l -> length l = n) /\
  (forall u, bvec n (b_upper B) = Some u -> length u = n) /\
  forall i l u, (i < n)%nat -> lower_at B n i = Some l -> upper_at B n i = Some u -> l <= u.
Definition at_lower (B : bounds) (x : vec) (i : nat) : Prop :=
  exists l, lower_at B (length x) i = Some l /\ nth i x 0 <= l.
Definition at_upper (B : bounds) (x : vec) (i : nat) : Prop :=
  exists u, upper_at B (length x) i = Some u /\ u <= nth i x 0.

(** Sufficient decrease of [phi] at [y] seen from [x] with gradient [g]. *)
Definition armijo (phi : vec -> option R) (c : R) (x g y : vec) : Prop :=
  exists fx fy, phi x = Some fx /\ phi y = Some fy /\ fy <= fx + c * dot g (vsub y x).
(** Curvature condition. *)
Definition wolfe_curvature (grad : vec -> vec) (c : R) (x g y : vec) : Prop :=
  - dot (grad y) (vsub y x) <= - c * dot g (vsub y x).
(** The [j]-th candidate of a backtracking search. *)
Definition candidate (proj : vec -> vec) (shorten : R) (x p : vec) (j : nat) : vec :=
  proj (vadd x (vscale (shorten ^ j) p)).

(** Each accepted step, starting from [x], does not increase the objective that was
    in force for that step (and that objective is a number at both ends). *)
Fixpoint steps_decrease {H} (phi : H -> vec -> option R) (x : vec) (xs : list (H * vec)) : Prop :=
  match xs with
  | [] => True
  | (h, y) :: ys => (exists fx fy, phi h x = Some fx /\ phi h y = Some fy /\ fy <= fx) /\ steps_decrease phi y ys
  end.
(** The point reached after the accepted steps. *)
Definition final_point {H} (x : vec) (xs : list (H * vec)) : vec := last (map snd xs) x.
