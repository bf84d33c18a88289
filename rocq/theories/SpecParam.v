(** Specification of the parametric maps (C59). *)
From Verif Require Import Py Vec VecDeriv Param.
Local Open Scope R_scope.

(** A map with one value for each cell: value [cell c m] and derivative row
    [row c m] of the cell [c].  The whole matrix is the derivative of the whole map. *)
Definition rows_are_derivative {C} (nP : nat) (cell : C -> vec -> R) (row : C -> vec -> vec) (m : vec) (cells : list C) : Prop :=
  is_mat (length cells) nP (map (fun c => row c m) cells) /\
  has_jacobian nP (length cells) (fun m' => map (fun c => cell c m') cells) m (mv (map (fun c => row c m) cells)).

(** [v] lies between the smallest and the largest of the values. *)
Definition within (v : R) (values : list R) : Prop :=
  (exists lo, In lo values /\ lo <= v) /\ (exists hi, In hi values /\ v <= hi).

(** The formula of the documentation of ParametricLayer (_parametric.py 1262-1266). *)
Definition layer_documented (s z : R) (m : vec) : R :=
  nth 0 m 0 + (nth 1 m 0 - nth 0 m 0) / PI *
    (atan (s * (z - nth 2 m 0 + nth 3 m 0 / 2)) - atan (s * (z - nth 2 m 0 - nth 3 m 0 / 2))).

(** An interpolant that depends linearly on its values, as an interpolating spline
    with fixed knots and order does. *)
Definition linear_in_values (n : nat) (interp : vec -> R -> R) : Prop :=
  forall a b t y, length a = n -> length b = n -> interp (vadd a (vscale t b)) y = interp a y + t * interp b y.

(** The straight line through two points (0, v0) and (1, v1). *)
Definition line2 (v : vec) (y : R) : R := nth 0 v 0 + (nth 1 v 0 - nth 0 v 0) * y.

(** The centres of the active cells. *)
Definition active_rows (act : option (list bool)) (centers : list vec) : list vec :=
  match act with
  | None => centers
  | Some b => map snd (filter fst (combine b centers))
  end.
(** The layer map evaluated at the active cells of a mesh: elevation is the last coordinate. *)
Definition layer_on (s : R) (dim : nat) (act : option (list bool)) (centers : list vec) (m : vec) : vec :=
  map (fun r => layer_cell s (nth (dim - 1) r 0) m) (active_rows act centers).

Definition is_set (op : pop) : bool := match op with PSet _ => true | _ => false end.
(** The active cells at the first evaluation of a history (the ones at its end if
    there is none). *)
Fixpoint first_active (act : option (list bool)) (l : list pop) : option (list bool) :=
  match l with
  | [] => act
  | PSet act' :: l' => first_active act' l'
  | _ :: _ => act
  end.
