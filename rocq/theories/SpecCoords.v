(** Specification vocabulary for coordinate conversions. *)
From Coq Require Import ZArith.
From Verif Require Import Py Vec VecDeriv Coords.
Local Open Scope R_scope.

(** Vectors of length one. *)
Definition is_unit (v : row) : Prop := c0 v ^ 2 + c1 v ^ 2 + c2 v ^ 2 = 1.
(** The vector with amplitude a, angle t above the horizontal and angle p from the x axis. *)
Definition vector_of (a t p : R) : row := (a * cos t * cos p, a * cos t * sin p, a * sin t).
(** The range in which the angles are unique. *)
Definition principal (r : row) : Prop :=
  0 <= c0 r /\ - (PI / 2) <= c1 r <= PI / 2 /\ - PI < c2 r <= PI.
(** [r] holds spherical coordinates of [v]. *)
Definition spherical_coordinates (v r : row) : Prop :=
  principal r /\ v = vector_of (c0 r) (c1 r) (c2 r).
(** Euclidean length and distance. *)
Definition length3 (v : row) : R := sqrt (c0 v ^ 2 + c1 v ^ 2 + c2 v ^ 2).
Definition distance3 (u v : row) : R := sqrt ((c0 u - c0 v) ^ 2 + (c1 u - c1 v) ^ 2 + (c2 u - c2 v) ^ 2).
(** The direction dip degrees below the horizontal and azm degrees clockwise from north
    (x is east, y is north, z is up). *)
Definition dip_direction (dip azm : R) : row :=
  let d := dip * PI / 180 in let z := azm * PI / 180 in
  (cos d * sin z, cos d * cos z, - sin d).
(** Two angles that differ by full turns. *)
Definition coterminal_angles (a b : R) : Prop := exists k : Z, a - b = 2 * PI * IZR k.
(** The plane n . x + d = 0. *)
Definition on_plane (n : row) (d : R) (p : row) : Prop := c0 n * c0 p + c1 n * c1 p + c2 n * c2 p + d = 0.
(** The three points lie on a line. *)
Definition collinear (p q r : row) : Prop :=
  exists s t : R, (s <> 0 \/ t <> 0) /\
    s * (c0 q - c0 p) + t * (c0 r - c0 p) = 0 /\ s * (c1 q - c1 p) + t * (c1 r - c1 p) = 0 /\ s * (c2 q - c2 p) + t * (c2 r - c2 p) = 0.

(** The transform as a function on models of length 3n. *)
Definition ss_fun (m : vec) : vec := match ss_transform m with Ok u => u | Err _ => [] end.
(** Every row of the model has a positive amplitude and a vertical angle strictly between
    the poles. *)
Definition regular_model (n : nat) (m : vec) : Prop :=
  length m = (n + (n + n))%nat /\
  forall i, (i < n)%nat -> 0 <= nth i m 0 /\ - (PI / 2) < nth (n + i) m 0 < PI / 2.
(** The operations of a history that do not overwrite an array. *)
Definition no_write (o : ssop) : Prop := match o with SDeriv _ => True | SWrite _ _ => False end.

(** For examples. *)
Definition ss_two : sst := mkSst (fun k => match k with O => [1; 0; 0] | _ => [2; 1; 3] end) None None.
(** Row i of a flat model of n rows. *)
Definition row_at (n : nat) (m : vec) (i : nat) : row := (nth i m 0, nth (n + i) m 0, nth (n + n + i) m 0).
