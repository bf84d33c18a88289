(** Specification vocabulary for the model builders. *)
From Coq Require Import Sorted.
From Verif Require Import Py Vec ModelBuilder.
Local Open Scope R_scope.

(** Cell centres of a mesh of the given dimension: a plain array in one dimension, rows of
    that length otherwise. *)
Definition mesh_cells (dim : nat) (c : cells) : Prop :=
  match c with
  | C1 _ => dim = 1%nat
  | C2 d rows => d = dim /\ (dim = 2 \/ dim = 3)%nat /\ Forall (fun r => length r = dim) rows
  end.
Definition centre (c : cells) (i : nat) : vec := match c with C1 x => [nth i x 0] | C2 _ rows => nth i rows [] end.
(** An (n_cells, dim) array of cell centres, also for dim = 1. *)
Definition grid (dim : nat) (rows : list vec) : Prop := (1 <= dim <= 3)%nat /\ Forall (fun r => length r = dim) rows.

(** The closed block with opposite corners p and q. *)
Definition between (a b x : R) : Prop := a <= x <= b \/ b <= x <= a.
Definition in_block (p q r : vec) : Prop := forall k, (k < length p)%nat -> between (nth k p 0) (nth k q 0) (nth k r 0).
(** Another choice of opposite corners of the same block. *)
Definition same_block (p q p' q' : vec) : Prop :=
  length p' = length p /\ length q' = length q /\
  forall k, (nth k p' 0 = nth k p 0 /\ nth k q' 0 = nth k q 0) \/ (nth k p' 0 = nth k q 0 /\ nth k q' 0 = nth k p 0).
Definition distance (a b : vec) : R := sqrt (dot (vsub a b) (vsub a b)).

(** Layers listed from the top down; layer k goes from below its top to its floor, the top
    of the next one. *)
Definition top_down (tops : vec) : Prop := StronglySorted Rgt tops.
Definition bottom_up (tops : vec) : Prop := StronglySorted Rlt tops.
Definition in_layer (tops : vec) (k : nat) (z : R) : Prop :=
  (k < length tops)%nat /\ z <= nth k tops 0 /\ ((S k < length tops)%nat -> nth (S k) tops 0 < z).
Definition above_all (tops : vec) (z : R) : Prop := forall k, (k < length tops)%nat -> nth k tops 0 < z.
Definition height (dim : nat) (r : vec) : R := nth (dim - 1) r 0.

(** Inside the ellipsoid with the given full axes, rotated by theta degrees about z. *)
Definition in_ellipse2 (cx cy a b theta x y : R) : Prop :=
  let t := theta * PI / 180 in
  let u := cos t * (x - cx) + sin t * (y - cy) in
  let v := - sin t * (x - cx) + cos t * (y - cy) in
  (u / (a / 2)) ^ 2 + (v / (b / 2)) ^ 2 < 1.
Definition in_ellipse3 (cx cy cz a b c theta x y z : R) : Prop :=
  let t := theta * PI / 180 in
  let u := cos t * (x - cx) + sin t * (y - cy) in
  let v := - sin t * (x - cx) + cos t * (y - cy) in
  (u / (a / 2)) ^ 2 + (v / (b / 2)) ^ 2 + ((z - cz) / (c / 2)) ^ 2 < 1.

(** For examples: the centres of four cells in two columns, listed from the bottom. *)
Definition four_cells : cells := C2 2 [[0; 0]; [1; 0]; [0; 1]; [1; 1]].
