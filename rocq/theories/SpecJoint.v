(** Words used in the statements about joint regularisations. *)
From Verif Require Import Vec Joint.
Local Open Scope R_scope.

(** Every entry is at least zero. *)
Definition nonneg_vec (v : vec) : Prop := Forall (fun x => 0 <= x) v.
Definition nonneg_mat (M : mat) : Prop := Forall nonneg_vec M.
(** A gradient matrix: constant models have zero gradient. *)
Definition kills_constants (n : nat) (G : mat) : Prop := Forall (fun r => forall c, dot r (vconst n c) = 0) G.
(** Symmetric and positive semidefinite linear actions on vectors of length [n]. *)
Definition symmetric_action (n : nat) (H : vec -> vec) : Prop :=
  forall u v, length u = n -> length v = n -> dot u (H v) = dot (H u) v.
Definition psd_action (n : nat) (H : vec -> vec) : Prop :=
  forall v, length v = n -> 0 <= dot v (H v).
(** The models [a m1 + b]: same structure as [m1]. *)
Definition affine_copy (a b : R) (m1 : vec) : vec := map (fun x => a * x + b) m1.

(** Sum over the columns of [D] (the directions): [alpha_k (d_k . x)^2]. *)
Definition column (D : mat) (k : nat) : vec := map (fun r => nth k r 0) D.
Definition directional_energy (dim : nat) (D : mat) (alpha x : vec) : R :=
  vsum (map (fun k => nth k alpha 0 * (dot (column D k) x * dot (column D k) x)) (seq 0 dim)).

(** The symmetric tensor discretize builds from 3 (2-D) or 6 (3-D) components. *)
Definition tensor (dim : nat) (c : vec) : mat :=
  let e i := nth i c 0 in
  if Nat.eqb dim 2 then [[e 0%nat; e 2%nat]; [e 2%nat; e 1%nat]]
  else [[e 0%nat; e 3%nat; e 4%nat]; [e 3%nat; e 1%nat; e 5%nat]; [e 4%nat; e 5%nat; e 2%nat]].
(** One row per active cell, placed on all cells: the i-th cell gets the row whose number
    is the number of active cells before it, inactive cells get [zero]. *)
Definition placed {A} (zero : A) (act : list bool) (rows out : list A) : Prop :=
  length out = length act /\ forall i, (i < length act)%nat ->
    nth i out zero = if nth i act false then nth (length (filter (fun b => b) (firstn i act))) rows zero else zero.

(** Data for examples: three cells in an L, one face in x and one in y. *)
Definition ex_G : mat := [[-1; 1; 0]; [-1; 0; 1]].
Definition ex_ave : mat := [[1; 1]; [1; 0]; [0; 1]].
Definition ex_vol : vec := [1; 1; 1].
Definition ex_m : vec := [0; 1; 0; 0; 0; 1].
(** Directions turned by a right angle. *)
Definition ex_dir : mat := [[0; -1]; [1; 0]].
