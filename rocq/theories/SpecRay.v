(** Specification vocabulary for straight rays. *)
From Verif Require Import Py Vec PropsM LinSim Ray.
Local Open Scope R_scope.

Definition dist2 (P Q : R * R) : R := sqrt ((fst Q - fst P) * (fst Q - fst P) + (snd Q - snd P) * (snd Q - snd P)).
(** The point of the segment from P to Q at distance t from P. *)
Definition point_at (P Q : R * R) (t : R) : R * R :=
  (fst P + t * ((fst Q - fst P) / dist2 P Q), snd P + t * ((snd Q - snd P) / dist2 P Q)).
Definition in_rect (x0 x1 y0 y1 : R) (p : R * R) : Prop := x0 <= fst p <= x1 /\ y0 <= snd p <= y1.
(** The part of the segment PQ inside the rectangle is the stretch between the distances
    lo and hi from P. *)
Definition stretch (P Q : R * R) (x0 x1 y0 y1 lo hi : R) : Prop :=
  lo <= hi /\ forall t, (0 <= t <= dist2 P Q /\ in_rect x0 x1 y0 y1 (point_at P Q t)) <-> lo <= t <= hi.
Definition misses (P Q : R * R) (x0 x1 y0 y1 : R) : Prop :=
  forall t, 0 <= t <= dist2 P Q -> ~ in_rect x0 x1 y0 y1 (point_at P Q t).

(** Nodes in increasing order, at least one cell along each axis. *)
Fixpoint increasing (l : vec) : Prop :=
  match l with
  | a :: l' => match l' with b :: _ => a < b /\ increasing l' | [] => True end
  | [] => True
  end.
Definition good_mesh (m : mesh2) : Prop :=
  increasing (nodes_x m) /\ increasing (nodes_y m) /\ (2 <= length (nodes_x m))%nat /\ (2 <= length (nodes_y m))%nat.
Definition first_node (l : vec) : R := nth 0 l 0.
Definition last_node (l : vec) : R := nth (length l - 1) l 0.
Definition inside (m : mesh2) (p : R * R) : Prop :=
  in_rect (first_node (nodes_x m)) (last_node (nodes_x m)) (first_node (nodes_y m)) (last_node (nodes_y m)) p.
(** The segment PQ does not run along a grid line between two columns or rows of cells. *)
Definition off_grid (m : mesh2) (P Q : R * R) : Prop :=
  (fst P = fst Q -> forall i, (0 < i < length (nodes_x m) - 1)%nat -> fst P <> nth i (nodes_x m) 0) /\
  (snd P = snd Q -> forall j, (0 < j < length (nodes_y m) - 1)%nat -> snd P <> nth j (nodes_y m) 0).
(** Row of the matrix for the ray PQ: length of the ray inside every cell, the cell (i, j)
    in column i + j * (number of cells along x), zero where the ray does not pass. *)
Definition is_ray_row (m : mesh2) (P Q : R * R) (r : vec) : Prop :=
  length r = ncells m /\ forall i j, (i < ncx m)%nat -> (j < ncy m)%nat ->
    (exists lo hi, stretch P Q (nth i (nodes_x m) 0) (nth (S i) (nodes_x m) 0) (nth j (nodes_y m) 0) (nth (S j) (nodes_y m) 0) lo hi /\
       nth (i + j * ncx m) r 0 = hi - lo) \/
    (misses P Q (nth i (nodes_x m) 0) (nth (S i) (nodes_x m) 0) (nth j (nodes_y m) 0) (nth (S j) (nodes_y m) 0) /\
       nth (i + j * ncx m) r 0 = 0).
Definition is_ray_matrix (m : mesh2) (rays : list ((R * R) * (R * R))) (A : mat) : Prop :=
  length A = length rays /\ forall k, (k < length rays)%nat ->
    is_ray_row m (fst (nth k rays ((0,0),(0,0)))) (snd (nth k rays ((0,0),(0,0)))) (nth k A []).
(** The ray has a positive length and meets the mesh. *)
Definition meets (m : mesh2) (r : (R * R) * (R * R)) : Prop :=
  0 < dist2 (fst r) (snd r) /\ exists t, 0 <= t <= dist2 (fst r) (snd r) /\ inside m (point_at (fst r) (snd r) t).

(** What a user does with a simulation. *)
Inductive rop := RMesh (m : mesh2) | RSurvey (l : list ((R * R) * (R * R))) | RMap (f : pmap)
  | RFields (m : vec) | RJvec (m v : vec) | RJtvec (n p : nat) (m w : vec).
Definition rstep (s : raysim) (o : rop) : raysim :=
  match o with
  | RMesh m => set_mesh s m
  | RSurvey l => set_survey s l
  | RMap f => mkRay (r_mesh s) (r_rays s) f (r_A s)
  | RFields m => fst (rfields s m)
  | RJvec m v => fst (rjvec s m v)
  | RJtvec n p m w => fst (rjtvec n p s m w)
  end.
Definition rrun (s : raysim) (l : list rop) : raysim := fold_left rstep l s.
Definition rinit (m : mesh2) (rays : list ((R * R) * (R * R))) (f : pmap) : raysim := mkRay m rays f None.
(** Histories in which the mesh and the survey are not replaced. *)
Definition keeps (o : rop) : Prop := match o with RMesh _ | RSurvey _ => False | _ => True end.
(** The identity mapping of one number; a mesh of two by two cells for the examples. *)
Definition id1 := mkPmap (fun x => x) (fun _ => [[1]]) (Some 1%nat).
Definition mesh22 := mkMesh2 [0; 1; 3] [0; 2; 3].
