(** Model of simpeg/seismic/straight_ray_tomography/simulation.py (11-132): lengths of
    straight rays in the cells of a 2-D tensor mesh and the simulation built on them. *)
From Verif Require Import Py Vec PropsM LinSim.
Local Open Scope R_scope.

(** ** _lengthInCell, 11-59 (plotting left out) *)
(** numpy floats with the two infinities of line 24. *)
Inductive ext := NInf | Fin (r : R) | PInf.
Definition ele (a b : ext) : bool :=
  match a, b with
  | NInf, _ => true | _, PInf => true
  | Fin x, Fin y => if Rle_dec x y then true else false
  | _, _ => false
  end.
(** [sorted], 40 *)
Fixpoint einsert (a : ext) (l : list ext) : list ext :=
  match l with
  | [] => [a]
  | b :: l' => if ele a b then a :: l else b :: einsert a l'
  end.
Fixpoint esort (l : list ext) : list ext := match l with [] => [] | a :: l' => einsert a (esort l') end.
(** 41-42 *)
Definition eclip (M : R) (a : ext) : R :=
  match a with
  | NInf => 0 | PInf => M
  | Fin r => let r := if Rlt_dec r 0 then 0 else r in if Rlt_dec M r then M else r
  end.
(** 26-28 (and 33-35): the two entries of [alp] of one axis, [d] the component of the
    direction, [o] that of the origin. *)
Definition alphas (o d c0 c1 : R) : list ext :=
  if Rlt_dec 0 (Rabs d) then [Fin ((c0 - o) / d); Fin ((c1 - o) / d)] else [NInf; PInf].
(** 12-59. A zero direction gives nan at line 13: nan is not > 0, the middle alphas are
    then 0 and 0, and the comparisons of lines 48-51 with nan fail. *)
Definition length_in_cell (O D : R * R) (x0 x1 y0 y1 : R) : option R :=
  let M := sqrt (fst D * fst D + snd D * snd D) in
  if Req_EM_T M 0 then None else
  let dx := fst D / M in let dy := snd D / M in
  let alp := esort (alphas (fst O) dx x0 x1 ++ alphas (snd O) dy y0 y1) in
  let a := eclip M (nth 1 alp PInf) in
  let b := eclip M (nth 2 alp PInf) in
  let mid := (a + b) / 2 in
  let px := fst O + mid * dx in let py := snd O + mid * dy in
  if Rle_dec x0 px then if Rle_dec px x1 then if Rle_dec y0 py then if Rle_dec py y1 then
    let vx := (fst O + a * dx) - (fst O + b * dx) in
    let vy := (snd O + a * dy) - (snd O + b * dy) in
    Some (sqrt (vx * vx + vy * vy))
  else None else None else None else None.

(** ** _lineintegral, 62-75 *)
(** A 2-D tensor mesh: its nodes along both axes. *)
Record mesh2 := mkMesh2 { nodes_x : vec; nodes_y : vec }.
Definition ncx (m : mesh2) : nat := length (nodes_x m) - 1.
Definition ncy (m : mesh2) : nat := length (nodes_y m) - 1.
Definition ncells (m : mesh2) : nat := ncx m * ncy m.
Definition cell_length (m : mesh2) (T Rr : R * R) (i j : nat) : option R :=
  length_in_cell T (fst Rr - fst T, snd Rr - snd T)
    (nth i (nodes_x m) 0) (nth (i + 1) (nodes_x m) 0) (nth j (nodes_y m) 0) (nth (j + 1) (nodes_y m) 0).
(** 64-73: the hit cells in loop order with their lengths. *)
Definition hits (m : mesh2) (T Rr : R * R) : list (nat * nat * R) :=
  flat_map (fun i => flat_map (fun j =>
    match cell_length m T Rr i j with Some v => [((i, j), v)] | None => [] end) (seq 0 (ncy m))) (seq 0 (ncx m)).
(** 74-75. sub2ind (discretize) numbers the cells with the first axis fastest; with no hit
    the array of subscripts is an empty array of floats, which numpy's ravel_multi_index
    refuses with a TypeError. *)
Definition line_integral (m : mesh2) (T Rr : R * R) : result (list (nat * R)) :=
  match hits m T Rr with
  | [] => Err TypeError
  | h => Ok (map (fun e => (fst (fst e) + snd (fst e) * ncx m, snd e)%nat) h)
  end.

(** ** Simulation2DIntegral, 78-132 *)
(** 113 [_A[row, inds] = V] on a row of zeros; no index occurs twice. *)
Fixpoint put (i : nat) (v : R) (r : vec) : vec :=
  match r, i with
  | [], _ => []
  | _ :: r', 0%nat => v :: r'
  | x :: r', S i' => x :: put i' v r'
  end.
Definition row_of (n : nat) (h : list (nat * R)) : vec := fold_left (fun r e => put (fst e) (snd e) r) h (vzero n).
(** 106-114: the rows filled so far and the exception that stopped the loop, if any. The
    survey is the list of its (source location, receiver location) pairs in loop order. *)
Fixpoint fill (m : mesh2) (rays : list ((R * R) * (R * R))) : mat * option exn :=
  match rays with
  | [] => ([], None)
  | (T, Rr) :: l =>
      match line_integral m T Rr with
      | Err e => (repeat (vzero (ncells m)) (S (length l)), Some e)
      | Ok h => let '(A, e) := fill m l in (row_of (ncells m) h :: A, e)
      end
  end.
(** The mesh, the survey, the mapping of the slowness and the cached matrix. *)
Record raysim := mkRay { r_mesh : mesh2; r_rays : list ((R * R) * (R * R)); r_map : pmap; r_A : option mat }.
(** 100-116: the matrix is stored before it is filled. *)
Definition get_A (s : raysim) : raysim * result mat :=
  match r_A s with
  | Some A => (s, Ok A)
  | None => let '(A, e) := fill (r_mesh s) (r_rays s) in
            (mkRay (r_mesh s) (r_rays s) (r_map s) (Some A), match e with None => Ok A | Some e => Err e end)
  end.
(** 91-98, and BaseSimulation's survey setter: neither touches [_A]. *)
Definition set_mesh (s : raysim) (m : mesh2) : raysim := mkRay m (r_rays s) (r_map s) (r_A s).
Definition set_survey (s : raysim) (l : list ((R * R) * (R * R))) : raysim := mkRay (r_mesh s) l (r_map s) (r_A s).
(** 118-120, for a model of the length the mapping expects. dpred (LinearSimulation)
    returns the same. *)
Definition rfields (s : raysim) (m : vec) : raysim * result vec :=
  let '(s1, A) := get_A s in (s1, do A <- A; mdot A (pm_val (r_map s) m)).
(** 122-126: [A * slownessDeriv * v] *)
Definition rjvec (s : raysim) (m v : vec) : raysim * result vec :=
  let '(s1, A) := get_A s in (s1, do A <- A; do w <- mdot (pm_deriv (r_map s) m) v; mdot A w).
(** 128-132; [n], [p] the sizes of model and slowness. *)
Definition rjtvec (n p : nat) (s : raysim) (m w : vec) : raysim * result vec :=
  let '(s1, A) := get_A s in (s1, do A <- A; do u <- mtdot p A w; mtdot n (pm_deriv (r_map s) m) u).
