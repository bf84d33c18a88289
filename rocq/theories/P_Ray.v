(** C60: straight ray tomography. *)
From Verif Require Import Py Vec VecDeriv PropsM LinSim SpecLinSim Ray SpecRay RayFacts RayFacts2 RayFacts3 RayFacts4.
From Coq Require Import Lra.
Local Open Scope R_scope.

(** The length computed for a cell is the length of the part of the ray in it, and no
    length is computed exactly when the ray misses the cell. *)
Theorem C60_cell P Q x0 x1 y0 y1 : 0 < dist2 P Q -> x0 <= x1 -> y0 <= y1 ->
  match length_in_cell P (fst Q - fst P, snd Q - snd P) x0 x1 y0 y1 with
  | Some L => exists lo hi, stretch P Q x0 x1 y0 y1 lo hi /\ L = hi - lo
  | None => misses P Q x0 x1 y0 y1
  end.
Proof. exact (lic_spec P Q x0 x1 y0 y1). Qed.
Print Assumptions C60_cell.
Example C60_cell_ex : 0 < dist2 (0, 1) (3, 2).
Proof. apply ex22. Qed.
(** The row of a ray holds these lengths, each in the column of its cell; it is the only
    such row; building it fails exactly for a ray of zero length or outside the mesh. *)
Theorem C60_row m P Q h : good_mesh m -> 0 < dist2 P Q -> line_integral m P Q = Ok h -> is_ray_row m P Q (row_of (ncells m) h).
Proof. exact (line_is_row m P Q h). Qed.
Print Assumptions C60_row.
Theorem C60_unique m rays A B : good_mesh m -> Forall (meets m) rays -> is_ray_matrix m rays A -> is_ray_matrix m rays B -> A = B.
Proof. exact (matrix_unique m rays A B). Qed.
Print Assumptions C60_unique.
Theorem C60_raises m P Q : good_mesh m -> (line_integral m P Q = Err TypeError <-> ~ meets m (P, Q)).
Proof. exact (c60_raises m P Q). Qed.
Print Assumptions C60_raises.
(** The lengths add up to the part of the ray inside the mesh, for a ray that does not run
    along a grid line inside the mesh; inside the mesh that is the whole distance. *)
Theorem C60_total m P Q r : good_mesh m -> 0 < dist2 P Q -> off_grid m P Q -> is_ray_row m P Q r ->
  (exists lo hi, stretch P Q (first_node (nodes_x m)) (last_node (nodes_x m)) (first_node (nodes_y m)) (last_node (nodes_y m)) lo hi /\ vsum r = hi - lo) \/
  (misses P Q (first_node (nodes_x m)) (last_node (nodes_x m)) (first_node (nodes_y m)) (last_node (nodes_y m)) /\ vsum r = 0).
Proof. exact (c60_within m P Q r). Qed.
Print Assumptions C60_total.
Theorem C60_distance m P Q r : good_mesh m -> 0 < dist2 P Q -> off_grid m P Q -> is_ray_row m P Q r ->
  inside m P -> inside m Q -> vsum r = dist2 P Q.
Proof. exact (c60_total m P Q r). Qed.
Print Assumptions C60_distance.
Example C60_distance_ex : good_mesh mesh22 /\ off_grid mesh22 (0, 1) (3, 2) /\ inside mesh22 (0, 1) /\ inside mesh22 (3, 2) /\
  0 < dist2 (0, 1) (3, 2) /\ meets mesh22 ((0, 1), (3, 2)).
Proof. exact ex22. Qed.
(** Traveltimes lie between the extreme slownesses times the distance. *)
Theorem C60_bounds m P Q r sl lo hi : good_mesh m -> 0 < dist2 P Q -> off_grid m P Q -> is_ray_row m P Q r ->
  inside m P -> inside m Q -> length sl = ncells m -> Forall (fun x => lo <= x <= hi) sl ->
  lo * dist2 P Q <= dot r sl <= hi * dist2 P Q.
Proof. exact (c60_bounds m P Q r sl lo hi). Qed.
Print Assumptions C60_bounds.
(** Exchanging source and receiver changes nothing. *)
Theorem C60_reciprocity m P Q : good_mesh m -> 0 < dist2 P Q -> line_integral m P Q = line_integral m Q P.
Proof. exact (c60_reciprocity m P Q). Qed.
Print Assumptions C60_reciprocity.
(** Finding: a ray along a grid line inside the mesh is counted in the cells of both sides,
    so its traveltime is twice what it should be. *)
Theorem C60_gridline_refuted : exists m P Q h, good_mesh m /\ 0 < dist2 P Q /\ inside m P /\ inside m Q /\ line_integral m P Q = Ok h /\
  vsum (row_of (ncells m) h) = 2 * dist2 P Q.
Proof. exact c60_gridline. Qed.
Print Assumptions C60_gridline_refuted.

(** The simulation, after any history that keeps mesh and survey: data, derivative, adjoint. *)
Theorem C60_data m rays f0 l n x : good_mesh m -> Forall (meets m) rays -> Forall keeps l ->
  let s := rrun (rinit m rays f0) l in map_ok n (ncells m) (r_map s) -> length x = n ->
  exists A, is_ray_matrix m rays A /\ snd (rfields s x) = Ok (mv A (pm_val (r_map s) x)).
Proof. exact (c60_data m rays f0 l n x). Qed.
Print Assumptions C60_data.
Theorem C60_derivative m rays f0 l n x : good_mesh m -> Forall (meets m) rays -> Forall keeps l ->
  let s := rrun (rinit m rays f0) l in map_ok n (ncells m) (r_map s) -> length x = n ->
  exists F J, (forall y, length y = n -> snd (rfields s y) = Ok (F y)) /\ (forall v, length v = n -> snd (rjvec s x v) = Ok (J v)) /\
    has_jacobian n (length rays) F x J.
Proof. exact (c60_derivative m rays f0 l n x). Qed.
Print Assumptions C60_derivative.
Theorem C60_adjoint m rays f0 l n x v w : good_mesh m -> Forall (meets m) rays -> Forall keeps l ->
  let s := rrun (rinit m rays f0) l in map_ok n (ncells m) (r_map s) -> length x = n -> length v = n -> length w = length rays ->
  exists a b, snd (rjvec s x v) = Ok a /\ snd (rjtvec n (ncells m) s x w) = Ok b /\ length a = length rays /\ length b = n /\ dot a w = dot v b.
Proof. exact (c60_adjoint m rays f0 l n x v w). Qed.
Print Assumptions C60_adjoint.
(** Finding: the matrix is computed once; after the survey is replaced the data are still
    those of the old survey. *)
Theorem C60_stale_refuted : exists m rays rays' x d, good_mesh m /\ Forall (meets m) rays /\ Forall (meets m) rays' /\
  snd (rfields (rrun (rinit m rays id1) [RFields x; RSurvey rays']) x) = Ok d /\
  forall A, is_ray_matrix m rays' A -> d <> mv A x.
Proof. exact c60_stale. Qed.
Print Assumptions C60_stale_refuted.
(** Finding: a ray outside the mesh makes the first call raise and the next calls silently
    return zeros for it and for every ray after it. *)
Theorem C60_after_error_refuted : exists m rays x d, good_mesh m /\ (exists ray, In ray rays /\ meets m ray) /\
  snd (rfields (rinit m rays id1) x) = Err TypeError /\
  snd (rfields (rrun (rinit m rays id1) [RFields x]) x) = Ok d /\
  forall A, is_ray_matrix m rays A -> d <> mv A x.
Proof. exact c60_partial_fill. Qed.
Print Assumptions C60_after_error_refuted.
