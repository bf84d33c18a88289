(** C92: maps between a global mesh and a tile are volume averages over the active cells. *)
From Verif Require Import Vec Tile SpecTile TileFacts TileFacts2.
Local Open Scope R_scope.

(** Every component is mapped to the integral over the active part of each local cell
    that holds an active cell, divided by the volume of the local cell. *)
Theorem C92_average : forall cs lv tol us, meshes cs lv -> 0 < tol -> us <> [] ->
  Forall (fun u => length u = length cs) us ->
  exists P, tile_map cs lv tol (length us) = Ok P /\
    tile_apply (length us * n_active cs) P (concat (map (on_active cs) us))
    = Ok (concat (map (fun u => map (fun i => inside cs u i / nth i lv 0) (tiles cs (length lv))) us)).
Proof. exact tile_average. Qed.
Print Assumptions C92_average.
Example C92_average_ex : exists P,
  tile_map [mkG 1 0 true; mkG 3 0 true; mkG 2 1 true; mkG 2 2 false] [4; 2; 2] 1 2 = Ok P /\
  tile_apply 6 P [5; 1; 7; 0; 4; 2] = Ok [2; 7; 3; 2].
Proof. exact tile_four. Qed.

(** The local active cells are those that hold an active cell. *)
Theorem C92_local_active : forall cs lv i, meshes cs lv -> (i < length lv)%nat ->
  nth i (local_active cs (length lv)) false = true <-> exists c, In c cs /\ ga c = true /\ gl c = i.
Proof. exact tile_flags. Qed.
Print Assumptions C92_local_active.
Example C92_local_active_ex : meshes [mkG 1 0 true; mkG 3 0 true; mkG 2 1 true; mkG 2 2 false] [4; 2; 2].
Proof. exact four_meshes. Qed.

(** The integral of the model is kept, whatever part of the cells is active. *)
Theorem C92_integral : forall cs lv tol u, meshes cs lv -> 0 < tol -> length u = length cs ->
  exists P y, tile_map cs lv tol 1 = Ok P /\ tile_apply (n_active cs) P (on_active cs u) = Ok y /\
    dot (compress (local_active cs (length lv)) lv) y = integral cs u.
Proof. exact tile_total. Qed.
Print Assumptions C92_integral.
Example C92_integral_ex : meshes [mkG 1 0 true; mkG 1 0 false] [2].
Proof. exact half_meshes. Qed.

(** Values stay within the range of the model if the local cells that are used are wholly active. *)
Theorem C92_range_partial : forall cs lv tol u lo hi, meshes cs lv -> 0 < tol -> length u = length cs ->
  (forall i, (i < length lv)%nat -> (exists c, In c cs /\ ga c = true /\ gl c = i) -> active_volume cs i = nth i lv 0) ->
  Forall (fun x => lo <= x <= hi) u ->
  exists P y, tile_map cs lv tol 1 = Ok P /\ tile_apply (n_active cs) P (on_active cs u) = Ok y /\
    Forall (fun x => lo <= x <= hi) y.
Proof. exact tile_range. Qed.
Print Assumptions C92_range_partial.
Example C92_range_ex : active_volume [mkG 1 0 true; mkG 3 0 true; mkG 2 1 true; mkG 2 2 false] 0 = 4.
Proof. cbn. lra. Qed.

(** Otherwise they do not: a uniform model is multiplied by the active part of each cell... *)
Theorem C92_uniform : forall cs lv tol c, meshes cs lv -> 0 < tol ->
  exists P, tile_map cs lv tol 1 = Ok P /\
    tile_apply (n_active cs) P (on_active cs (map (fun _ => c) cs))
    = Ok (map (fun i => c * (active_volume cs i / nth i lv 0)) (tiles cs (length lv))).
Proof. exact tile_constant. Qed.
Print Assumptions C92_uniform.
Example C92_uniform_ex : exists P, tile_map [mkG 1 0 true; mkG 1 0 false] [2] 1 1 = Ok P /\ tile_apply 1 P [1] = Ok [1 / 2].
Proof. exact tile_half. Qed.

(** ... and does not stay uniform. *)
Theorem C92_uniform_refuted : ~ (forall cs lv tol c, meshes cs lv -> 0 < tol -> exists P y, tile_map cs lv tol 1 = Ok P /\
  tile_apply (n_active cs) P (on_active cs (map (fun _ => c) cs)) = Ok y /\ Forall (fun x => x = c) y).
Proof. exact tile_constant_refuted. Qed.
Print Assumptions C92_uniform_refuted.

(** A tile that is the global mesh changes nothing. *)
Theorem C92_same_mesh : forall cs tol u, map gl cs = seq 0 (length cs) -> Forall (fun c => 0 < gv c) cs -> 0 < tol ->
  length u = length cs ->
  exists P, tile_map cs (map gv cs) tol 1 = Ok P /\ tile_apply (n_active cs) P (on_active cs u) = Ok (on_active cs u).
Proof. exact tile_same_mesh. Qed.
Print Assumptions C92_same_mesh.
Example C92_same_mesh_ex : map gl [mkG 1 0 true; mkG 2 1 false; mkG 3 2 true] = seq 0 3
  /\ on_active [mkG 1 0 true; mkG 2 1 false; mkG 3 2 true] [7; 8; 9] = [7; 9].
Proof. split; reflexivity. Qed.

(** The derivative is exact: the change of the values is the derivative times the step. *)
Theorem C92_derivative : forall cols P m v y z, length m = length v -> tile_apply cols P m = Ok y -> tile_apply cols P v = Ok z ->
  tile_apply cols P (vadd m v) = Ok (vadd y z).
Proof. exact tile_linear. Qed.
Print Assumptions C92_derivative.
Example C92_derivative_ex : tile_apply 1 [[1 / 2]] [2] = Ok [1 / 2 * 2 + 0].
Proof. reflexivity. Qed.

(** Maps are made exactly for a positive tolerance, at least one component and centres inside the local mesh. *)
Theorem C92_accepted : forall cs lv tol comps,
  (exists P, tile_map cs lv tol comps = Ok P) <-> 0 < tol /\ (1 <= comps)%nat /\ forall c, In c cs -> (gl c < length lv)%nat.
Proof. exact tile_refused. Qed.
Print Assumptions C92_accepted.
