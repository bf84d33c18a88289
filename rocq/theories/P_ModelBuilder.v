(** C39: the model builders. *)
From Coq Require Import Sorted.
From Verif Require Import Py Vec SpecSensW ModelBuilder SpecModelBuilder ModelBuilderFacts.
Local Open Scope R_scope.

(** C39: with corners of the mesh's dimension (1, 2 or 3), add_block sets exactly the cells
    whose centre lies in the closed block and keeps the others. *)
Theorem C39_block dim c p q model v : mesh_cells dim c -> length p = dim -> length q = dim -> length model = n_cells c ->
  exists m, add_block c model p q v = Ok m /\ length m = n_cells c /\
    forall i, (i < n_cells c)%nat -> (in_block p q (centre c i) -> nth i m 0 = v) /\ (~ in_block p q (centre c i) -> nth i m 0 = nth i model 0).
Proof. exact (c39_block dim c p q model v). Qed.
Print Assumptions C39_block.

(** C39: create_block gives the block value inside and the background elsewhere. *)
Theorem C39_create_block dim c p q background v : mesh_cells dim c -> length p = dim -> length q = dim ->
  exists m, create_block c p q background v = Ok m /\ length m = n_cells c /\
    forall i, (i < n_cells c)%nat -> (in_block p q (centre c i) -> nth i m 0 = v) /\ (~ in_block p q (centre c i) -> nth i m 0 = background).
Proof. exact (c39_create_block dim c p q background v). Qed.
Print Assumptions C39_create_block.
(** Four cells; the block holds the two on the right, one of them on its boundary. *)
Example C39_block_ex : mesh_cells 2 four_cells /\ in_block [2; 0] [1 / 2; 3] (centre four_cells 1) /\ ~ in_block [2; 0] [1 / 2; 3] (centre four_cells 2).
Proof.
  split; [split; [reflexivity|split; [left; reflexivity|repeat constructor]]|]. split.
  - intros [|[|k]] Hk; cbn in *; unfold between; [right; lra|left; lra|lia].
  - intros H. specialize (H 0%nat ltac:(cbn; lia)). cbn in H. unfold between in H. lra.
Qed.

(** C39: whichever opposite corners are given, the same cells are selected. *)
Theorem C39_corners c p q p' q' : length p = length q -> same_block p q p' q' -> get_indices_block p' q' c = get_indices_block p q c.
Proof. exact (c39_corners c p q p' q'). Qed.
Print Assumptions C39_corners.
Example C39_corners_ex : same_block [0; 0] [1; 2] [1; 0] [0; 2].
Proof. split; [reflexivity|]. split; [reflexivity|]. intros [|[|[|k]]]; cbn; auto. Qed.

(** C39, finding: corners of a dimension other than the mesh's are not always refused
    (horizontal corners on a 3-D mesh with an even number of cells select columns). *)
Theorem C39_dimension_refuted : ~ forall d rows p q, Forall (fun r : vec => length r = d) rows -> length p = length q -> length p <> d ->
  exists e, get_indices_block p q (C2 d rows) = Err e.
Proof. exact c39_dimension_refuted. Qed.
Print Assumptions C39_dimension_refuted.

(** C39: the sphere holds exactly the cells whose centre is closer than the radius. *)
Theorem C39_sphere dim rows center radius : grid dim rows -> rows <> [] -> length center = dim ->
  exists b, get_indices_sphere center radius (C2 dim rows) = Ok b /\ length b = length rows /\
    forall i, (i < length rows)%nat -> (nth i b false = true <-> distance center (nth i rows []) < radius).
Proof. exact (c39_sphere dim rows center radius). Qed.
Print Assumptions C39_sphere.
Example C39_sphere_ex : grid 2 [[0; 0]; [1; 0]] /\ distance [0; 0] [3; 4] = 5.
Proof.
  split; [split; [lia|repeat constructor]|]. unfold distance. cbn [vsub zipw dot].
  replace ((0 - 3) * (0 - 3) + ((0 - 4) * (0 - 4) + 0)) with (5 * 5) by ring. apply sqrt_square. lra.
Qed.

(** C39, part: on a 2-D or 3-D mesh whose cells are listed from the lowest corner to the
    highest, with the interface inside the mesh, the two-layer model is split at [depth]
    below the highest centre, and the first value goes to the cells at or below it. *)
Theorem C39_two_layers_partial dim rows depth top bottom first : (dim = 2 \/ dim = 3)%nat -> Forall (fun r => length r = dim) (first :: rows) ->
  let lst := last (first :: rows) [] in
  (forall r k, In r (first :: rows) -> (S k < dim)%nat -> nth k first 0 <= nth k r 0 <= nth k lst 0) ->
  (forall r, In r (first :: rows) -> height dim first <= height dim r <= height dim lst) ->
  exists m, create_2_layer_model (C2 dim (first :: rows)) depth top bottom = Ok m /\ length m = S (length rows) /\
    (0 <= depth <= height dim lst - height dim first ->
     forall i, (i < S (length rows))%nat ->
       (height dim (nth i (first :: rows) []) <= height dim lst - depth -> nth i m 0 = top) /\
       (height dim lst - depth < height dim (nth i (first :: rows) []) -> nth i m 0 = bottom)).
Proof. exact (c39_two_layers dim rows depth top bottom first). Qed.
Print Assumptions C39_two_layers_partial.
Example C39_two_layers_ex : forall r, In r [[0; 0]; [1; 0]; [0; 1]; [1; 1]] -> height 2 [0; 0] <= height 2 r <= height 2 [1; 1].
Proof. intros r [<-|[<-|[<-|[<-|[]]]]]; unfold height; cbn; lra. Qed.

(** C39, finding: the top value is given to cells below those with the bottom value. *)
Theorem C39_two_layers_refuted : ~ forall dim rows depth top bottom m i j, mesh_cells dim (C2 dim rows) ->
  create_2_layer_model (C2 dim rows) depth top bottom = Ok m -> 0 < depth ->
  (i < length rows)%nat -> (j < length rows)%nat ->
  nth i m 0 = top -> nth j m 0 = bottom -> height dim (nth j rows []) <= height dim (nth i rows []).
Proof. exact c39_two_layers_refuted. Qed.
Print Assumptions C39_two_layers_refuted.

(** C39, finding: it never works with the (n_cells, 1) centres of a 1-D mesh. *)
Theorem C39_two_layers_1d rows depth top bottom m : create_2_layer_model (C2 1 rows) depth top bottom <> Ok m.
Proof. exact (c39_two_layers_1d rows depth top bottom m). Qed.
Print Assumptions C39_two_layers_1d.

(** C39: with the layers listed from the top down, every cell gets the value of the layer
    that contains its centre, and 0 above them all. *)
Theorem C39_layers dim rows tops vals : grid dim rows -> top_down tops -> length tops = length vals ->
  exists m, create_layers_model (C2 dim rows) tops vals = Ok m /\ length m = length rows /\
    forall i, (i < length rows)%nat ->
      (forall k, in_layer tops k (height dim (nth i rows [])) -> nth i m 0 = nth k vals 0) /\
      (above_all tops (height dim (nth i rows [])) -> nth i m 0 = 0).
Proof. exact (c39_layers dim rows tops vals). Qed.
Print Assumptions C39_layers.
Example C39_layers_ex : top_down [3; 2; 0] /\ in_layer [3; 2; 0] 1 1 /\ in_layer [3; 2; 0] 2 (-5) /\ above_all [3; 2; 0] 4.
Proof.
  split; [repeat constructor; unfold Rgt; lra|]. split; [split; [cbn; lia|split; cbn; [lra|intros; lra]]|].
  split; [split; [cbn; lia|split; cbn; [lra|intros; lia]]|]. intros [|[|[|k]]] Hk; cbn in *; try lra; lia.
Qed.

(** C39, part: listed from the bottom up they are handled only when the values increase too. *)
Theorem C39_layers_up_partial dim rows tops vals : grid dim rows -> bottom_up tops -> (0 < length tops)%nat -> 1e-20 <= last tops 0 - nth 0 tops 0 ->
  StronglySorted Rle vals -> length tops = length vals ->
  exists m, create_layers_model (C2 dim rows) tops vals = Ok m /\ length m = length rows /\
    forall i, (i < length rows)%nat ->
      (forall k, in_layer (rev tops) k (height dim (nth i rows [])) -> nth i m 0 = nth k (rev vals) 0) /\
      (above_all tops (height dim (nth i rows [])) -> nth i m 0 = 0).
Proof. exact (c39_layers_up dim rows tops vals). Qed.
Print Assumptions C39_layers_up_partial.

(** C39, finding: tops and values are sorted independently, so layers given bottom-up get
    one another's values. *)
Theorem C39_layers_refuted : ~ forall dim rows tops vals m i k, grid dim rows -> bottom_up tops -> length tops = length vals ->
  create_layers_model (C2 dim rows) tops vals = Ok m -> (i < length rows)%nat ->
  in_layer (rev tops) k (height dim (nth i rows [])) -> nth i m 0 = nth k (rev vals) 0.
Proof. exact c39_layers_refuted. Qed.
Print Assumptions C39_layers_refuted.

(** C39: the smooth ellipse model lies strictly between 0 and 1 and exceeds one half
    exactly inside the rotated ellipse (2-D) ... *)
Theorem C39_ellipse_2d cx cy cz a b c slope theta rows : 0 < slope -> a <> 0 -> b <> 0 -> Forall (fun r => length r = 2%nat) rows ->
  let m := create_ellipse 2 [cx; cy; cz] [a; b; c] slope theta rows in
  length m = length rows /\ forall i, (i < length rows)%nat ->
    0 < nth i m 0 < 1 /\ (1 / 2 < nth i m 0 <-> in_ellipse2 cx cy a b theta (nth 0 (nth i rows []) 0) (nth 1 (nth i rows []) 0)).
Proof. exact (c39_ellipse_all2 cx cy cz a b c slope theta rows). Qed.
Print Assumptions C39_ellipse_2d.
Example C39_ellipse_ex : in_ellipse2 1 1 4 2 0 2 1 /\ ~ in_ellipse2 1 1 4 2 0 1 2.
Proof.
  unfold in_ellipse2. replace (0 * PI / 180) with 0 by field. rewrite cos_0, sin_0. split; [|intros H]; cbn in *; lra.
Qed.

(** ... and in 3-D. *)
Theorem C39_ellipse_3d cx cy cz a b c slope theta rows : 0 < slope -> a <> 0 -> b <> 0 -> c <> 0 -> Forall (fun r => length r = 3%nat) rows ->
  let m := create_ellipse 3 [cx; cy; cz] [a; b; c] slope theta rows in
  length m = length rows /\ forall i, (i < length rows)%nat ->
    0 < nth i m 0 < 1 /\ (1 / 2 < nth i m 0 <-> in_ellipse3 cx cy cz a b c theta (nth 0 (nth i rows []) 0) (nth 1 (nth i rows []) 0) (nth 2 (nth i rows []) 0)).
Proof. exact (c39_ellipse_all3 cx cy cz a b c slope theta rows). Qed.
Print Assumptions C39_ellipse_3d.

(** C39: the random model is undefined exactly for a constant field, and otherwise its
    least and greatest values are the bounds. *)
Theorem C39_random mi b0 b1 : mi <> [] -> b0 < b1 ->
  (rescale mi b0 b1 = None <-> forall x y, In x mi -> In y mi -> x = y) /\
  forall m, rescale mi b0 b1 = Some m -> length m = length mi /\ least m b0 /\ greatest m b1.
Proof. exact (c39_rescale mi b0 b1). Qed.
Print Assumptions C39_random.
