(** Parametric maps (C59). *)
From Coq Require Import Lra.
From Verif Require Import Py Vec VecDeriv Param SpecParam ParamFacts ParamFacts2 ParamFacts3 ParamFacts4 ParamFacts5.
Local Open Scope R_scope.

(** The derivative of the layer map is the derivative of its values, for every set of
    cells, slope and model; a thick or thin layer included. *)
Theorem C59_layer_derivative s m zs : length m = 4%nat -> rows_are_derivative 4 (layer_cell s) (layer_row s) m zs.
Proof. exact (fun L => cells_jacobian 4 (layer_cell s) (layer_row s) m zs (fun z _ => layer_gradient s z m L)). Qed.
Print Assumptions C59_layer_derivative.
Example ex_layer_derivative : length [5; 10; 4; 2] = 4%nat. Proof. reflexivity. Qed.

(** Block in 1, 2 or 3 dimensions: exact derivative when no width is zero and either
    epsilon is not zero or p is 2. *)
Theorem C59_block_derivative eps p s d m cells : eps <> 0 \/ p = 2 -> (1 <= d <= 3)%nat ->
  length m = (2 + 2 * d)%nat -> (forall k, (k < d)%nat -> nth (3 + 2 * k) m 0 <> 0) -> Forall (fun c => length c = d) cells ->
  rows_are_derivative (2 + 2 * d) (block_cell eps p s) (block_row eps p s) m cells.
Proof. exact (block_rows eps p s d m cells). Qed.
Print Assumptions C59_block_derivative.
Example ex_block_derivative : (1 <= 2 <= 3)%nat /\ length [5; 10; 5; 4; 4; 2] = (2 + 2 * 2)%nat /\ 1 / 1000000 <> 0 /\
  (forall k, (k < 2)%nat -> nth (3 + 2 * k) [5; 10; 5; 4; 4; 2] 0 <> 0).
Proof. split; [auto|]. split; [reflexivity|]. split; [lra|]. intros [|[|k]] H; cbn; [lra|lra|]. exfalso. do 2 apply le_S_n in H. inversion H. Qed.
(** The ellipsoid: no condition on epsilon. *)
Theorem C59_ellipsoid_derivative eps s c m : (1 <= length c <= 3)%nat -> length m = (2 + 2 * length c)%nat ->
  (forall k, (k < length c)%nat -> nth (3 + 2 * k) m 0 <> 0) ->
  has_gradient (2 + 2 * length c) (ellipsoid_cell eps s c) m (ellipsoid_row eps s c m).
Proof. exact (block_gradient eps 2 s c m (or_intror eq_refl)). Qed.
Print Assumptions C59_ellipsoid_derivative.

(** Casing in a layer and block in a layer. *)
Theorem C59_casing_derivative s m cells : length m = 10%nat ->
  rows_are_derivative 10 (fun q => casing_cell s (fst q) (snd q)) (fun q => casing_row s (fst q) (snd q)) m cells.
Proof. exact (fun L => cells_jacobian 10 (fun q => casing_cell s (fst q) (snd q)) (fun q => casing_row s (fst q) (snd q)) m cells (fun q _ => casing_gradient s (fst q) (snd q) m L)). Qed.
Print Assumptions C59_casing_derivative.
Theorem C59_block_in_layer_derivative s m m3 cells cells3 : length m = 7%nat -> length m3 = 9%nat ->
  rows_are_derivative 7 (fun q => bil_cell2 s (fst q) (snd q)) (fun q => bil_row2 s (fst q) (snd q)) m cells /\
  rows_are_derivative 9 (fun q => bil_cell3 s (fst (fst q)) (snd (fst q)) (snd q)) (fun q => bil_row3 s (fst (fst q)) (snd (fst q)) (snd q)) m3 cells3.
Proof.
  exact (fun L L3 => conj
    (cells_jacobian 7 (fun q => bil_cell2 s (fst q) (snd q)) (fun q => bil_row2 s (fst q) (snd q)) m cells (fun q _ => bil2_gradient s (fst q) (snd q) m L))
    (cells_jacobian 9 (fun q => bil_cell3 s (fst (fst q)) (snd (fst q)) (snd q)) (fun q => bil_row3 s (fst (fst q)) (snd (fst q)) (snd q)) m3 cells3
      (fun q _ => bil3_gradient s (fst (fst q)) (snd (fst q)) (snd q) m3 L3))).
Qed.
Print Assumptions C59_block_in_layer_derivative.
Example ex_casing : casing_cell 0 1 2 [1; 1; 1; 1; 0; 1; 1; 1; 0; 1] = 1.
Proof. unfold casing_cell, cas_layer, layer_cont, at_. cbn [nth]. ring. Qed.

(** Values stay between the smallest and the largest of the physical values given. *)
Theorem C59_values_between eps p s x y z cs m :
  within (layer_cell s z m) [nth 0 m 0; nth 1 m 0] /\
  within (block_cell eps p s cs m) [nth 0 m 0; nth 1 m 0] /\
  within (bil_cell2 s x z m) [nth 0 m 0; nth 1 m 0; nth 2 m 0] /\
  within (bil_cell3 s x y z m) [nth 0 m 0; nth 1 m 0; nth 2 m 0] /\
  within (casing_cell s x z m) [nth 0 m 0; nth 1 m 0; nth 2 m 0; nth 3 m 0].
Proof.
  exact (conj (layer_within s z m) (conj (block_within eps p s cs m) (conj (bil2_within s x z m)
    (conj (bil3_within s x y z m) (casing_within s x z m))))).
Qed.
Print Assumptions C59_values_between.

(** Circle: exact derivative, with and without the logarithm, as long as no cell is
    centred on the circle's centre. *)
Theorem C59_circle_derivative log a m cells : length m = 5%nat ->
  Forall (fun q => fst q <> nth 2 m 0 \/ snd q <> nth 3 m 0) cells ->
  rows_are_derivative 5 (fun q => circle_cell log a (fst q) (snd q)) (fun q => circle_row log a (fst q) (snd q)) m cells.
Proof.
  exact (fun L H => cells_jacobian 5 (fun q => circle_cell log a (fst q) (snd q)) (fun q => circle_row log a (fst q) (snd q)) m cells
    (fun q Hq => circle_gradient log a (fst q) (snd q) m L (proj1 (Forall_forall _ _) H q Hq))).
Qed.
Print Assumptions C59_circle_derivative.
Example ex_circle : Forall (fun q => fst q <> nth 2 [0; 10; 4; 6; 2] 0 \/ snd q <> nth 3 [0; 10; 4; 6; 2] 0) [(4, 5); (1, 6)].
Proof. apply Forall_cons; [right; cbn; lra|apply Forall_cons; [left; cbn; lra|apply Forall_nil]]. Qed.

(** The documentation calls the first parameter the background and the second the
    circle.  It is the other way round: every cell inside the circle is nearer to the
    first value and every cell outside nearer to the second. *)
Theorem C59_circle_roles_refuted a X Y m : 0 < a -> nth 0 m 0 <> nth 1 m 0 ->
  let d := sqrt ((X - nth 2 m 0) ^ 2 + (Y - nth 3 m 0) ^ 2) in let v := circle_cell false a X Y m in
  (d < nth 4 m 0 -> Rabs (v - nth 0 m 0) < Rabs (v - nth 1 m 0)) /\
  (nth 4 m 0 < d -> Rabs (v - nth 1 m 0) < Rabs (v - nth 0 m 0)).
Proof. exact (circle_sides a X Y m). Qed.
Print Assumptions C59_circle_roles_refuted.
Example ex_circle_roles : 0 < 2 /\ nth 0 [0; 10; 4; 6; 2] 0 <> nth 1 [0; 10; 4; 6; 2] 0.
Proof. cbn. split; lra. Qed.

(** The documented formula of the layer is not the one computed: for a layer of
    thickness zero the value at its centre is a quarter of the way to the layer value. *)
Theorem C59_layer_formula_refuted : exists s z m, length m = 4%nat /\ layer_cell s z m <> layer_documented s z m.
Proof. exact (ex_intro _ 1 (ex_intro _ 0 (ex_intro _ [0; 1; 0; 0] (conj eq_refl layer_not_documented)))). Qed.
Print Assumptions C59_layer_formula_refuted.
(** How far they are apart: at most a quarter of the contrast, towards the layer. *)
Theorem C59_layer_formula s z m : 0 <= s -> 0 <= nth 3 m 0 ->
  exists e, 0 <= e <= 1 / 4 /\ layer_cell s z m = layer_documented s z m + (nth 1 m 0 - nth 0 m 0) * e.
Proof. exact (layer_excess s z m). Qed.
Print Assumptions C59_layer_formula.
Example ex_layer_formula : 0 <= 4 /\ 0 <= nth 3 [5; 10; 4; 2] 0. Proof. cbn. lra. Qed.

(** Polynomial interface in 2-D: a cell has mostly the second value below the interface
    (in the direction of the normal) and mostly the first above it. *)
Theorem C59_poly2_side log a X Y m normal : 0 < a -> (normal < 2)%nat ->
  let s1 := phys log (nth 0 m 0) in let s2 := phys log (nth 1 m 0) in let c := skipn 2 m in
  let p x := dot (map (fun k => x ^ k) (seq 0 (length c))) c in
  let d := match normal with O => p Y - X | _ => p X - Y end in
  exists u w q, poly2_coords normal X Y = Ok (u, w) /\ poly2_cell log a u w m = (s1 + s2) / 2 + (s2 - s1) * q /\
    (0 < d -> 0 < q < 1 / 2) /\ (d < 0 -> - (1 / 2) < q < 0) /\ (d = 0 -> q = 0).
Proof. exact (poly2_side log a X Y m normal). Qed.
Print Assumptions C59_poly2_side.
(** Polynomial interface in 2-D: exact for every order and normal direction. *)
Theorem C59_poly2_derivative log a k m cells : length m = (2 + k)%nat ->
  rows_are_derivative (2 + k) (fun q => poly2_cell log a (fst q) (snd q)) (fun q => poly2_row log a (fst q) (snd q)) m cells.
Proof. exact (fun L => cells_jacobian (2 + k) (fun q => poly2_cell log a (fst q) (snd q)) (fun q => poly2_row log a (fst q) (snd q)) m cells (fun q _ => poly2_gradient log a (fst q) (snd q) k m L)). Qed.
Print Assumptions C59_poly2_derivative.
(** Polynomial interface in 3-D: exact when one of the two orders is zero ... *)
Theorem C59_poly3_derivative_partial log a nx ny m cells : nx = 1%nat \/ ny = 1%nat -> length m = (2 + nx * ny)%nat ->
  rows_are_derivative (2 + nx * ny) (fun q => poly3_cell log a nx ny (fst (fst q)) (snd (fst q)) (snd q))
    (fun q => poly3_row log a nx ny (fst (fst q)) (snd (fst q)) (snd q)) m cells.
Proof.
  exact (fun H L => cells_jacobian (2 + nx * ny) (fun q => poly3_cell log a nx ny (fst (fst q)) (snd (fst q)) (snd q))
    (fun q => poly3_row log a nx ny (fst (fst q)) (snd (fst q)) (snd q)) m cells
    (fun q _ => poly3_gradient log a nx ny (fst (fst q)) (snd (fst q)) (snd q) m H L)).
Qed.
Print Assumptions C59_poly3_derivative_partial.
Example ex_poly3 : length [0; 1; 0; 1; 0] = (2 + 1 * 3)%nat. Proof. reflexivity. Qed.
(** ... and wrong for orders [1, 1]: the values read the coefficients column by
    column, the derivative row by row. *)
Theorem C59_poly3_derivative_refuted : ~ rows_are_derivative 6
  (fun q => poly3_cell false 1 2 2 (fst q) (snd q) 0) (fun q => poly3_row false 1 2 2 (fst q) (snd q) 0) [0; 1; 0; 1; 0; 0] [(2, 3)].
Proof. exact poly3_wrong. Qed.
Print Assumptions C59_poly3_derivative_refuted.

(** Spline interface in 2-D with normal y, right after evaluating the map at the same
    model: exact, for every interpolation that is linear in its values. *)
Theorem C59_spline2_derivative_partial interp n log a centers widths cells m st vs :
  linear_in_values n interp -> length m = (2 + n)%nat ->
  centers <> [] -> length centers = length widths -> Forall (fun h => 0 < h) widths ->
  spline2_transform interp log a cells m = (st, vs) ->
  exists J, spline2_deriv interp log a true centers widths cells st m = Ok J /\ is_mat (length cells) (2 + n) J /\
    has_jacobian (2 + n) (length cells) (fun m' => snd (spline2_transform interp log a cells m')) m (mv J).
Proof. exact (spline2_deriv_ok interp n log a centers widths cells m st vs). Qed.
Print Assumptions C59_spline2_derivative_partial.
Example ex_spline2 : linear_in_values 2 line2 /\ line2 [1; 3] (1 / 2) = 2.
Proof. split; [exact line2_linear|unfold line2; cbn; lra]. Qed.
(** With normal x the derivative with respect to the spline values is zero. *)
Theorem C59_spline2_normal_x_refuted : exists J,
  spline2_deriv line2 false 1 false [0] [1] [(0, 0)] (Some [0; 0]) [0; 1; 0; 0] = Ok J /\
  ~ has_jacobian 4 1 (fun m => snd (spline2_transform line2 false 1 [(0, 0)] m)) [0; 1; 0; 0] (mv J).
Proof. exact spline2_x_wrong. Qed.
Print Assumptions C59_spline2_normal_x_refuted.
(** The derivative depends on which model was evaluated last; before the first
    evaluation it raises. *)
Theorem C59_spline2_stale_refuted : (forall interp log a ny centers widths cells m, spline2_deriv interp log a ny centers widths cells None m = Err TypeError) /\
  exists m1 m2 J, length m1 = 4%nat /\ length m2 = 4%nat /\
  spline2_deriv line2 false 1 true [0] [1] [(0, 0)] (fst (spline2_transform line2 false 1 [(0, 0)] m1)) m2 = Ok J /\
  ~ has_jacobian 4 1 (fun m => snd (spline2_transform line2 false 1 [(0, 0)] m)) m2 (mv J).
Proof. exact (conj (fun _ _ _ _ _ _ _ _ => eq_refl) spline2_stale_wrong). Qed.
Print Assumptions C59_spline2_stale_refuted.
(** In 3-D the derivative is exact along every direction that leaves the values of the
    top boundary alone ... *)
Theorem C59_spline3_derivative_partial interp n log a zb zt centers widths cells m st vs :
  linear_in_values n interp -> length m = (2 + 2 * n)%nat -> zb <> zt ->
  centers <> [] -> length centers = length widths -> Forall (fun h => 0 < h) widths ->
  spline3_transform interp log a zb zt n cells m = (st, vs) ->
  exists J, spline3_deriv interp log a zb zt n centers widths cells st m = Ok J /\ is_mat (length cells) (2 + 2 * n) J /\
    forall h, length h = (2 + 2 * n)%nat -> skipn (2 + n) h = vzero n ->
      vderiv (length cells) (fun t => snd (spline3_transform interp log a zb zt n cells (vadd m (vscale t h)))) 0 (mv J h).
Proof. exact (spline3_deriv_bottom interp n log a zb zt centers widths cells m st vs). Qed.
Print Assumptions C59_spline3_derivative_partial.
(** ... and zero for the values of the top boundary, which is wrong. *)
Theorem C59_spline3_top_refuted :
  (forall interp log a zb zt npts centers widths cells st m J i q, (i < npts)%nat ->
    spline3_deriv interp log a zb zt npts centers widths cells st m = Ok J -> In q J -> nth (2 + npts + i) q 0 = 0) /\
  exists m J, length m = 6%nat /\
  spline3_deriv line2 false 1 0 1 2 [0] [1] [(0, 1, 0)] (fst (spline3_transform line2 false 1 0 1 2 [(0, 1, 0)] m)) m = Ok J /\
  ~ has_jacobian 6 1 (fun m => snd (spline3_transform line2 false 1 0 1 2 [(0, 1, 0)] m)) m (mv J).
Proof. exact (conj spline3_top_zero spline3_top_wrong). Qed.
Print Assumptions C59_spline3_top_refuted.

(** Histories of a layer map on a 2-D or 3-D mesh: every evaluation uses the cells that
    were active at the first evaluation ... *)
Theorem C59_layer_history dim centers s act l m : dim = 2%nat \/ dim = 3%nat ->
  exists o', layer_transform (fold_left pstep l (new_pobj dim centers s act)) m =
    Ok (o', layer_on s dim (first_active act l) centers m).
Proof. exact (layer_history dim centers s act l m). Qed.
Print Assumptions C59_layer_history.
Example ex_layer_history : first_active None [PSet (Some [true; false]); PTransform [1; 2; 3; 4]; PSet None] = Some [true; false].
Proof. reflexivity. Qed.
(** ... so active cells assigned later are ignored: one value where the shape says two. *)
Theorem C59_layer_active_refuted : exists centers l m o' v,
  layer_transform (fold_left pstep l (new_pobj 2 centers 1 (Some [true; false]))) m = Ok (o', v) /\
  length v <> fst (layer_shape (fold_left pstep l (new_pobj 2 centers 1 (Some [true; false])))) /\
  snd (layer_deriv (fold_left pstep l (new_pobj 2 centers 1 (Some [true; false]))) m) = Err ValueError.
Proof.
  exact (ex_intro _ [[0; 0]; [0; 1]] (ex_intro _ [PTransform [1; 2; 3; 4]; PSet None] (ex_intro _ [1; 2; 3; 4] (ex_intro _ _ (ex_intro _ _
    (conj eq_refl (conj (fun H : 1%nat = 2%nat => eq_ind 1%nat (fun k => match k with 1%nat => True | _ => False end) I 2%nat H) eq_refl))))))).
Qed.
Print Assumptions C59_layer_active_refuted.
(** Before the active cells change, rows and values agree in number and order. *)
Theorem C59_layer_rows dim centers s act m : dim = 2%nat \/ dim = 3%nat ->
  snd (layer_deriv (new_pobj dim centers s act) m) = Ok (map (fun r => layer_row s (nth (dim - 1) r 0) m) (active_rows act centers)).
Proof. exact (layer_deriv_fresh dim centers s act m). Qed.
Print Assumptions C59_layer_rows.
(** On a 1-D mesh the layer map can be built but never evaluated. *)
Theorem C59_layer_1d_refuted centers s act m l : layer_transform (fold_left pstep l (new_pobj 1 centers s act)) m = Err GenericException.
Proof. exact (layer_1d centers s act m l). Qed.
Print Assumptions C59_layer_1d_refuted.
