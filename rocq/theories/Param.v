(** Parametric maps (/repo/simpeg/maps/_parametric.py): circle, polynomial and
    spline interfaces, layer, block, ellipsoid, casing in a layer, block in a layer.
    Models ([m]) and coordinates are vectors of reals; m[i] is [nth i m 0] and every
    statement is about models of the length nP.  scipy's csr_matrix of stacked
    columns is the list of its rows, one row for each active cell. *)
From Verif Require Import Py Vec.
Local Open Scope R_scope.

(** [m[i]] *)
Definition at_ (m : vec) (i : nat) : R := nth i m 0.

(** _parametric.py 1233-1234 (BaseParametric._atanfct). *)
Definition atanfct (val slope : R) : R := atan (slope * val) / PI + 1 / 2.

(** 1236-1240 (BaseParametric._atanfctDeriv). *)
Definition atanfctDeriv (val slope : R) : R :=
  let x := slope * val in let dx := - slope in (1 / (1 + x ^ 2)) / PI * dx.

(* ------------------------------------------------------------------ layer *)

(** 1346-1364: the four entries of mDict. The two products are taken with the
    entries [c] (layer_center) and [t] (layer_thickness) because the casing and
    block maps below read them from other places of the model.
    1366-1377 (_atanLayer), one cell at elevation [z]. *)
Definition atanLayer (s z c t : R) : R :=
  let bottom := c - t / 2 in let top := c + t / 2 in
  atanfct (z - bottom) s * atanfct (z - top) (- s).

(** 1379-1392 (_atanLayerDeriv_layer_center). *)
Definition atanLayerDeriv_center (s z c t : R) : R :=
  let bottom := c - t / 2 in let top := c + t / 2 in
  atanfctDeriv (z - bottom) s * atanfct (z - top) (- s) + atanfct (z - bottom) s * atanfctDeriv (z - top) (- s).

(** 1394-1407 (_atanLayerDeriv_layer_thickness). *)
Definition atanLayerDeriv_thickness (s z c t : R) : R :=
  let bottom := c - t / 2 in let top := c + t / 2 in
  - (1 / 2) * atanfctDeriv (z - bottom) s * atanfct (z - top) (- s)
  + 1 / 2 * atanfct (z - bottom) s * atanfctDeriv (z - top) (- s).

(** 1409-1412 (layer_cont). *)
Definition layer_cont (s z bg lay c t : R) : R := bg + (lay - bg) * atanLayer s z c t.

(** 1414-1416 (ParametricLayer._transform), one cell. *)
Definition layer_cell (s z : R) (m : vec) : R := layer_cont s z (at_ m 0) (at_ m 1) (at_ m 2) (at_ m 3).

(** 1418-1432 and 1474-1484: the row of the derivative for one cell. *)
Definition layer_row (s z : R) (m : vec) : vec :=
  let L := atanLayer s z (at_ m 2) (at_ m 3) in
  [ 1 - L; L;
    (at_ m 1 - at_ m 0) * atanLayerDeriv_center s z (at_ m 2) (at_ m 3);
    (at_ m 1 - at_ m 0) * atanLayerDeriv_thickness s z (at_ m 2) (at_ m 3) ].

(* ------------------------------------------------------------------ block *)

(** numpy's power of a number that is at least 0 ([0 ** 0 = 1], [0 ** e = 0] for
    positive [e]; for negative [e] numpy gives inf, here 0: no statement uses it). *)
Definition fpow (b e : R) : R :=
  if Req_EM_T b 0 then (if Req_EM_T e 0 then 1 else 0) else Rpower b e.

(** 1688-1689 (_ekblom). *)
Definition ekblom (eps p v : R) : R := fpow (v ^ 2 + eps ^ 2) (p / 2).

(** 1691-1692 (_ekblomDeriv). *)
Definition ekblomDeriv (eps p v : R) : R := p / 2 * fpow (v ^ 2 + eps ^ 2) (p / 2 - 1) * 2 * v.

(** 1647-1676: centre and width along the axis [k] of the block. *)
Definition blk_center (m : vec) (k : nat) : R := at_ m (2 + 2 * k).
Definition blk_width (m : vec) (k : nat) : R := at_ m (3 + 2 * k).

(** 1699-1713 (_block1D, _block2D, _block3D): [cs] are the coordinates of one cell. *)
Definition blockND (eps p : R) (cs m : vec) : R :=
  1 - vsum (map (fun k => ekblom eps p ((at_ cs k - blk_center m k) / (1 / 2 * blk_width m k))) (seq 0 (length cs))).

(** 1715-1721 (ParametricBlock._transform), one cell. *)
Definition block_cell (eps p s : R) (cs m : vec) : R :=
  at_ m 0 + (at_ m 1 - at_ m 0) * atanfct (blockND eps p cs m) s.

(** 1733-1744 (_deriv_center_block). *)
Definition deriv_center_block (eps p s : R) (cs m : vec) (k : nat) : R :=
  let x := at_ cs k in let x0 := blk_center m k in let dx := blk_width m k in
  (at_ m 1 - at_ m 0) *
  (atanfctDeriv (blockND eps p cs m) s * ekblomDeriv eps p ((x - x0) / (1 / 2 * dx)) / - (1 / 2 * dx)).

(** 1746-1756 (_deriv_width_block). *)
Definition deriv_width_block (eps p s : R) (cs m : vec) (k : nat) : R :=
  let x := at_ cs k in let x0 := blk_center m k in let dx := blk_width m k in
  (at_ m 1 - at_ m 0) *
  (atanfctDeriv (blockND eps p cs m) s * (ekblomDeriv eps p ((x - x0) / (1 / 2 * dx)) * (- (x - x0) / (1 / 2 * dx ^ 2)))).

(** 1723-1731 and 1758-1792 (_deriv1D, _deriv2D, _deriv3D). *)
Definition block_row (eps p s : R) (cs m : vec) : vec :=
  [ 1 - atanfct (blockND eps p cs m) s; atanfct (blockND eps p cs m) s ] ++
  flat_map (fun k => [deriv_center_block eps p s cs m k; deriv_width_block eps p s cs m k]) (seq 0 (length cs)).

(** 1611-1630 (ParametricBlock.nP). *)
Definition block_nP (dim : nat) : nat := 2 + 2 * dim.

(** 1924-1925: ParametricEllipsoid is the block with p = 2. *)
Definition ellipsoid_cell (eps s : R) (cs m : vec) : R := block_cell eps 2 s cs m.
Definition ellipsoid_row (eps s : R) (cs m : vec) : vec := block_row eps 2 s cs m.

(* ------------------------------------------------------- casing in a layer *)

(** 1965-1987: m = [val_background, val_layer, val_casing, val_insideCasing,
    layer_center, layer_thickness, casing_radius, casing_thickness, casing_bottom,
    casing_top]; casing_a and casing_b. *)
Definition casing_a (m : vec) : R := at_ m 6 - 1 / 2 * at_ m 7.
Definition casing_b (m : vec) : R := at_ m 6 + 1 / 2 * at_ m 7.

(** 1989-2002. *)
Definition atanCasingLength (s z : R) (m : vec) : R :=
  atanfct (z - at_ m 9) (- s) * atanfct (z - at_ m 8) s.
Definition atanCasingLengthDeriv_top (s z : R) (m : vec) : R :=
  atanfctDeriv (z - at_ m 9) (- s) * atanfct (z - at_ m 8) s.
Definition atanCasingLengthDeriv_bottom (s z : R) (m : vec) : R :=
  atanfct (z - at_ m 9) (- s) * atanfctDeriv (z - at_ m 8) s.

(** 2004-2029. *)
Definition atanInsideCasing (s x z : R) (m : vec) : R :=
  atanCasingLength s z m * atanfct (x - casing_a m) (- s).
Definition atanInsideCasingDeriv_radius (s x z : R) (m : vec) : R :=
  atanCasingLength s z m * atanfctDeriv (x - casing_a m) (- s).
Definition atanInsideCasingDeriv_thickness (s x z : R) (m : vec) : R :=
  atanCasingLength s z m * - (1 / 2) * atanfctDeriv (x - casing_a m) (- s).
Definition atanInsideCasingDeriv_top (s x z : R) (m : vec) : R :=
  atanCasingLengthDeriv_top s z m * atanfct (x - casing_a m) (- s).
Definition atanInsideCasingDeriv_bottom (s x z : R) (m : vec) : R :=
  atanCasingLengthDeriv_bottom s z m * atanfct (x - casing_a m) (- s).

(** 2031-2068. *)
Definition atanCasing (s x z : R) (m : vec) : R :=
  atanCasingLength s z m * atanfct (x - casing_a m) s * atanfct (x - casing_b m) (- s).
Definition atanCasingDeriv_radius (s x z : R) (m : vec) : R :=
  atanCasingLength s z m *
  (atanfctDeriv (x - casing_a m) s * atanfct (x - casing_b m) (- s)
   + atanfct (x - casing_a m) s * atanfctDeriv (x - casing_b m) (- s)).
Definition atanCasingDeriv_thickness (s x z : R) (m : vec) : R :=
  atanCasingLength s z m *
  (- (1 / 2) * atanfctDeriv (x - casing_a m) s * atanfct (x - casing_b m) (- s)
   + atanfct (x - casing_a m) s * (1 / 2) * atanfctDeriv (x - casing_b m) (- s)).
Definition atanCasingDeriv_bottom (s x z : R) (m : vec) : R :=
  atanCasingLengthDeriv_bottom s z m * atanfct (x - casing_a m) s * atanfct (x - casing_b m) (- s).
Definition atanCasingDeriv_top (s x z : R) (m : vec) : R :=
  atanCasingLengthDeriv_top s z m * atanfct (x - casing_a m) s * atanfct (x - casing_b m) (- s).

(** 2070-2074 (layer_cont with the entries of this map). *)
Definition cas_layer (s z : R) (m : vec) : R := layer_cont s z (at_ m 0) (at_ m 1) (at_ m 4) (at_ m 5).

(** 2076-2086 (ParametricCasingAndLayer._transform), one cell at radius [x] and elevation [z]. *)
Definition casing_cell (s x z : R) (m : vec) : R :=
  let layer := cas_layer s z m in
  let casing := (at_ m 2 - layer) * atanCasing s x z m in
  let inside := (at_ m 3 - layer) * atanInsideCasing s x z m in
  layer + casing + inside.

(** 2088-2101 (_deriv_val_background), 2103-2115 (_deriv_val_layer): both from the
    derivative [d] of the layered background. 2137-2167 (_deriv_layer_center,
    _deriv_layer_thickness) have the same form. *)
Definition cas_through_layer (s x z : R) (m : vec) (d : R) : R :=
  d + -1 * d * atanCasing s x z m + -1 * d * atanInsideCasing s x z m.

(** 2169-2224 (_deriv_casing_radius, _thickness, _bottom, _top). *)
Definition cas_through_casing (s z : R) (m : vec) (dcas dins : R) : R :=
  0 + (at_ m 2 - cas_layer s z m) * dcas + (at_ m 3 - cas_layer s z m) * dins.

(** 2226-2246 (deriv): the row of one cell. *)
Definition casing_row (s x z : R) (m : vec) : vec :=
  let L := atanLayer s z (at_ m 4) (at_ m 5) in
  [ cas_through_layer s x z m (1 - L);
    cas_through_layer s x z m L;
    0 + atanCasing s x z m + 0;
    0 + 0 + atanInsideCasing s x z m;
    cas_through_layer s x z m ((at_ m 1 - at_ m 0) * atanLayerDeriv_center s z (at_ m 4) (at_ m 5));
    cas_through_layer s x z m ((at_ m 1 - at_ m 0) * atanLayerDeriv_thickness s z (at_ m 4) (at_ m 5));
    cas_through_casing s z m (atanCasingDeriv_radius s x z m) (atanInsideCasingDeriv_radius s x z m);
    cas_through_casing s z m (atanCasingDeriv_thickness s x z m) (atanInsideCasingDeriv_thickness s x z m);
    cas_through_casing s z m (atanCasingDeriv_bottom s x z m) (atanInsideCasingDeriv_bottom s x z m);
    cas_through_casing s z m (atanCasingDeriv_top s x z m) (atanInsideCasingDeriv_top s x z m) ].

(* -------------------------------------------------------- block in a layer *)

(** 2341-2351 (xleft, xright, yleft, yright) and the products of 2353-2493: the
    window [lo = c0 - w/2, hi = c0 + w/2] along one axis and its derivatives. *)
Definition window (s x c0 w : R) : R :=
  atanfct (x - (c0 - 1 / 2 * w)) s * atanfct (x - (c0 + 1 / 2 * w)) (- s).
Definition window_d0 (s x c0 w : R) : R :=
  atanfctDeriv (x - (c0 - 1 / 2 * w)) s * atanfct (x - (c0 + 1 / 2 * w)) (- s)
  + atanfct (x - (c0 - 1 / 2 * w)) s * atanfctDeriv (x - (c0 + 1 / 2 * w)) (- s).
Definition window_dw (s x c0 w : R) : R :=
  atanfctDeriv (x - (c0 - 1 / 2 * w)) s * - (1 / 2) * atanfct (x - (c0 + 1 / 2 * w)) (- s)
  + atanfct (x - (c0 - 1 / 2 * w)) s * (1 / 2) * atanfctDeriv (x - (c0 + 1 / 2 * w)) (- s).

(** 2311-2333 and 2335-2339: m = [val_background, val_layer, val_block, layer_center,
    layer_thickness, x0, dx] in 2-D, [.., x0, y0, dx, dy] in 3-D. *)
Definition bil_layer (s z : R) (m : vec) : R := layer_cont s z (at_ m 0) (at_ m 1) (at_ m 3) (at_ m 4).

(** 2353-2358 (_atanBlock2d), 2400-2407 (_atanBlock3d). *)
Definition bil_ind2 (s x z : R) (m : vec) : R :=
  atanLayer s z (at_ m 3) (at_ m 4) * window s x (at_ m 5) (at_ m 6).
Definition bil_ind3 (s x y z : R) (m : vec) : R :=
  atanLayer s z (at_ m 3) (at_ m 4) * window s x (at_ m 5) (at_ m 7) * window s y (at_ m 6) (at_ m 8).

(** 2495-2506 (_transform2d), 2578-2590 (_transform3d). *)
Definition bil_value (layer vb ind : R) : R := layer + (vb - layer) * ind.
Definition bil_cell2 (s x z : R) (m : vec) : R := bil_value (bil_layer s z m) (at_ m 2) (bil_ind2 s x z m).
Definition bil_cell3 (s x y z : R) (m : vec) : R := bil_value (bil_layer s z m) (at_ m 2) (bil_ind3 s x y z m).

(** 2508-2576 (_deriv2d). *)
Definition bil_row2 (s x z : R) (m : vec) : vec :=
  let L := atanLayer s z (at_ m 3) (at_ m 4) in
  let Lc := atanLayerDeriv_center s z (at_ m 3) (at_ m 4) in
  let Lt := atanLayerDeriv_thickness s z (at_ m 3) (at_ m 4) in
  let B := bil_ind2 s x z m in
  let W := window s x (at_ m 5) (at_ m 6) in
  let dl := at_ m 1 - at_ m 0 in
  let db := at_ m 2 - bil_layer s z m in
  [ (1 - L) + - (1 - L) * B;
    L + - L * B;
    0 + (1 - 0) * B;
    dl * Lc + (db * (Lc * W) - dl * Lc * B);
    dl * Lt + (db * (Lt * W) - dl * Lt * B);
    0 + db * (L * window_d0 s x (at_ m 5) (at_ m 6));
    0 + db * (L * window_dw s x (at_ m 5) (at_ m 6)) ].

(** 2592-2676 (_deriv3d). *)
Definition bil_row3 (s x y z : R) (m : vec) : vec :=
  let L := atanLayer s z (at_ m 3) (at_ m 4) in
  let Lc := atanLayerDeriv_center s z (at_ m 3) (at_ m 4) in
  let Lt := atanLayerDeriv_thickness s z (at_ m 3) (at_ m 4) in
  let B := bil_ind3 s x y z m in
  let Wx := window s x (at_ m 5) (at_ m 7) in
  let Wy := window s y (at_ m 6) (at_ m 8) in
  let dl := at_ m 1 - at_ m 0 in
  let db := at_ m 2 - bil_layer s z m in
  [ (1 - L) + - (1 - L) * B;
    L + - L * B;
    0 + (1 - 0) * B;
    dl * Lc + (db * (Lc * Wx * Wy) - dl * Lc * B);
    dl * Lt + (db * (Lt * Wx * Wy) - dl * Lt * B);
    0 + db * (L * (window_d0 s x (at_ m 5) (at_ m 7) * Wy));
    0 + db * (L * (Wx * window_d0 s y (at_ m 6) (at_ m 8)));
    0 + db * (L * (window_dw s x (at_ m 5) (at_ m 7) * Wy));
    0 + db * (L * (Wx * window_dw s y (at_ m 6) (at_ m 8))) ].

(* ------------------------------------------------------------------ circle *)

(** 140-141 and 189-190: the physical value of a parameter. *)
Definition phys (log : bool) (v : R) : R := if log then exp v else v.

(** 137-146 (ParametricCircleMap._transform), one cell at (X, Y). *)
Definition circle_dist (X Y : R) (m : vec) : R := sqrt ((X - at_ m 2) ^ 2 + (Y - at_ m 3) ^ 2).
Definition circle_cell (log : bool) (a X Y : R) (m : vec) : R :=
  let sig1 := phys log (at_ m 0) in let sig2 := phys log (at_ m 1) in
  sig1 + (sig2 - sig1) * (atan (a * (circle_dist X Y m - at_ m 4)) / PI + 1 / 2).

(** 187-247 (ParametricCircleMap.deriv).  A cell at the centre of the circle gives
    0/0 in columns 2 and 3 (numpy: nan); here a division by 0, and every statement
    excludes it. *)
Definition circle_row (log : bool) (a X Y : R) (m : vec) : vec :=
  let sig1 := phys log (at_ m 0) in let sig2 := phys log (at_ m 1) in
  let x := at_ m 2 in let y := at_ m 3 in let r := at_ m 4 in
  let d := circle_dist X Y m in
  let A := atan (a * (- r + d)) / PI + 1 / 2 in
  [ (if log then - A * sig1 + sig1 else - A + 1);
    (if log then A * sig2 else A);
    a * (- X + x) * (- sig1 + sig2) / (PI * (a ^ 2 * (- r + d) ^ 2 + 1) * d);
    a * (- Y + y) * (- sig1 + sig2) / (PI * (a ^ 2 * (- r + d) ^ 2 + 1) * d);
    - a * (- sig1 + sig2) / (PI * (a ^ 2 * (- r + d) ^ 2 + 1)) ].

(* -------------------------------------------------------------- polynomial *)

(** numpy.polynomial.polynomial.polyval, one point: Horner's rule, lowest order first. *)
Fixpoint polyval (x : R) (c : vec) : R :=
  match c with [] => 0 | a :: c' => a + x * polyval x c' end.

(** numpy's polyvander, one point: 1, x, x^2, .. ([k] columns). *)
Definition polyvander (x : R) (k : nat) : vec := map (fun i => x ^ i) (seq 0 k).

(** polyval2d(x, y, C): the sum of C[i][j] x^i y^j. *)
Definition polyval2d (x y : R) (C : mat) : R := polyval x (map (polyval y) C).

(** polyvander2d(x, y, [nx-1, ny-1]): column ny*i + j is x^i y^j. *)
Definition polyvander2d (x y : R) (nx ny : nat) : vec :=
  flat_map (fun i => map (fun j => x ^ i * y ^ j) (seq 0 ny)) (seq 0 nx).

(** c.reshape((nx, ny), order="F") and c.reshape((nx, ny)) for c of length nx*ny. *)
Definition reshapeF (nx ny : nat) (c : vec) : mat :=
  map (fun i => map (fun j => at_ c (i + j * nx)) (seq 0 ny)) (seq 0 nx).
Definition reshapeC (nx ny : nat) (c : vec) : mat :=
  map (fun i => map (fun j => at_ c (i * ny + j)) (seq 0 ny)) (seq 0 nx).

(** 587: the value from the position [f] relative to the interface. *)
Definition iface_value (log : bool) (a : R) (m : vec) (f : R) : R :=
  let sig1 := phys log (at_ m 0) in let sig2 := phys log (at_ m 1) in
  sig1 + (sig2 - sig1) * (atan (a * f) / PI + 1 / 2).

(** 673-684: the row from the position [f] and the row [V] of its derivatives. *)
Definition iface_row (log : bool) (a : R) (m : vec) (f : R) (V : vec) : vec :=
  let sig1 := phys log (at_ m 0) in let sig2 := phys log (at_ m 1) in
  (if log then - (atan (a * f) / PI + 1 / 2) * sig1 + sig1 else - (atan (a * f) / PI + 1 / 2) + 1) ::
  (if log then (atan (a * f) / PI + 1 / 2) * sig2 else atan (a * f) / PI + 1 / 2) ::
  vscale (a * (sig2 - sig1) / (1 + (a * f) ^ 2) / PI) V.

(** 537-543 (ParametricPolyMap._transform in 2-D): for normal x the polynomial is in
    Y and compared with X, for normal y the other way round; [u] is the argument of
    the polynomial and [w] the coordinate compared.  Other normals raise. *)
Definition poly2_coords (normal : nat) (X Y : R) : result (R * R) :=
  match normal with
  | 0%nat => Ok (Y, X)
  | 1%nat => Ok (X, Y)
  | _ => Err GenericException
  end.
Definition poly2_cell (log : bool) (a u w : R) (m : vec) : R :=
  iface_value log a m (polyval u (skipn 2 m) - w).
(** 621-638 (ParametricPolyMap.deriv in 2-D). *)
Definition poly2_row (log : bool) (a u w : R) (m : vec) : vec :=
  iface_row log a m (polyval u (skipn 2 m) - w) (polyvander u (length (skipn 2 m))).

(** 549-582 (3-D): (u, v) are the arguments of the polynomial, [w] the coordinate
    compared: (Y,Z,X), (X,Z,Y), (X,Y,Z) for the normals x, y, z. *)
Definition poly3_coords (normal : nat) (X Y Z : R) : result (R * R * R) :=
  match normal with
  | 0%nat => Ok (Y, Z, X)
  | 1%nat => Ok (X, Z, Y)
  | 2%nat => Ok (X, Y, Z)
  | _ => Err GenericException
  end.
Definition poly3_cell (log : bool) (a : R) (nx ny : nat) (u v w : R) (m : vec) : R :=
  iface_value log a m (polyval2d u v (reshapeF nx ny (skipn 2 m)) - w).
(** 641-669: the coefficients are reshaped without order="F". *)
Definition poly3_row (log : bool) (a : R) (nx ny : nat) (u v w : R) (m : vec) : vec :=
  iface_row log a m (polyval2d u v (reshapeC nx ny (skipn 2 m)) - w) (polyvander2d u v nx ny).

(* ------------------------------------------------------------------ spline *)

(** scipy.interpolate.UnivariateSpline(pts, values, k=order, s=0) evaluated at a
    point is an argument [interp] of everything below.
    990-998: the step of the difference for the coefficient [ctemp]: one and a half
    times the width of the cell whose centre is nearest (np.argmin: the first one). *)
Fixpoint argmin_from (c : R) (best : R) (w : R) (centers widths : vec) : R :=
  match centers, widths with
  | y :: cs, h :: hs => if Rlt_dec (Rabs (y - c)) best then argmin_from c (Rabs (y - c)) h cs hs else argmin_from c best w cs hs
  | _, _ => w
  end.
Definition fd_step (centers widths : vec) (c : R) : R :=
  match centers, widths with
  | y :: cs, h :: hs => argmin_from c (Rabs (y - c)) h cs hs * (3 / 2)
  | _, _ => 0
  end.

(** c.copy() with one entry replaced. *)
Definition upd (c : vec) (i : nat) (v : R) : vec := firstn i c ++ v :: skipn (S i) c.

(** The spline object: 762 [spl = None]; 900 and 923-926 keep the values of the last
    call of [_transform] (the knots are the same). *)
Definition spl_state : Type := option vec.

(** 889-942 (ParametricSplineMap._transform in 2-D), all cells: [us] are the
    arguments of the spline and [ws] the coordinates compared
    (Y and X for normal x, X and Y for normal y). *)
Definition spline2_transform (interp : vec -> R -> R) (log : bool) (a : R) (cells : list (R * R)) (m : vec)
  : spl_state * vec :=
  let c := skipn 2 m in
  (Some c, map (fun q => iface_value log a m (interp c (fst q) - snd q)) cells).

(** 944-1005 and 1065-1067 (ParametricSplineMap.deriv in 2-D): [f] uses the spline
    kept by the last transform; calling [None] raises TypeError; the columns of the
    coefficients stay zero for normal x. *)
Definition spline2_deriv (interp : vec -> R -> R) (log : bool) (a : R) (normal_y : bool) (centers widths : vec)
  (cells : list (R * R)) (st : spl_state) (m : vec) : result mat :=
  match st with
  | None => Err TypeError
  | Some c0 =>
      let c := skipn 2 m in
      Ok (map (fun q =>
        let f := interp c0 (fst q) - snd q in
        iface_row log a m f
          (map (fun i =>
             if normal_y then
               let dy := fd_step centers widths (at_ c i) in
               (interp (upd c i (at_ c i + dy)) (fst q) - interp (upd c i (at_ c i - dy)) (fst q)) / (2 * dy)
             else 0) (seq 0 (length c)))) cells)
  end.

(** 914-934 (_transform in 3-D, normal x): two splines, at elevations zb and zt,
    joined linearly; a cell is (Y, Z, X). *)
Definition flines (interp : vec -> R -> R) (zb zt : R) (cb ct : vec) (Y Z : R) : R :=
  (interp ct Y - interp cb Y) * (Z - zb) / (zt - zb) + interp cb Y.
Definition spline3_transform (interp : vec -> R -> R) (log : bool) (a zb zt : R) (npts : nat)
  (cells : list (R * R * R)) (m : vec) : spl_state * vec :=
  let c := skipn 2 m in
  (Some c, map (fun q => let '(Y, Z, X) := q in
     iface_value log a m (flines interp zb zt (firstn npts c) (skipn npts c) Y Z - X)) cells).

(** 961-972 and 1007-1061 (deriv in 3-D, normal x).  For a coefficient of the top
    boundary both perturbed splines are built from [ca] (1041-1046), and the
    perturbed spline takes the place of the bottom one (1047-1056). *)
Definition spline3_deriv (interp : vec -> R -> R) (log : bool) (a zb zt : R) (npts : nat) (centers widths : vec)
  (cells : list (R * R * R)) (st : spl_state) (m : vec) : result mat :=
  match st with
  | None => Err TypeError
  | Some c0 =>
      let c := skipn 2 m in
      let t0 := skipn npts c0 in
      Ok (map (fun q => let '(Y, Z, X) := q in
        let f := flines interp zb zt (firstn npts c0) t0 Y Z - X in
        iface_row log a m f
          (map (fun i =>
             let dy := fd_step centers widths (at_ c i) in
             let ca := upd c i (at_ c i + dy) in
             let cb := upd c i (at_ c i - dy) in
             let '(fa, fb) :=
               if Nat.ltb i npts then
                 (flines interp zb zt (firstn npts ca) t0 Y Z - X, flines interp zb zt (firstn npts cb) t0 Y Z - X)
               else
                 (flines interp zb zt (skipn npts ca) t0 Y Z - X, flines interp zb zt (skipn npts ca) t0 Y Z - X) in
             (fa - fb) / (2 * dy)) (seq 0 (2 * npts)))) cells)
  end.

(* -------------------------------------------- the object with its coordinates *)

(** BaseParametric 1093-1231: the mesh (dimension and rows of cell_centers), the
    active cells and the coordinates kept by the properties x, y, z. *)
Record pobj : Type := { o_dim : nat; o_centers : list vec; o_slope : R; o_active : option (list bool);
  o_x : option vec; o_y : option vec; o_z : option vec }.

(** numpy indexing by a boolean array. *)
Fixpoint mask {A} (b : list bool) (l : list A) : list A :=
  match b, l with
  | true :: b', a :: l' => a :: mask b' l'
  | false :: b', _ :: l' => mask b' l'
  | _, _ => []
  end.

(** The column [k] of the centres of the active cells. *)
Definition column (k : nat) (act : option (list bool)) (centers : list vec) : vec :=
  map (fun r => at_ r k) (match act with None => centers | Some b => mask b centers end).

(** 1101-1112: a new map, with the slope given. *)
Definition new_pobj (dim : nat) (centers : list vec) (slope : R) (act : option (list bool)) : pobj :=
  Build_pobj dim centers slope act None None None.

(** 1147-1151 (active_cells setter, boolean arrays of the right length): the kept
    coordinates stay. *)
Definition set_active (o : pobj) (act : option (list bool)) : pobj :=
  Build_pobj (o_dim o) (o_centers o) (o_slope o) act (o_x o) (o_y o) (o_z o).

(** 1161-1187 (x), 1189-1209 (y), 1211-1231 (z). In fewer dimensions y and z are None. *)
Definition get_x (o : pobj) : pobj * vec :=
  match o_x o with
  | Some v => (o, v)
  | None => let v := column 0 (o_active o) (o_centers o) in
      (Build_pobj (o_dim o) (o_centers o) (o_slope o) (o_active o) (Some v) (o_y o) (o_z o), v)
  end.
Definition get_y (o : pobj) : pobj * vec :=
  match o_y o with
  | Some v => (o, v)
  | None => let v := column 1 (o_active o) (o_centers o) in
      (Build_pobj (o_dim o) (o_centers o) (o_slope o) (o_active o) (o_x o) (Some v) (o_z o), v)
  end.
Definition get_z (o : pobj) : pobj * vec :=
  match o_z o with
  | Some v => (o, v)
  | None => let v := column 2 (o_active o) (o_centers o) in
      (Build_pobj (o_dim o) (o_centers o) (o_slope o) (o_active o) (o_x o) (o_y o) (Some v), v)
  end.

(** 1366-1370: the elevations; in 1-D the name is unbound (UnboundLocalError, a
    NameError; the catch-all exception here). *)
Definition get_elev (o : pobj) : result (pobj * vec) :=
  match o_dim o with
  | 2%nat => Ok (get_y o)
  | 3%nat => Ok (get_z o)
  | _ => Err GenericException
  end.

(** 1414-1416 (ParametricLayer._transform). *)
Definition layer_transform (o : pobj) (m : vec) : result (pobj * vec) :=
  do q <- get_elev o;
  let '(o1, z) := q in Ok (o1, map (fun zi => layer_cell (o_slope o1) zi m) z).

(** 1434-1487 (ParametricLayer.deriv): [np.ones_like(self.x)] reads x first; arrays
    of different lengths cannot be subtracted (ValueError; numpy would stretch an x of
    length 1, which is the same as equal lengths for the rows below). *)
Definition layer_deriv (o : pobj) (m : vec) : pobj * result mat :=
  let '(o1, x) := get_x o in
  match get_elev o1 with
  | Err e => (o1, Err e)
  | Ok (o2, z) =>
      (o2, if orb (Nat.eqb (length x) (length z)) (Nat.eqb (length x) 1)
           then Ok (map (fun zi => layer_row (o_slope o2) zi m) z)
           else Err ValueError)
  end.

(** 1331-1344 (shape). *)
Definition layer_shape (o : pobj) : nat * nat :=
  (match o_active o with
   | None => length (o_centers o)
   | Some b => length (filter (fun v => v) b)
   end, 4%nat).

(** A history of calls: assignments of active_cells and evaluations. *)
Inductive pop : Type := PSet (act : option (list bool)) | PTransform (m : vec) | PDeriv (m : vec).
Definition pstep (o : pobj) (op : pop) : pobj :=
  match op with
  | PSet act => set_active o act
  | PTransform m => match layer_transform o m with Ok q => fst q | Err _ => o end
  | PDeriv m => fst (layer_deriv o m)
  end.
