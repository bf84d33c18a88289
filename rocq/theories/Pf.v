(** Integral potential-field simulations: how the gravity and magnetic
    sensitivity matrices are assembled by the two engines
    (simpeg/potential_fields/base.py, gravity/simulation.py,
    magnetics/simulation.py, _numba_utils.py and the _numba/_3d_mesh.py files).
    Exact real arithmetic; casts to [sensitivity_dtype] are not modelled.  The
    closed-form prism functions of geoana and choclo are arguments.  Numba's
    parallel loops write to disjoint rows or sum per-receiver rows and are
    modelled as the serial loops. *)
From Verif Require Export Vec.
Local Open Scope R_scope.

(** A point (rows of [mesh.nodes] and of [receiver.locations]). *)
Record pt := mkpt { px : R; py : R; pz : R }.
(** [dr = self._nodes - receiver_location] (gravity/simulation.py 466–469,
    magnetics/simulation.py 585–588; in numba [dx = nodes[j,0] - receivers[i,0]],
    magnetics/_numba/_3d_mesh.py 2035–2037). *)
Definition pdiff (a b : pt) : pt := mkpt (px a - px b) (py a - py b) (pz a - pz b).

(** The prism functions imported from geoana.kernels (gravity/simulation.py 7,
    magnetics/simulation.py 7–15). *)
Record gkern := mkgkern {
  fz : R -> R -> R -> R; fzx : R -> R -> R -> R; fzy : R -> R -> R -> R; fzz : R -> R -> R -> R;
  fzzz : R -> R -> R -> R; fxxy : R -> R -> R -> R; fxxz : R -> R -> R -> R; fxyz : R -> R -> R -> R }.
(** The kernels of choclo.prism; each takes the shifts and the distance
    (gravity/simulation.py 74–85, magnetics/simulation.py 45–103). *)
Record ckern := mkckern {
  ce : R -> R -> R -> R -> R; cn : R -> R -> R -> R -> R; cu : R -> R -> R -> R -> R;
  cee : R -> R -> R -> R -> R; cnn : R -> R -> R -> R -> R; cuu : R -> R -> R -> R -> R;
  cen : R -> R -> R -> R -> R; ceu : R -> R -> R -> R -> R; cnu : R -> R -> R -> R -> R;
  ceee : R -> R -> R -> R -> R; cnnn : R -> R -> R -> R -> R; cuuu : R -> R -> R -> R -> R;
  ceen : R -> R -> R -> R -> R; ceeu : R -> R -> R -> R -> R; cenn : R -> R -> R -> R -> R;
  cnnu : R -> R -> R -> R -> R; ceuu : R -> R -> R -> R -> R; cnuu : R -> R -> R -> R -> R;
  cenu : R -> R -> R -> R -> R }.

(** A prism function on every node. *)
Definition ev (f : R -> R -> R -> R) (dr : list pt) : vec := map (fun d => f (px d) (py d) (pz d)) dr.
(** Choclo's kernels on every node, [distance = sqrt(dx**2 + dy**2 + dz**2)]
    (magnetics/_numba/_3d_mesh.py 2034–2041, gravity/_numba/_3d_mesh.py
    [_evaluate_kernel]). *)
Definition cev (k : R -> R -> R -> R -> R) (dr : list pt) : vec :=
  map (fun d => k (px d) (py d) (pz d) (sqrt (px d * px d + py d * py d + pz d * pz d))) dr.

(** Value of a cell from the values at its eight nodes: geoana
    (gravity/simulation.py 510–519, magnetics/simulation.py 767–796) ... *)
Definition sum8g (v : nat -> R) : R :=
  v 0%nat - v 1%nat - v 2%nat + v 3%nat - v 4%nat + v 5%nat + v 6%nat - v 7%nat.
(** ... and choclo (_numba_utils.py [kernels_in_nodes_to_cell] 35–45). *)
Definition sum8c (v : nat -> R) : R :=
  - v 0%nat + v 1%nat + v 2%nat - v 3%nat + v 4%nat - v 5%nat - v 6%nat + v 7%nat.
(** A cell is the list of its eight node numbers; [vals[unique_inv]] and
    [kernels[nodes_indices[j]]]. *)
Definition gcells (cells : list (list nat)) (vals : vec) : vec :=
  map (fun c => sum8g (fun j => nth (nth j c 0%nat) vals 0)) cells.
Definition ccells (cells : list (list nat)) (vals : vec) : vec :=
  map (fun c => sum8c (fun j => nth (nth j c 0%nat) vals 0)) cells.

(** ** Nodes and cells of a tensor mesh, and the active part. *)
(** [mesh.nodes] of a tensor mesh, x fastest. *)
Definition tnodes (xs ys zs : vec) : list pt :=
  flat_map (fun z => flat_map (fun y => map (fun x => mkpt x y z) xs) ys) zs.
(** The eight node numbers of each cell, cells with x fastest (potential_fields/
    base.py 120–141; discretize's [mesh.cell_nodes] used by choclo has the same
    order). [nx], [ny] are the numbers of nodes. *)
Definition tcell (nx ny i j k : nat) : list nat :=
  (let n a b c := a + nx * (b + ny * c) in
   [n i j k; n (i + 1) j k; n i (j + 1) k; n (i + 1) (j + 1) k;
    n i j (k + 1); n (i + 1) j (k + 1); n i (j + 1) (k + 1); n (i + 1) (j + 1) (k + 1)])%nat.
Definition tcells (nx ny nz : nat) : list (list nat) :=
  flat_map (fun k => flat_map (fun j => map (fun i => tcell nx ny i j k) (seq 0 (nx - 1))) (seq 0 (ny - 1))) (seq 0 (nz - 1)).

(** Boolean-mask indexing [x[active_cells]]. *)
Fixpoint masked {A} (m : list bool) (l : list A) : list A :=
  match m, l with
  | b :: m', x :: l' => if b then x :: masked m' l' else masked m' l'
  | _, _ => []
  end.
(** [np.unique(a, return_inverse=True)]: sorted distinct values, and for each
    entry its position among them. *)
Fixpoint uinsert (x : nat) (l : list nat) : list nat :=
  match l with
  | [] => [x]
  | y :: l' => if (x <? y)%nat then x :: l else if (x =? y)%nat then l else y :: uinsert x l'
  end.
Definition unique (l : list nat) : list nat := fold_right uinsert [] l.
Fixpoint position (x : nat) (l : list nat) : nat :=
  match l with [] => 0%nat | y :: l' => if (x =? y)%nat then 0%nat else S (position x l') end.
(** base.py 141, 144, 147–149 (geoana: always remapped). *)
Definition g_active (nodes : list pt) (cells : list (list nat)) (m : list bool) : list pt * list (list nat) :=
  let cs := masked m cells in
  let u := unique (concat cs) in
  (map (fun i => nth i nodes (mkpt 0 0 0)) u, map (map (fun i => position i u)) cs).
(** base.py [_get_active_nodes] 371–399 (choclo: not remapped when every cell is
    active). *)
Definition c_active (nodes : list pt) (cells : list (list nat)) (m : list bool) : list pt * list (list nat) :=
  if (length (filter (fun b => b) m) =? length cells)%nat then (nodes, cells) else g_active nodes cells m.

(** ** Gravity components. *)
Inductive gcomp := Gx | Gy | Gz | Gxx | Gyy | Gzz | Gxy | Gxz | Gyz | Guv.
Definition gceqb (a b : gcomp) : bool :=
  match a, b with
  | Gx, Gx | Gy, Gy | Gz, Gz | Gxx, Gxx | Gyy, Gyy | Gzz, Gzz | Gxy, Gxy | Gxz, Gxz | Gyz, Gyz | Guv, Guv => true
  | _, _ => false
  end.
(** [component in components]. *)
Definition hasg (c : gcomp) (cs : list gcomp) : bool := existsb (gceqb c) cs.
(** [len(component)] of the component's name. *)
Definition gclen (c : gcomp) : nat := match c with Gx | Gy | Gz => 2 | _ => 3 end.
(** gravity/simulation.py [_get_conversion_factor] 101–111. *)
Definition conversion_factor (c : gcomp) : R :=
  match c with
  | Gx | Gy | Gz => 10 ^ 8
  | Gxx | Gyy | Gzz | Gxy | Gxz | Gyz | Guv => 10 ^ 12
  end.

Definition get {K V} (eqb : K -> K -> bool) (k : K) (d : list (K * V)) : result V :=
  match dict_get eqb k d with Some v => Ok v | None => Err KeyError end.

(** gravity/simulation.py [evaluate_integral] 471–493: the values at the nodes,
    filed by component. *)
Definition grav_node_evals (K : gkern) (cs : list gcomp) (dr : list pt) : result (list (gcomp * vec)) :=
  let put (b : bool) k f d := if b then dict_set gceqb k (ev f dr) d else d in
  let d := put (hasg Gx cs) Gx (fun x y z => fz K y z x) [] in
  let d := put (hasg Gy cs) Gy (fun x y z => fz K z x y) d in
  let d := put (hasg Gz cs) Gz (fun x y z => fz K x y z) d in
  let d := put (hasg Gxy cs) Gxy (fun x y z => fzx K y z x) d in
  let d := put (hasg Gxz cs) Gxz (fun x y z => fzx K x y z) d in
  let d := put (hasg Gyz cs) Gyz (fun x y z => fzy K x y z) d in
  let d := put (hasg Gxx cs || hasg Guv cs) Gxx (fun x y z => fzz K y z x) d in
  let d := put (hasg Gyy cs || hasg Guv cs) Gyy (fun x y z => fzz K z x y) d in
  do d <- (if hasg Guv cs then
             do a <- get gceqb Gyy d;
             do b <- get gceqb Gxx d;
             Ok (dict_set gceqb Guv (map (fun t => t * / 2) (vsub a b)) d)
           else Ok d);
  Ok (put (hasg Gzz cs) Gzz (fun x y z => fzz K x y z) d).

(** One row of gravity's [evaluate_integral] (505–532) with the sensitivities
    stored. [rows] is a dictionary over [set(components)] read back in the order
    of [components]; each entry depends on its own component alone. [G] is
    scipy.constants.G. *)
Definition grav_row (Gn : R) (cells : list (list nat)) (d : list (gcomp * vec)) (c : gcomp) : result vec :=
  do vals <- get gceqb c d;
  let cell_vals := gcells cells vals in
  Ok (map (fun v => v * (Gn * (if (gclen c =? 3)%nat then 10 ^ 12 else 10 ^ 8))) cell_vals).
(** The same with [store_sensitivities="forward_only"] (525–526): one number. *)
Definition grav_fwd (Gn : R) (cells : list (list nat)) (d : list (gcomp * vec)) (rho : vec) (c : gcomp) : result R :=
  do vals <- get gceqb c d;
  let cell_vals := gcells cells vals in
  Ok (dot cell_vals rho * (Gn * (if (gclen c =? 3)%nat then 10 ^ 12 else 10 ^ 8))).
(** [evaluate_integral(receiver_location, components)] (445–539). *)
Definition grav_integral (K : gkern) (Gn : R) (mesh : list pt * list (list nat)) (loc : pt) (cs : list gcomp) : result (list vec) :=
  do d <- grav_node_evals K cs (map (fun n => pdiff n loc) (fst mesh));
  mapM (grav_row Gn (snd mesh) d) cs.
Definition grav_integral_fwd (K : gkern) (Gn : R) (mesh : list pt * list (list nat)) (rho : vec) (loc : pt) (cs : list gcomp) : result (list R) :=
  do d <- grav_node_evals K cs (map (fun n => pdiff n loc) (fst mesh));
  mapM (grav_fwd Gn (snd mesh) d rho) cs.

(** Choclo's kernel of a component (gravity/simulation.py 23–30, 74–85). *)
Definition grav_kernel (C : ckern) (c : gcomp) : R -> R -> R -> R -> R :=
  match c with
  | Gx => ce C | Gy => cn C | Gz => cu C
  | Gxx => cee C | Gyy => cnn C | Gzz => cuu C
  | Gxy => cen C | Gxz => ceu C | Gyz => cnu C
  | Guv => fun e n u r => / 2 * (cnn C e n u r - cee C e n u r)
  end.
(** One row written by [_sensitivity_gravity] (gravity/_numba/_3d_mesh.py
    97–163) with [constant_factor = G * conversion_factor] (simulation.py 626). *)
Definition grav_crow (C : ckern) (Gn : R) (mesh : list pt * list (list nat)) (c : gcomp) (loc : pt) : vec :=
  map (fun v => Gn * conversion_factor c * v) (ccells (snd mesh) (cev (grav_kernel C c) (map (fun n => pdiff n loc) (fst mesh)))).
(** The field at one receiver in [_forward_gravity] (gravity/_numba/_3d_mesh.py
    85–94): [fields[i] += constant_factor * densities[k] * cell] from [f0]. *)
Definition grav_cfwd (C : ckern) (Gn : R) (mesh : list pt * list (list nat)) (rho : vec) (c : gcomp) (loc : pt) (f0 : R) : R :=
  fold_left (fun f rc => f + Gn * conversion_factor c * fst rc * snd rc)
    (combine rho (ccells (snd mesh) (cev (grav_kernel C c) (map (fun n => pdiff n loc) (fst mesh))))) f0.

(** ** Magnetic components. *)
Inductive mcomp := Bx | By | Bz | Bxx | Byy | Bzz | Bxy | Bxz | Byz | Tmi | TmiX | TmiY | TmiZ.
Definition mceqb (a b : mcomp) : bool :=
  match a, b with
  | Bx, Bx | By, By | Bz, Bz | Bxx, Bxx | Byy, Byy | Bzz, Bzz | Bxy, Bxy | Bxz, Bxz | Byz, Byz
  | Tmi, Tmi | TmiX, TmiX | TmiY, TmiY | TmiZ, TmiZ => true
  | _, _ => false
  end.
Definition hasm (c : mcomp) (cs : list mcomp) : bool := existsb (mceqb c) cs.
(** The keys of [node_evals] (magnetics/simulation.py 590–646). *)
Inductive mkey := Kxx | Kxy | Kxz | Kyy | Kyz | Kzz | Kxxx | Kxxy | Kxxz | Kyyx | Kxyz | Kzzx | Kyyy | Kyyz | Kzzy | Kzzz.
Definition mkeqb (a b : mkey) : bool :=
  match a, b with
  | Kxx, Kxx | Kxy, Kxy | Kxz, Kxz | Kyy, Kyy | Kyz, Kyz | Kzz, Kzz
  | Kxxx, Kxxx | Kxxy, Kxxy | Kxxz, Kxxz | Kyyx, Kyyx | Kxyz, Kxyz | Kzzx, Kzzx
  | Kyyy, Kyyy | Kyyz, Kyyz | Kzzy, Kzzy | Kzzz, Kzzz => true
  | _, _ => false
  end.
(** [node_evals[k] = f(...)] and [if k not in node_evals: node_evals[k] = f(...)]. *)
Definition mput (dr : list pt) (k : mkey) (f : R -> R -> R -> R) (d : list (mkey * vec)) : list (mkey * vec) :=
  dict_set mkeqb k (ev f dr) d.
Definition mputn (dr : list pt) (k : mkey) (f : R -> R -> R -> R) (d : list (mkey * vec)) : list (mkey * vec) :=
  match dict_get mkeqb k d with None => mput dr k f d | Some _ => d end.
(** [if b: ...] on the dictionary. *)
Definition mwhen (b : bool) (f : list (mkey * vec) -> list (mkey * vec)) (d : list (mkey * vec)) : list (mkey * vec) :=
  if b then f d else d.
(** magnetics/simulation.py 590–646. *)
Definition mag_node_evals (K : gkern) (cs : list mcomp) (dr : list pt) : list (mkey * vec) :=
  let d := [] in
  let d := mwhen (hasm Bx cs || hasm Tmi cs) (fun d =>
             mput dr Kxz (fun x y z => fzy K y z x)
             (mput dr Kxy (fun x y z => fzx K y z x)
             (mput dr Kxx (fun x y z => fzz K y z x) d))) d in
  let d := mwhen (hasm By cs || hasm Tmi cs) (fun d =>
             mput dr Kyz (fun x y z => fzy K x y z)
             (mput dr Kyy (fun x y z => fzz K z x y)
             (mputn dr Kxy (fun x y z => fzx K y z x) d))) d in
  let d := mwhen (hasm Bz cs || hasm Tmi cs) (fun d =>
             mput dr Kzz (fun x y z => fzz K x y z)
             (mputn dr Kyz (fun x y z => fzy K x y z)
             (mputn dr Kxz (fun x y z => fzy K y z x) d))) d in
  let d := mwhen (hasm Bxx cs || hasm TmiX cs) (fun d =>
             mput dr Kxxz (fun x y z => fxxz K x y z)
             (mput dr Kxxy (fun x y z => fxxy K x y z)
             (mput dr Kxxx (fun x y z => fzzz K y z x) d))) d in
  let d := mwhen (hasm Bxy cs || hasm TmiX cs || hasm TmiY cs) (fun d =>
             mput dr Kxyz (fun x y z => fxyz K x y z)
             (mput dr Kyyx (fun x y z => fxxz K y z x)
             (mputn dr Kxxy (fun x y z => fxxy K x y z) d))) d in
  let d := mwhen (hasm Bxz cs || hasm TmiX cs || hasm TmiZ cs) (fun d =>
             mput dr Kzzx (fun x y z => fxxy K z x y)
             (mputn dr Kxyz (fun x y z => fxyz K x y z)
             (mputn dr Kxxz (fun x y z => fxxz K x y z) d))) d in
  let d := mwhen (hasm Byy cs || hasm TmiY cs) (fun d =>
             mput dr Kyyz (fun x y z => fxxy K y z x)
             (mput dr Kyyy (fun x y z => fzzz K z x y)
             (mputn dr Kyyx (fun x y z => fxxz K y z x) d))) d in
  let d := mwhen (hasm Byz cs || hasm TmiY cs || hasm TmiZ cs) (fun d =>
             mput dr Kzzy (fun x y z => fxxz K z x y)
             (mputn dr Kyyz (fun x y z => fxxy K y z x)
             (mputn dr Kxyz (fun x y z => fxyz K x y z) d))) d in
  mwhen (hasm Bzz cs || hasm TmiZ cs) (fun d =>
             mput dr Kzzz (fun x y z => fzzz K x y z)
             (mputn dr Kzzy (fun x y z => fxxz K z x y)
             (mputn dr Kzzx (fun x y z => fxxy K z x y) d))) d.

(** The three node vectors of a component (magnetics/simulation.py 657–761): a
    component takes three keys, a TMI component projects the rows of a symmetric
    tensor, six keys xx, xy, xz, yy, yz, zz, on [tmi_projection]. *)
Definition get3 (d : list (mkey * vec)) (a b c : mkey) : result (vec * vec * vec) :=
  do x <- get mkeqb a d; do y <- get mkeqb b d; do z <- get mkeqb c d; Ok (x, y, z).
Definition lin3 (t : pt) (a b c : vec) : vec :=
  vadd (vadd (vscale (px t) a) (vscale (py t) b)) (vscale (pz t) c).
Definition proj3 (d : list (mkey * vec)) (t : pt) (xx xy xz yy yz zz : mkey) : result (vec * vec * vec) :=
  do vxx <- get mkeqb xx d; do vxy <- get mkeqb xy d; do vxz <- get mkeqb xz d;
  do vyy <- get mkeqb yy d; do vyz <- get mkeqb yz d; do vzz <- get mkeqb zz d;
  Ok (lin3 t vxx vxy vxz, lin3 t vxy vyy vyz, lin3 t vxz vyz vzz).
Definition mag_vals (d : list (mkey * vec)) (tmi : pt) (c : mcomp) : result (vec * vec * vec) :=
  match c with
  | Bx => get3 d Kxx Kxy Kxz
  | By => get3 d Kxy Kyy Kyz
  | Bz => get3 d Kxz Kyz Kzz
  | Tmi => proj3 d tmi Kxx Kxy Kxz Kyy Kyz Kzz
  | TmiX => proj3 d tmi Kxxx Kxxy Kxxz Kyyx Kxyz Kzzx
  | TmiY => proj3 d tmi Kxxy Kyyx Kxyz Kyyy Kyyz Kzzy
  | TmiZ => proj3 d tmi Kxxz Kxyz Kzzx Kyyz Kzzy Kzzz
  | Bxx => get3 d Kxxx Kxxy Kxxz
  | Bxy => get3 d Kxxy Kyyx Kxyz
  | Bxz => get3 d Kxxz Kxyz Kzzx
  | Byy => get3 d Kyyx Kyyy Kyyz
  | Byz => get3 d Kxyz Kyyz Kzzy
  | Bzz => get3 d Kzzx Kzzy Kzzz
  end.

(** Magnetization used by geoana: one vector per active cell for scalar models
    ([M], 216–240; by default [b0] in every cell), the amplitude alone for vector
    models. *)
Inductive mmodel := MScalar (M : list pt) | MVector (amplitude : R).
(** magnetics/simulation.py 797–813. *)
Definition mag_cellvals (mm : mmodel) (ex ey ez : vec) : vec :=
  match mm with
  | MVector a => map (fun v => v * a) (ex ++ ey ++ ez)
  | MScalar M => vadd (vadd (vmul ex (map px M)) (vmul ey (map py M))) (vmul ez (map pz M))
  end.
Definition mag_row (mm : mmodel) (tmi : pt) (cells : list (list nat)) (d : list (mkey * vec)) (c : mcomp) : result vec :=
  do v <- mag_vals d tmi c;
  let '(vx, vy, vz) := v in
  Ok (map (fun t => t / (4 * PI)) (mag_cellvals mm (gcells cells vx) (gcells cells vy) (gcells cells vz))).
Definition mag_fwd (mm : mmodel) (tmi : pt) (cells : list (list nat)) (d : list (mkey * vec)) (chi : vec) (c : mcomp) : result R :=
  do v <- mag_vals d tmi c;
  let '(vx, vy, vz) := v in
  Ok (dot (mag_cellvals mm (gcells cells vx) (gcells cells vy) (gcells cells vz)) chi / (4 * PI)).
(** [evaluate_integral] (567–820). *)
Definition mag_integral (K : gkern) (mm : mmodel) (tmi : pt) (mesh : list pt * list (list nat)) (loc : pt) (cs : list mcomp) : result (list vec) :=
  let d := mag_node_evals K cs (map (fun n => pdiff n loc) (fst mesh)) in
  mapM (mag_row mm tmi (snd mesh) d) cs.
Definition mag_integral_fwd (K : gkern) (mm : mmodel) (tmi : pt) (mesh : list pt * list (list nat)) (chi : vec) (loc : pt) (cs : list mcomp) : result (list R) :=
  let d := mag_node_evals K cs (map (fun n => pdiff n loc) (fst mesh)) in
  mapM (mag_fwd mm tmi (snd mesh) d chi) cs.

(** Choclo's kernels of a component: three for a field component
    (magnetics/simulation.py 46–78), six (xx, yy, zz, xy, xz, yz) for the TMI
    (magnetics/_numba/_3d_mesh.py 1544–1549) and its derivatives (79–102). *)
Definition mag_kernels (C : ckern) (c : mcomp) : list (R -> R -> R -> R -> R) :=
  match c with
  | Bx => [cee C; cen C; ceu C]
  | By => [cen C; cnn C; cnu C]
  | Bz => [ceu C; cnu C; cuu C]
  | Bxx => [ceee C; ceen C; ceeu C]
  | Byy => [cenn C; cnnn C; cnnu C]
  | Bzz => [ceuu C; cnuu C; cuuu C]
  | Bxy => [ceen C; cenn C; cenu C]
  | Bxz => [ceeu C; cenu C; ceuu C]
  | Byz => [cenu C; cnnu C; cnuu C]
  | Tmi => [cee C; cnn C; cuu C; cen C; ceu C; cnu C]
  | TmiX => [ceee C; cenn C; ceuu C; ceen C; ceeu C; cenu C]
  | TmiY => [ceen C; cnnn C; cnuu C; cenn C; cenu C; cnnu C]
  | TmiZ => [ceeu C; cnnu C; cuuu C; cenu C; ceuu C; cnuu C]
  end.
(** The regional field divided by its amplitude (magnetics/_numba/_3d_mesh.py
    2023–2027). *)
Definition amplitude_of (b0 : pt) : R := sqrt (px b0 * px b0 + py b0 * py b0 + pz b0 * pz b0).
Definition direction_of (b0 : pt) : pt :=
  mkpt (px b0 / amplitude_of b0) (py b0 / amplitude_of b0) (pz b0 / amplitude_of b0).
(** The three numbers (ux, uy, uz) or (bx, by, bz) of each cell
    (magnetics/_numba/_3d_mesh.py 2045–2047 and 2166–2174). *)
Definition mag_cvals (C : ckern) (b0 : pt) (mesh : list pt * list (list nat)) (c : mcomp) (loc : pt) : list pt :=
  let dr := map (fun n => pdiff n loc) (fst mesh) in
  let f := direction_of b0 in
  let u k := ccells (snd mesh) (cev k dr) in
  match mag_kernels C c with
  | [kx; ky; kz] =>
      map (fun t => mkpt (fst (fst t)) (snd (fst t)) (snd t)) (combine (combine (u kx) (u ky)) (u kz))
  | [kxx; kyy; kzz; kxy; kxz; kyz] =>
      map (fun t => let '(((xx, yy), zz), ((xy, xz), yz)) := t in
             mkpt (xx * px f + xy * py f + xz * pz f)
                  (xy * px f + yy * py f + yz * pz f)
                  (xz * px f + yz * py f + zz * pz f))
          (combine (combine (combine (u kxx) (u kyy)) (u kzz)) (combine (combine (u kxy) (u kxz)) (u kyz)))
  | _ => []
  end.
(** The row written by the sensitivity functions (constant factor 1/4/pi,
    magnetics/simulation.py 958): scalar models project on the direction of the
    regional field; vector models have three blocks of columns. *)
Definition mag_crow (C : ckern) (scalar : bool) (b0 : pt) (mesh : list pt * list (list nat)) (c : mcomp) (loc : pt) : vec :=
  let f := direction_of b0 in
  let us := mag_cvals C b0 mesh c loc in
  if scalar then
    map (fun u => 1 / 4 / PI * amplitude_of b0 * (px u * px f + py u * py f + pz u * pz f)) us
  else
    map (fun u => 1 / 4 / PI * amplitude_of b0 * px u) us
    ++ map (fun u => 1 / 4 / PI * amplitude_of b0 * py u) us
    ++ map (fun u => 1 / 4 / PI * amplitude_of b0 * pz u) us.
(** The field at one receiver, from [f0] (2048–2064 and 2175–2191). *)
Definition mag_cfwd (C : ckern) (scalar : bool) (b0 : pt) (mesh : list pt * list (list nat)) (chi : vec) (c : mcomp) (loc : pt) (f0 : R) : R :=
  let f := direction_of b0 in
  let us := mag_cvals C b0 mesh c loc in
  let n := length (snd mesh) in
  fold_left (fun acc ku =>
      let '(k, u) := ku in
      acc + (if scalar then 1 / 4 / PI * nth k chi 0 * amplitude_of b0 * (px u * px f + py u * py f + pz u * pz f)
             else 1 / 4 / PI * amplitude_of b0 * (px u * nth k chi 0 + py u * nth (k + n) chi 0 + pz u * nth (k + 2 * n) chi 0)))
    (combine (seq 0 n) us) f0.

(** ** Filling the matrix. *)
Section Assembly.
  Context {Cmp : Type}.
  (** A receiver object: its components and its locations. *)
  Notation rx := (list Cmp * list pt)%type.
  (** [survey.nD] (gravity/survey.py 88–99, receivers.py [nD]). *)
  Definition rx_nD (r : rx) : nat := (length (fst r) * length (snd r))%nat.
  Definition survey_nD (s : list rx) : nat := list_sum (map rx_nD s).

  (** [kernel[id0:id1] = rows]. *)
  Definition write_rows {A} (K : list A) (i : nat) (rows : list A) : list A :=
    firstn i K ++ rows ++ skipn (i + length rows) K.
  (** base.py [linear_operator] 319–332 (rows of matrices, or numbers with
      [forward_only]); [K0] is what [np.empty] returned. [starmap] (334–343)
      yields the same rows in the same order. *)
  Fixpoint locs_fill {A} (eval : pt -> list Cmp -> result (list A)) (cs : list Cmp) (locs : list pt) (K : list A) (id0 : nat) : result (list A * nat) :=
    match locs with
    | [] => Ok (K, id0)
    | l :: locs' =>
        do rows <- eval l cs;
        locs_fill eval cs locs' (write_rows K id0 rows) (id0 + length rows)
    end.
  Fixpoint geoana_fill {A} (eval : pt -> list Cmp -> result (list A)) (s : list rx) (K : list A) (id0 : nat) : result (list A) :=
    match s with
    | [] => Ok K
    | (cs, locs) :: s' =>
        do st <- locs_fill eval cs locs K id0;
        geoana_fill eval s' (fst st) (snd st)
    end.

  (** Element [r] of the strided view [x[start:stop:step]] is element
      [start + r*step] of [x]. *)
  Fixpoint upd_at {A} (K : list A) (i : nat) (f : A -> A) : list A :=
    match K, i with
    | [], _ => []
    | x :: K', O => f x :: K'
    | x :: K', S i' => x :: upd_at K' i' f
    end.
  (** The loop over the receivers of one component, over the components of one
      receiver object, and over the receiver objects with the running
      [index_offset] (gravity/simulation.py 563–583, 610–628; magnetics 859–928,
      960–1025). [w c l] is what is done to the entry. *)
  Definition comp_write {A} (w : Cmp -> pt -> A -> A) (off nc i : nat) (c : Cmp) (locs : list pt) (K : list A) : list A :=
    fold_left (fun K rl => upd_at K (off + i + fst rl * nc)%nat (w c (snd rl))) (combine (seq 0 (length locs)) locs) K.
  Definition rx_write {A} (w : Cmp -> pt -> A -> A) (off : nat) (r : rx) (K : list A) : list A :=
    fold_left (fun K ic => comp_write w off (length (fst r)) (fst ic) (snd ic) (snd r) K)
      (combine (seq 0 (length (fst r))) (fst r)) K.
  Fixpoint choclo_write {A} (w : Cmp -> pt -> A -> A) (s : list rx) (off : nat) (K : list A) : list A :=
    match s with
    | [] => K
    | r :: s' => choclo_write w s' (off + rx_nD r)%nat (rx_write w off r K)
    end.
  (** [_sensitivity_matrix] (gravity 585–629, magnetics 931–1026), from whatever
      [np.empty] or the memory map held. *)
  Definition choclo_matrix (row : Cmp -> pt -> vec) (s : list rx) (K0 : mat) : mat :=
    choclo_write (fun c l _ => row c l) s 0 K0.
  (** [_forward] (gravity 541–583, magnetics 829–929). *)
  Definition choclo_forward (fwd : Cmp -> pt -> R -> R) (s : list rx) : vec :=
    choclo_write fwd s 0 (vzero (survey_nD s)).

  (** [_sensitivity_matrix_transpose_dot_vec] (gravity 631–671, magnetics
      1046–1141; numba 361–389): each row times its entry of the strided view of
      [vector] is added to the result. *)
  Definition comp_tdot (row : Cmp -> pt -> vec) (v : vec) (off nc i : nat) (c : Cmp) (locs : list pt) (acc : vec) : vec :=
    fold_left (fun acc rl => vadd acc (vscale (nth (off + i + fst rl * nc)%nat v 0) (row c (snd rl)))) (combine (seq 0 (length locs)) locs) acc.
  Definition rx_tdot (row : Cmp -> pt -> vec) (v : vec) (off : nat) (r : rx) (acc : vec) : vec :=
    fold_left (fun acc ic => comp_tdot row v off (length (fst r)) (fst ic) (snd ic) (snd r) acc)
      (combine (seq 0 (length (fst r))) (fst r)) acc.
  Fixpoint choclo_tdot (row : Cmp -> pt -> vec) (v : vec) (s : list rx) (off : nat) (acc : vec) : vec :=
    match s with
    | [] => acc
    | r :: s' => choclo_tdot row v s' (off + rx_nD r)%nat (rx_tdot row v off r acc)
    end.

  (** [_gtg_diagonal_without_building_g] (gravity 690–724, magnetics 1143–1240):
      the whole [weights] array is handed to numba, which reads [weights[i]] for
      the [i]-th location of the receiver object (numba 223–234). *)
  Definition comp_gtg (row : Cmp -> pt -> vec) (w : vec) (c : Cmp) (locs : list pt) (acc : vec) : vec :=
    fold_left (fun acc rl => vadd acc (map (fun g => nth (fst rl) w 0 * (g * g)) (row c (snd rl)))) (combine (seq 0 (length locs)) locs) acc.
  Definition choclo_gtg (row : Cmp -> pt -> vec) (w : vec) (s : list rx) (acc : vec) : vec :=
    fold_left (fun acc r => fold_left (fun acc c => comp_gtg row w c (snd r) acc) (fst r) acc) s acc.
End Assembly.
