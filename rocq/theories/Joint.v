(** Joint regularisations: linear correspondence, cross gradient, joint total
    variation and the full-gradient smoothness
    (/repo/simpeg/regularization/correspondence.py, cross_gradient.py, jtv.py,
    _gradient.py and BaseSimilarityMeasure of base.py).
    The cell gradient, the face averaging, the cell volumes and the face inner
    product come from discretize; they are arguments here. *)
From Verif Require Import Vec.
Local Open Scope R_scope.

(** Sparse matrices built from products, sums, transposes and diagonals
    (scipy.sparse): kept as expressions, used through their action on vectors. *)
Inductive mx : Type :=
| Mx (c : nat) (M : mat)            (* a matrix with [c] columns *)
| Mdiag (d : vec)                   (* sp.diags(d), utils.sdiag(d) *)
| Mmul (A B : mx)
| Madd (A B : mx)
| Msub (A B : mx)
| Mscale (k : R) (A : mx)
| MT (A : mx)
| Mblock (r c : nat) (A B C D : mx). (* sp.bmat([[A, B], [C, D]]); A is r by c *)

(** [act false A v] is [A @ v], [act true A v] is [A.T @ v]. *)
Fixpoint act (t : bool) (A : mx) (v : vec) : vec :=
  match A with
  | Mx c M => if t then mtv c M v else mv M v
  | Mdiag d => vmul d v
  | Mmul A B => if t then act true B (act true A v) else act false A (act false B v)
  | Madd A B => vadd (act t A v) (act t B v)
  | Msub A B => vsub (act t A v) (act t B v)
  | Mscale k A => vscale k (act t A v)
  | MT A => act (negb t) A v
  | Mblock r c A B C D =>
      if t then
        let v1 := firstn r v in let v2 := skipn r v in
        vadd (act true A v1) (act true C v2) ++ vadd (act true B v1) (act true D v2)
      else
        let v1 := firstn c v in let v2 := skipn c v in
        vadd (act false A v1) (act false B v2) ++ vadd (act false C v1) (act false D v2)
  end.

(** base.py 2404-2415 (wire_map setter of BaseSimilarityMeasure): the sizes of the
    maps of the wires.  With a number of maps other than two the ValueError is
    built but not raised (2409), and the next line fails on the unbound [m1]
    (UnboundLocalError, a NameError; the catch-all exception here). *)
Definition set_wire_map (sizes : list nat) : result nat :=
  match sizes with
  | [a; b] => if Nat.eqb a b then Ok a else Err ValueError
  | _ => Err GenericException
  end.

(** jtv.py 158-169: any number of maps, each as long as the mesh. *)
Definition set_wire_map_jtv (n : nat) (sizes : list nat) : result unit :=
  if forallb (Nat.eqb n) sizes then Ok tt else Err ValueError.

(** [self.wire_map * model] for [k] wires of length [n]. *)
Fixpoint chunks (n k : nat) (m : vec) : list vec :=
  match k with
  | O => []
  | S k' => firstn n m :: chunks n k' (skipn n m)
  end.

(** ** Linear correspondence *)

(** correspondence.py 83-87 and 54-58. *)
Definition set_coefficients (v : vec) : result (R * R * R) :=
  match v with
  | [a; b; c] => Ok (a, b, c)
  | _ => Err ValueError
  end.
Definition default_coefficients : R * R * R := (1, -1, 0).

(** correspondence.py 89-116. *)
Definition lc_relation (k : R * R * R) (n : nat) (m : vec) : vec :=
  let '(k1, k2, k3) := k in
  map (fun x => x + k3) (vadd (vscale k1 (firstn n m)) (vscale k2 (skipn n m))).
(** 118-133. *)
Definition lc_value (k : R * R * R) (n : nat) (m : vec) : R :=
  dot (lc_relation k n m) (lc_relation k n m).
(** 135-170. *)
Definition lc_deriv (k : R * R * R) (n : nat) (m : vec) : vec :=
  let '(k1, k2, _) := k in
  let r := lc_relation k n m in
  vscale 2 (vscale k1 r ++ vscale k2 r).
(** 216-220. *)
Definition lc_deriv2v (k : R * R * R) (n : nat) (v : vec) : vec :=
  let '(k1, k2, _) := k in
  let v1 := firstn n v in
  let v2 := skipn n v in
  vscale 2 (vadd (vscale (k1 * k1) v1) (vscale (k2 * k1) v2)
            ++ vadd (vscale (k2 * k1) v1) (vscale (k2 * k2) v2)).
(** 221-226. *)
Definition lc_deriv2m (k : R * R * R) (n : nat) : mx :=
  let '(k1, k2, _) := k in
  let A := Mdiag (vconst n (k1 * k1)) in
  let B := Mdiag (vconst n (k2 * k2)) in
  let C := Mdiag (vconst n (k1 * k2)) in
  Mscale 2 (Mblock n n A C C B).

(** ** Cross gradient *)

(** cross_gradient.py 142: [sp.diags(np.sqrt(vol)) * average_face_to_cell]. *)
Fixpoint scale_rows (d : vec) (M : mat) : mat :=
  match d, M with
  | x :: d', r :: M' => vscale x r :: scale_rows d' M'
  | _, _ => []
  end.
Definition cg_av (vol : vec) (ave : mat) : mat := scale_rows (map sqrt vol) ave.

(** 133-142: the dimension check of the constructor. *)
Definition cg_init (dim : nat) (vol : vec) (ave : mat) : result mat :=
  if Nat.eqb dim 2 || Nat.eqb dim 3 then Ok (cg_av vol ave) else Err ValueError.

(** 230-252. *)
Definition cg_value (n : nat) (G Av : mat) (m : vec) : R :=
  let g1 := mv G (firstn n m) in
  let g2 := mv G (skipn n m) in
  vsum (vsub (vmul (mv Av (vmul g1 g1)) (mv Av (vmul g2 g2)))
             (vmul (mv Av (vmul g1 g2)) (mv Av (vmul g1 g2)))).

(** 254-297; [nf] is the number of faces; [x @ Av] is [Av.T @ x]. *)
Definition cg_deriv (n nf : nat) (G Av : mat) (m : vec) : vec :=
  let g1 := mv G (firstn n m) in
  let g2 := mv G (skipn n m) in
  vscale 2
    (vsub (mtv n G (vmul (mtv nf Av (mv Av (vmul g2 g2))) g1))
          (mtv n G (vmul (mtv nf Av (mv Av (vmul g1 g2))) g2))
     ++
     vsub (mtv n G (vmul (mtv nf Av (mv Av (vmul g1 g1))) g2))
          (mtv n G (vmul (mtv nf Av (mv Av (vmul g1 g2))) g1))).

(** 340-350 and 372-393 (product with a vector). *)
Definition cg_deriv2v (approx : bool) (n nf : nat) (G Av : mat) (m v : vec) : vec :=
  let g1 := mv G (firstn n m) in
  let g2 := mv G (skipn n m) in
  let AA := fun x => mtv nf Av (mv Av x) in
  let d11 := AA (vmul g2 g2) in
  let d12 := vopp (AA (vmul g1 g2)) in
  let d22 := AA (vmul g1 g1) in
  let Gv1 := mv G (firstn n v) in
  let Gv2 := mv G (skipn n v) in
  let p1 := mtv n G (vadd (vmul d11 Gv1) (vmul d12 Gv2)) in
  let p2 := mtv n G (vadd (vmul d12 Gv1) (vmul d22 Gv2)) in
  if approx then vscale 2 (p1 ++ p2)
  else
    let q1 := mtv n G (vsub (vadd (vmul (vopp g2) (AA (vmul g2 Gv1)))
                                  (vmul (vscale 2 g1) (AA (vmul g2 Gv2))))
                            (vmul g2 (AA (vmul g1 Gv2)))) in
    let q2 := mtv n G (vsub (vadd (vmul (vopp g1) (AA (vmul g1 Gv2)))
                                  (vmul (vscale 2 g2) (AA (vmul g1 Gv1))))
                            (vmul g1 (AA (vmul g2 Gv1)))) in
    vscale 2 (vadd p1 q1 ++ vadd p2 q2).

(** 352-370 (the matrix). *)
Definition cg_deriv2m (approx : bool) (n nf : nat) (G Av : mat) (m : vec) : mx :=
  let g1 := mv G (firstn n m) in
  let g2 := mv G (skipn n m) in
  let AA := fun x => mtv nf Av (mv Av x) in
  let A := Mx nf Av in
  let GM := Mx n G in
  let D11 := Mdiag (AA (vmul g2 g2)) in
  let D12 := Mdiag (vopp (AA (vmul g1 g2))) in
  let D22 := Mdiag (AA (vmul g1 g1)) in
  let around := fun a b => Mmul (Mmul (Mmul (Mdiag a) (MT A)) A) (Mdiag b) in
  let D11' := if approx then D11 else Msub D11 (around g2 g2) in
  let D12' := if approx then D12
              else Msub (Madd D12 (Mmul (Mmul (Mmul (Mscale 2 (Mdiag g1)) (MT A)) A) (Mdiag g2)))
                        (around g2 g1) in
  let D22' := if approx then D22 else Msub D22 (around g1 g1) in
  let sand := fun D => Mmul (Mmul (MT GM) D) GM in
  Mscale 2 (Mblock n n (sand D11') (sand D12') (MT (sand D12')) (sand D22')).

(** 159-190 (_calculate_gradient), after the averaging: one gradient vector per
    cell; [np.linalg.norm], [norms.max()] (ValueError on an empty array). *)
Definition norm2 (g : vec) : R := sqrt (dot g g).
Fixpoint maxl (a : R) (l : vec) : R := match l with [] => a | x :: l' => maxl (Rmax a x) l' end.
Definition normalise (rtol : R) (gs : list vec) : result (list vec) :=
  match map norm2 gs with
  | [] => Err ValueError
  | x :: l =>
      let mx := maxl x l in
      Ok (map (fun g => if Rle_dec (norm2 g) (mx * rtol) then vscale 0 g
                        else vscale (/ norm2 g) g) gs)
  end.
(** 192-228: np.cross of 2-vectors is a number, of 3-vectors a vector whose norm is taken. *)
Definition cross_of (a b : vec) : R :=
  match a, b with
  | [x1; y1], [x2; y2] => x1 * y2 - y1 * x2
  | [x1; y1; z1], [x2; y2; z2] =>
      norm2 [y1 * z2 - z1 * y2; z1 * x2 - x1 * z2; x1 * y2 - y1 * x2]
  | _, _ => 0
  end.
Fixpoint cross_list (a b : list vec) : vec :=
  match a, b with
  | x :: a', y :: b' => cross_of x y :: cross_list a' b'
  | _, _ => []
  end.
Definition cross_gradient (normalized : bool) (rtol : R) (g1 g2 : list vec) : result vec :=
  if normalized then
    do h1 <- normalise rtol g1;
    do h2 <- normalise rtol g2;
    Ok (cross_list h1 h2)
  else Ok (cross_list g1 g2).

(** ** Joint total variation *)

(** jtv.py 133-151: product of all weights, squared, times the averaging.  With no
    weights at all [np.prod] gives the number 1 and [sp.diags] fails; the
    constructor always sets the volume (128). *)
Definition jtv_W (weights : list vec) (ave : mat) : result mat :=
  match weights with
  | [] => Err GenericException
  | w :: ws => let p := fold_left vmul ws w in Ok (scale_rows (vmul p p) ave)
  end.

(** [g2 += g_m**2] over the models (jtv.py 190-193). *)
Definition sumsq (nf : nat) (gs : list vec) : vec :=
  fold_left (fun acc g => vadd acc (vmul g g)) gs (vzero nf).
(** 171-196: [np.sqrt(W @ g2 + eps * vol**2)]. *)
Definition jtv_sq (nf : nat) (W : mat) (eps : R) (vol : vec) (gs : list vec) : vec :=
  map sqrt (vadd (mv W (sumsq nf gs)) (vscale eps (vmul vol vol))).
Definition jtv_value (n k nf : nat) (G W : mat) (eps : R) (vol m : vec) : R :=
  vsum (jtv_sq nf W eps vol (map (mv G) (chunks n k m))).
(** 198-241. *)
Definition jtv_deriv (n k nf : nat) (G W : mat) (eps : R) (vol m : vec) : vec :=
  let gs := map (mv G) (chunks n k m) in
  let sq := jtv_sq nf W eps vol gs in
  let mid := mtv nf W (map (fun s => 1 / s) sq) in
  concat (map (fun g => mtv n G (vmul mid g)) gs).
(** 287-311. *)
Fixpoint zip2 {A B C} (f : A -> B -> C) (a : list A) (b : list B) : list C :=
  match a, b with
  | x :: a', y :: b' => f x y :: zip2 f a' b'
  | _, _ => []
  end.
Definition jtv_deriv2v (n k nf : nat) (G W : mat) (eps : R) (vol m v : vec) : vec :=
  let gs := map (mv G) (chunks n k m) in
  let sq := jtv_sq nf W eps vol gs in
  let mid := mtv nf W (map (fun s => 1 / s) sq) in
  let gvs := map (mv G) (chunks n k v) in
  let tmp := fold_left vadd
      (zip2 (fun gv g => mtv nf W (vdiv (mv W (vmul g gv)) (map (fun s => s ^ 3) sq))) gvs gs)
      (vzero nf) in
  concat (zip2 (fun gv g => mtv n G (vsub (vmul mid gv) (vmul g tmp))) gvs gs).
(** 312-322: the matrix [Diag - Row.T @ Row], [Row] the horizontal stack of the
    pieces, through its action.  [sq**-1.5] is [Rpower sq (-1.5)]. *)
Definition jtv_piece (n nf : nat) (G W : mat) (sq g : vec) : mx :=
  Mmul (Mmul (Mmul (Mdiag (map (fun s => Rpower s (-1.5)) sq)) (Mx nf W)) (Mdiag g)) (Mx n G).
Definition jtv_deriv2m (n k nf : nat) (G W : mat) (eps : R) (vol m : vec) : vec -> vec :=
  let gs := map (mv G) (chunks n k m) in
  let sq := jtv_sq nf W eps vol gs in
  let mid := mtv nf W (map (fun s => 1 / s) sq) in
  let pieces := map (jtv_piece n nf G W sq) gs in
  let diag_block := Mmul (Mmul (MT (Mx n G)) (Mdiag mid)) (Mx n G) in
  fun v =>
    let vs := chunks n k v in
    let row := fold_left vadd (zip2 (act false) pieces vs) (vzero (length W)) in
    concat (zip2 (fun P x => vsub (act false diag_block x) (act true P row)) pieces vs).

(** ** Smoothness of the full gradient *)

(** _gradient.py 180-210, for a mapping [F] with transposed and plain derivative
    products [Jt m], [J m], gradient matrix [G], inner product [Mf] and optional
    reference model. *)
Definition fg_residual (F : vec -> vec) (G : mat) (mref : option vec) (m : vec) : vec :=
  mv G (match mref with Some r => vsub (F m) (F r) | None => F m end).
Definition fg_value (F : vec -> vec) (G Mf : mat) (mref : option vec) (m : vec) : R :=
  let r := fg_residual F G mref m in
  dot r (mv Mf r).
Definition fg_deriv (F : vec -> vec) (Jt : vec -> vec -> vec) (nc : nat) (G Mf : mat)
    (mref : option vec) (m : vec) : vec :=
  vscale 2 (Jt m (mtv nc G (mv Mf (fg_residual F G mref m)))).
Definition fg_deriv2 (J Jt : vec -> vec -> vec) (nc : nat) (G Mf : mat) (m v : vec) : vec :=
  vscale 2 (Jt m (mtv nc G (mv Mf (mv G (J m v))))).

(** _gradient.py 267-275 and 286-290: weights by length, and the congruence by the
    square roots of the face weights; [inner] is mesh.get_face_inner_product
    of the weighted anisotropy. *)
Fixpoint split_weights (nc nf : nat) (ws : list vec) (cw fw : vec) : result (vec * vec) :=
  match ws with
  | [] => Ok (cw, fw)
  | w :: ws' =>
      if Nat.eqb (length w) nc then split_weights nc nf ws' (vmul cw w) fw
      else if Nat.eqb (length w) nf then split_weights nc nf ws' cw (vmul fw w)
      else Err ValueError
  end.
Definition fg_W (inner : vec -> mat) (nc nf : nat) (ws : list vec) : result mx :=
  do cf <- split_weights nc nf ws (vconst nc 1) (vconst nf 1);
  let Wf := Mdiag (map sqrt (snd cf)) in
  Ok (Mmul Wf (Mmul (Mx nf (inner (fst cf))) Wf)).

(** [temp[active_cells] = rows] on an array of zeros (112-114, 139-141). *)
Fixpoint fill_rows {A} (zero : A) (act : list bool) (rows : list A) : list A :=
  match act with
  | [] => []
  | b :: act' =>
      if b then match rows with
                | x :: rows' => x :: fill_rows zero act' rows'
                | [] => zero :: fill_rows zero act' []
                end
      else zero :: fill_rows zero act' rows
  end.
(** 97-122: the weights [alphas], one row per cell. *)
Definition expand_rows {A} (zero : A) (active : option (list bool)) (ncells : nat) (rows : list A)
  : result (list A) :=
  if Nat.eqb (length rows) ncells then Ok rows
  else match active with
       | Some act =>
           if Nat.eqb (length rows) (length (filter (fun b => b) act)) then
             Ok (fill_rows zero act rows)
           else Err IndexError
       | None => Err IndexError
       end.
Definition fg_alphas (dim ncells : nat) (active : option (list bool)) (alphas : list vec) : result (list vec) :=
  do a <- expand_rows (vzero dim) active ncells alphas;
  if existsb (fun row => existsb (fun x => if Rlt_dec x 0 then true else false) row) a
  then Err ValueError else Ok a.

(** [M @ M.T] entry by entry, and [np.allclose(eye, M @ M.T)] with its default
    tolerances (148-152). *)
Definition gram (M : mat) : mat := map (fun r => map (dot r) M) M.
Definition close (a b : R) : bool := if Rle_dec (Rabs (a - b)) (1e-8 + 1e-5 * Rabs b) then true else false.
Fixpoint close_row (i j : nat) (r : vec) : bool :=
  match r with
  | [] => true
  | x :: r' => close (if Nat.eqb i j then 1 else 0) x && close_row i (S j) r'
  end.
Fixpoint close_eye (i : nat) (M : mat) : bool :=
  match M with [] => true | r :: M' => close_row i 0 r && close_eye (S i) M' end.
Definition orthonormal_check (M : mat) : bool := close_eye 0 (gram M).
(** 124-154: directions (one matrix per cell, columns are directions) and the stack
    [dir @ diag(alphas) @ dir.T]; a single matrix is tiled by the caller. *)
Definition rotate (D : mat) (alpha : vec) : mat :=
  map (fun ri => map (fun rj => dot (vmul ri alpha) rj) D) D.
Definition fg_dirs (dim ncells : nat) (active : option (list bool)) (ortho_check : bool)
    (alphas : list vec) (dirs : list mat) : result (list mat) :=
  do ds <- expand_rows (repeat (vzero dim) dim) active ncells dirs;
  if ortho_check && negb (forallb orthonormal_check ds) then Err ValueError
  else Ok (zip2 rotate ds alphas).
(** 155-176: the components handed to discretize. *)
Definition entry2 (M : mat) (i j : nat) : R := nth j (nth i M []) 0.
Definition components (dim : nat) (M : mat) : vec :=
  if Nat.eqb dim 2 then [entry2 M 0 0; entry2 M 1 1; entry2 M 0 1]
  else [entry2 M 0 0; entry2 M 1 1; entry2 M 2 2; entry2 M 0 1; entry2 M 0 2; entry2 M 1 2].
