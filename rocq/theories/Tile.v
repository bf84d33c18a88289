(** Model of simpeg/maps/_base.py [TileMap] (1180-1341): volume averages of a model on
    the active cells of a global mesh, on the cells of a local mesh.
    The meshes come from discretize: a cell of the global mesh is its volume, the index
    of the local cell that holds its centre (get_containing_cells) and its entry of
    global_active; the local mesh is the list of its volumes. global_active is the
    validated mask (validate_active_indices, see Validators.v). *)
From Verif Require Import Vec.
Local Open Scope R_scope.

Record gcell := mkG { gv : R; gl : nat; ga : bool }.

(** [x[mask]] and [speye(n)[:, mask]] for a mask of the length of [x] *)
Fixpoint compress {A} (m : list bool) (x : list A) : list A :=
  match m, x with
  | b :: m', a :: x' => if b then a :: compress m' x' else compress m' x'
  | _, _ => []
  end.

(** 1300-1306: row [i] of csr_matrix((cell_volumes, (in_local, arange(nC)))) *)
Definition vol_row (cs : list gcell) (i : nat) : vec :=
  map (fun c => if Nat.eqb (gl c) i then gv c else 0) cs.
(** 1299-1308: only the columns of the active cells *)
Definition vol_rows (cs : list gcell) (nl : nat) : mat :=
  map (fun i => compress (map ga cs) (vol_row cs i)) (seq 0 nl).
(** 1310: [np.sum(P, axis=1) > 0] *)
Definition local_active (cs : list gcell) (nl : nat) : list bool :=
  map (fun r => if Rlt_dec 0 (vsum r) then true else false) (vol_rows cs nl).
(** [sdiag(d) * M] *)
Fixpoint scale_rows (d : vec) (M : mat) : mat :=
  match d, M with
  | x :: d', r :: M' => vscale x r :: scale_rows d' M'
  | _, _ => []
  end.
(** 1312 and 1316: one block *)
Definition tile_block (cs : list gcell) (lv : vec) : mat :=
  let la := local_active cs (length lv) in
  scale_rows (map (fun v => 1 / v) (compress la lv)) (compress la (vol_rows cs (length lv))).
(** sp.block_diag of [c] copies of a matrix with [n] columns *)
Definition block_diag (n c : nat) (B : mat) : mat :=
  concat (map (fun k => map (fun r => vzero (k * n) ++ r ++ vzero ((c - 1 - k) * n)) B) (seq 0 c)).
(** Number of active cells *)
Definition n_active (cs : list gcell) : nat := length (compress (map ga cs) cs).

(** 1201-1229 and 1293-1321: the constructor checks tol and components and builds P; an
    index outside the local mesh is refused by csr_matrix. [tol] is not used again. *)
Definition tile_map (cs : list gcell) (lv : vec) (tol : R) (comps : nat) : result mat :=
  if Rlt_dec 0 tol then
    match comps with
    | O => Err ValueError
    | S _ => if existsb (fun c => Nat.leb (length lv) (gl c)) cs then Err ValueError
             else Ok (block_diag (n_active cs) comps (tile_block cs lv))
    end
  else Err ValueError.
(** 1323-1324 _transform and 1333-1341 deriv with a vector: [P * m], which needs as many
    entries as P has columns. The checks of IdentityMap.__mul__ are in MapsM.v. *)
Definition tile_apply (cols : nat) (P : mat) (m : vec) : result vec :=
  if Nat.eqb (length m) cols then Ok (mv P m) else Err ValueError.
