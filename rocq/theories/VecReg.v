(** Regularizations of vector models: simpeg/regularization/vector.py, with the methods
    inherited from base.py (380-464 [__call__], [deriv], [deriv2]) and sparse.py.
    A vector model holds the components one after the other: [reshape((n, k), order="F")]
    gives its [k] columns.  The stored W (345, 663, 963) is C41's and left out: W is computed
    when asked for.  nan (square root of a negative product) is [Err GenericException]. *)
From Verif Require Export Py Vec Reg.
Local Open Scope R_scope.

(** [reshape((n, k), order="F")] and [flatten(order="F")] (which is [concat]). *)
Definition chunk (n k : nat) (v : vec) : mat := map (fun c => firstn n (skipn (c * n) v)) (seq 0 k).
Definition reshape (n k : nat) (v : vec) : result mat := if (length v =? n * k)%nat then Ok (chunk n k v) else Err ValueError.
Definition reshape_free (k : nat) (v : vec) : result mat :=
  if (k =? 0)%nat then Err ValueError else reshape (length v / k) k v.
(** [np.linalg.norm(.., axis=1)] *)
Definition row_norms (n : nat) (cols : mat) : vec :=
  map (fun i => sqrt (vsum (map (fun c => nth i c 0 * nth i c 0) cols))) (seq 0 n).

(** Weights: arrays of shape (n,), or (n, k) given by their columns. *)
Inductive warr := W1 (v : vec) | W2 (n : nat) (cols : mat).
Definition shape_in (w : warr) (ones : list nat) (twos : list (nat * nat)) : bool :=
  match w with
  | W1 v => existsb (Nat.eqb (length v)) ones
  | W2 n cols => existsb (fun p => ((n =? fst p) && (length cols =? snd p))%nat) twos
  end.
(** [set_weights] (base.py 299-304) with the shapes of 25-36 and 867-887. *)
Definition cell_shapes (nC k : nat) (w : warr) : bool := shape_in w [nC; (k * nC)%nat] [(nC, k)].
Definition face_shapes (nC nF k : nat) (w : warr) : bool := shape_in w [nF; (k * nF)%nat; nC; (k * nC)%nat] [(nF, k); (nC, k)].
Definition root (p : vec) : result vec :=
  if existsb (fun x => if Rlt_dec x 0 then true else false) p then Err GenericException else Ok (map sqrt p).

(** [AmplitudeSmallness.W] (660-680): arrays of shape (nC, k) meet neither branch. *)
Definition small_factor (nC k : nat) (w : warr) (acc : vec) : vec :=
  match w with
  | W1 v => if (length v =? nC)%nat then vmul acc v
            else if (length v =? k * nC)%nat then vmul acc (row_norms nC (chunk nC k v)) else acc
  | W2 _ _ => acc
  end.
Definition small_W (nC k : nat) (ws : list warr) : result vec :=
  root (fold_left (fun acc w => small_factor nC k w acc) ws (vconst nC 1)).
(** [CrossReferenceRegularization.W] (332-365). *)
Definition cross_factor (nC dim : nat) (w : warr) (acc : vec) : vec :=
  match w with
  | W1 v => if (length v =? nC)%nat then vmul acc v
            else if (length v =? dim * nC)%nat then vmul acc (row_norms nC (chunk nC dim v)) else acc
  | W2 n cols => if (n * length cols =? dim * nC)%nat then vmul acc (row_norms nC (chunk nC dim (concat cols))) else acc
  end.
Definition cross_W (nC dim : nat) (ws : list warr) : result vec :=
  do r <- root (fold_left (fun acc w => cross_factor nC dim w acc) ws (vconst nC 1));
  Ok (if (dim =? 2)%nat then r else r ++ r ++ r).
(** [AmplitudeSmoothnessFirstOrder.W] (960-984).  The product starts with the number 1.0
    ([None]).  A two dimensional factor ([W2] on the cells) does not fit the product of the
    others, nor the diagonal of a matrix. *)
Definition face_factor (nC nF k : nat) (ave : mat) (w : warr) : result vec :=
  match w with
  | W1 v =>
    if (length v =? nC)%nat then Ok (mv ave v)
    else if (length v =? nF)%nat then Ok v
    else do cols <- reshape_free k v;
         let u := row_norms (length v / k) cols in
         Ok (if (length u =? nC)%nat then mv ave u else u)
  | W2 n cols =>
    if (n =? nC)%nat then Err ValueError
    else do cs <- reshape_free k (concat cols);
         let u := row_norms (length (concat cols) / k) cs in
         Ok (if (length u =? nC)%nat then mv ave u else u)
  end.
Definition times_factor (acc : option vec) (f : vec) : result (option vec) :=
  match acc with
  | None => Ok (Some f)
  | Some a => if (length a =? length f)%nat then Ok (Some (vmul a f)) else Err ValueError
  end.
Fixpoint face_product (nC nF k : nat) (ave : mat) (ws : list warr) (acc : option vec) : result (option vec) :=
  match ws with
  | [] => Ok acc
  | w :: ws' => do f <- face_factor nC nF k ave w; do a <- times_factor acc f; face_product nC nF k ave ws' a
  end.
Definition face_W (nC nF k : nat) (ave : mat) (ws : list warr) : result vec :=
  do p <- face_product nC nF k ave ws None;
  match p with Some a => root a | None => Err TypeError end.

(** Reference model: the size asked for (base.py 228-237, 356-371): the columns of the
    mapping, or the number of cells when the mapping does not know. *)
Definition set_reference (nC : nat) (map_cols : option nat) (r : vec) : result vec :=
  if (length r =? match map_cols with Some n => n | None => nC end)%nat then Ok r else Err ValueError.
(** [n_comp] (18-23) *)
Definition n_comp (dim nC : nat) (map_rows : option nat) : nat := match map_rows with Some r => (r / nC)%nat | None => dim end.
(** [_delta_m] (base.py 373-378; 1008-1011) *)
Definition delta (ref : option vec) (used : bool) (m : vec) : result vec :=
  match ref with
  | Some r => if used then (if (length m =? length r)%nat then Ok (vsub m r) else Err ValueError) else Ok m
  | None => Ok m
  end.
(** [r = W * f; r.dot(r)] (base.py 394-395) *)
Definition wnorm2 (w f : vec) : result R := if (length w =? length f)%nat then Ok (let r := vmul w f in dot r r) else Err ValueError.

(** [AmplitudeSmallness.f_m] and [amplitude] (376-397, 626-658). *)
Definition amp_f_m (nC k : nat) (M : rmap) (ref : option vec) (m : vec) : result vec :=
  do d <- delta ref true m; do cols <- reshape nC k (phi M d); Ok (row_norms nC cols).
Definition amp_call nC k M ref ws m : result R := do w <- small_W nC k ws; do f <- amp_f_m nC k M ref m; wnorm2 w f.
(** [AmplitudeSmoothnessFirstOrder.f_m] (889-931). *)
Definition smooth_f_m (nC k : nat) (G : mat) (M : rmap) (ref : option vec) (used : bool) (m : vec) : result vec :=
  do d <- delta ref used m; do cols <- reshape nC k (phi M d); Ok (row_norms (length G) (map (mv G) cols)).
Definition smooth_call nC k G ave M ref used ws m : result R :=
  do w <- face_W nC (length G) k ave ws; do f <- smooth_f_m nC k G M ref used m; wnorm2 w f.

(** [f_m_deriv] (682-755 of base.py; 933-958) as products with it and its transpose;
    [block_diag([G] * k)]. *)
Definition block (n k : nat) (G : mat) (v : vec) : vec := concat (map (mv G) (chunk n k v)).
Definition blockT (n k : nat) (G : mat) (w : vec) : vec := concat (map (mtv n G) (chunk (length G) k w)).
Inductive akind := ASmall | ASmooth (G : mat).
Definition fd (nC k : nat) (a : akind) (J : mat) (v : vec) : vec :=
  match a with ASmall => mv J v | ASmooth G => block nC k G (mv J v) end.
Definition fdT (nC k np : nat) (a : akind) (J : mat) (w : vec) : vec :=
  match a with ASmall => mtv np J w | ASmooth G => mtv np J (blockT nC k G w) end.
(** Where the derivative of the mapping is taken: at the model (Smallness), at the
    difference (936-958). *)
Definition fd_at (a : akind) (M : rmap) (m d : vec) : mat := match a with ASmall => dphi M m | ASmooth _ => dphi M d end.
(** [W.T @ W @ u.reshape((-1, n_comp), order="F")] flattened (425-428, 472-475). *)
Definition weighted (k : nat) (w u : vec) : result vec :=
  do cols <- reshape_free k u;
  if (length u / k =? length w)%nat then Ok (concat (map (fun c => vmul w (vmul w c)) cols)) else Err ValueError.
(** [BaseAmplitude.deriv] (399-429) and [deriv2] with a vector (431-476). *)
Definition amp_deriv (nC k : nat) (a : akind) (M : rmap) (ref : option vec) (used : bool) (W : result vec) (m : vec) : result vec :=
  do d <- delta ref used m; do w <- W;
  let J := fd_at a M m d in
  do u <- weighted k w (fd nC k a J d);
  Ok (vscale 2 (fdT nC k (length m) a J u)).
Definition amp_deriv2 (nC k : nat) (a : akind) (M : rmap) (ref : option vec) (used : bool) (W : result vec) (m v : vec) : result vec :=
  do d <- match a with ASmall => Ok m | ASmooth _ => delta ref used m end; do w <- W;
  let J := fd_at a M m d in
  do u <- weighted k w (fd nC k a J v);
  Ok (vscale 2 (fdT nC k (length m) a J u)).
(** [deriv2] without a vector (461-466): the product of the matrix it returns with [v]. *)
Definition amp_deriv2_matrix (nC k : nat) (a : akind) (M : rmap) (ref : option vec) (used : bool) (W : result vec) (m v : vec) : result vec :=
  do d <- match a with ASmall => Ok m | ASmooth _ => delta ref used m end; do w <- W;
  let J := fd_at a M m d in
  let ww := concat (repeat (vmul w w) k) in
  let u := fd nC k a J v in
  if (length ww =? length u)%nat then Ok (vscale 2 (fdT nC k (length m) a J (vmul ww u))) else Err ValueError.

(** [CrossReferenceRegularization.ref_dir] (204-231): one direction for all cells or one
    per cell (rows); stored as columns. *)
Inductive dirval := DOne (v : vec) | DAll (rows : mat).
Definition set_dir (nC dim : nat) (d : dirval) : result mat :=
  do rows <- match d with
             | DOne v => if (length v =? dim)%nat then Ok (repeat v nC) else Err ValueError
             | DAll rows => if ((length rows =? nC) && forallb (fun r => length r =? dim) rows)%nat then Ok rows else Err ValueError
             end;
  if (dim <? 2)%nat then Err IndexError else Ok (map (fun c => map (fun r => nth c r 0) rows) (seq 0 dim)).
(** The matrix X (217-231) and its transpose. *)
Definition cross_X (nC : nat) (D : mat) (u : vec) : result vec :=
  match D with
  | [r0; r1] => do c <- reshape nC 2 u; let g i := nth i c [] in Ok (vsub (vmul r1 (g 0%nat)) (vmul r0 (g 1%nat)))
  | [r0; r1; r2] => do c <- reshape nC 3 u; let g i := nth i c [] in
      Ok (vsub (vmul r2 (g 1%nat)) (vmul r1 (g 2%nat)) ++ vsub (vmul r0 (g 2%nat)) (vmul r2 (g 0%nat)) ++ vsub (vmul r1 (g 0%nat)) (vmul r0 (g 1%nat)))
  | _ => Err GenericException
  end.
Definition cross_XT (nC : nat) (D : mat) (w : vec) : result vec :=
  match D with
  | [r0; r1] => if (length w =? nC)%nat then Ok (vmul r1 w ++ vopp (vmul r0 w)) else Err ValueError
  | [r0; r1; r2] => do c <- reshape nC 3 w; let g i := nth i c [] in
      Ok (vsub (vmul r1 (g 2%nat)) (vmul r2 (g 1%nat)) ++ vsub (vmul r2 (g 0%nat)) (vmul r0 (g 2%nat)) ++ vsub (vmul r0 (g 1%nat)) (vmul r1 (g 0%nat)))
  | _ => Err GenericException
  end.
(** [f_m], [f_m_deriv] (233-330), [__call__], [deriv], [deriv2] (base.py 380-464). *)
Definition cross_call (nC dim : nat) (D : mat) (M : rmap) (ws : list warr) (m : vec) : result R :=
  do w <- cross_W nC dim ws; do f <- cross_X nC D (phi M m); wnorm2 w f.
Definition cross_deriv (nC dim : nat) (D : mat) (M : rmap) (ws : list warr) (m : vec) : result vec :=
  do w <- cross_W nC dim ws; do f <- cross_X nC D (phi M m);
  if (length w =? length f)%nat then do g <- cross_XT nC D (vmul w (vmul w f)); Ok (vscale 2 (mtv (length m) (dphi M m) g)) else Err ValueError.
Definition cross_deriv2 (nC dim : nat) (D : mat) (M : rmap) (ws : list warr) (m v : vec) : result vec :=
  do w <- cross_W nC dim ws; do f <- cross_X nC D (mv (dphi M m) v);
  if (length w =? length f)%nat then do g <- cross_XT nC D (vmul w (vmul w f)); Ok (vscale 2 (mtv (length m) (dphi M m) g)) else Err ValueError.
