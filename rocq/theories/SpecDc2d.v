(** Specification vocabulary for 2.5D DC resistivity. *)
From Coq Require Import Reals.
From Verif Require Import Py Vec VecDeriv Joint Dc SpecDc Dc2d.
Local Open Scope R_scope.

(** The discrete equation of one wavenumber: -div sigma grad + k^2 sigma with its boundary terms. *)
Definition system2 (s : dc2) (bc : bct) (i : nat) (m u : vec) : vec :=
  let k2 := vscale (nth i (e_ks s) 0 ^ 2) (vmul (mv (e_Mk s) (e_sig s m)) u) in
  match e_form s with
  | Nodal =>
      let inner := mtv (e_n s) (e_G s) (vmul (mv (e_M s) (e_sig s m)) (mv (e_G s) u)) in
      match bc with Neumann => vadd inner k2 | _ => vadd (vadd inner k2) (vmul (mv (e_bcm s bc i) (e_sig s m)) u) end
  | Cell =>
      let g := match bc with Dirichlet => mv (e_G s) u | _ => vsub (mv (e_G s) u) (mv (e_bcm s bc i) u) end in
      vadd (mv (e_D s) (vmul (map Rinv (mv (e_M s) (e_rho s m))) g)) k2
  end.
(** Boundary conditions a formulation accepts *)
Definition bc_ok (s : dc2) (bc : bct) : Prop := match e_form s, bc with Nodal, Dirichlet => False | _, _ => True end.
(** ... except the cell-centred Neumann condition, whose matrix is changed *)
Definition plain_bc (s : dc2) (bc : bct) : Prop := match e_form s, bc with Cell, Neumann => False | _, _ => True end.

Definition rx_size (s : dc2) (r : rx2) : Prop :=
  is_mat (length (x_P r)) (e_n s) (x_P r) /\ match x_g r with Some g => length g = length (x_P r) /\ Forall (fun x => x <> 0) g | None => True end.
Definition sizes2 (s : dc2) : Prop :=
  is_mat (e_nf s) (e_n s) (e_G s) /\ is_mat (e_nf s) (e_nc s) (e_M s) /\ is_mat (e_n s) (e_nc s) (e_Mk s) /\
  (e_form s = Cell -> is_mat (e_n s) (e_nf s) (e_D s)) /\
  (forall bc i, match e_form s with Nodal => is_mat (e_n s) (e_nc s) (e_bcm s bc i) | Cell => is_mat (e_nf s) (e_n s) (e_bcm s bc i) end) /\
  (forall m, length m = e_p s -> length (e_sig s m) = e_nc s /\ is_mat (e_nc s) (e_p s) (e_dsig s m) /\ length (e_rho s m) = e_nc s /\ is_mat (e_nc s) (e_p s) (e_drho s m)) /\
  length (e_ws s) = length (e_ks s) /\ (forall A b, length b = e_n s -> length (e_solve s A b) = e_n s) /\
  Forall (fun c => length (c_q c) = e_n s /\ Forall (rx_size s) (c_rx c)) (e_srcs s).

(** The matrix of a wavenumber as a new simulation assembles it *)
Definition matrix2 (s : dc2) (bc : bct) (i : nat) (m : vec) : mx := A_mat s bc (if bc_needed s bc then e_bcm s bc i else []) i m.
Definition solves2 (s : dc2) (bc : bct) (m : vec) : Prop := forall i, (i < length (e_ks s))%nat -> solves (e_n s) (e_solve s) (matrix2 s bc i m).
Definition symmetric2 (s : dc2) (bc : bct) (m : vec) : Prop := forall i, (i < length (e_ks s))%nat -> symmetric (e_n s) (matrix2 s bc i m).
Definition regular2 (s : dc2) (bc : bct) (m : vec) : Prop :=
  length m = e_p s /\ has_jacobian (e_p s) (e_nc s) (e_sig s) m (mv (e_dsig s m)) /\
  (e_form s = Cell -> has_jacobian (e_p s) (e_nc s) (e_rho s) m (mv (e_drho s m)) /\ forall i, (i < e_nf s)%nat -> nth i (mv (e_M s) (e_rho s m)) 0 <> 0) /\
  near (e_p s) m (fun m' => solves2 s bc m').

(** One datum: the readings of the potentials of all wavenumbers, weighted *)
Definition reading2 (s : dc2) (r : rx2) (i : nat) (u : nat -> vec) : R :=
  vsum (map (fun k => nth k (e_ws s) 0 * (dot (nth i (x_P r) []) (u k) / match x_g r with Some g => nth i g 0 | None => 1 end)) (seq 0 (length (e_ks s)))).
Definition readings2 (s : dc2) (u : nat -> src2 -> vec) : vec :=
  concat (map (fun c => concat (map (fun r => map (fun i => reading2 s r i (fun k => u k c)) (seq 0 (length (x_P r)))) (c_rx c))) (e_srcs s)).

(** Histories of calls on one object. A call with [true] gets the fields of the last call of fields,
    if they are of the same model and nothing was factored since. *)
Inductive call2 := DFields (m : vec) | DDpred (m : vec) (g : bool) | DJvec (m v : vec) (g : bool) | DJtvec (m w : vec) (g : bool) | DGetJ (m : vec) (g : bool).
Definition last2 := option (vec * fields2T).
Definition pick2 (l : last2) (m : vec) (g : bool) : option fields2T :=
  if g then match l with Some (m', f) => if list_eq_dec Req_EM_T m' m then Some f else None | None => None end else None.
Definition kept2 (l : last2) (f : option fields2T) : last2 := match f with Some _ => l | None => None end.
Definition do_call2 (s : dc2) (stl : state2 * last2) (c : call2) : state2 * last2 :=
  let '(st, l) := stl in
  match c with
  | DFields m => let '(st, r) := fields2 s st m in (st, match r with Ok f => Some (m, f) | Err _ => None end)
  | DDpred m g => let f := pick2 l m g in (fst (dpred2 s st m f), kept2 l f)
  | DJvec m v g => let f := pick2 l m g in (fst (Jvec2 s st m v f), kept2 l f)
  | DJtvec m w g => let f := pick2 l m g in (fst (Jtvec2 s st m w f), kept2 l f)
  | DGetJ m g => let f := pick2 l m g in (fst (getJ2 s st m f), kept2 l f)
  end.
Definition history2 (s : dc2) (bc : bct) (h : list call2) : state2 * last2 := fold_left (do_call2 s) h (init2 bc, None).
(** No stored product that depends on the model: cell-centred, Neumann, or a linear mapping *)
Definition no_stale (s : dc2) (bc : bct) : Prop :=
  e_form s = Cell \/ bc = Neumann \/ forall m m', e_dsig s m = e_dsig s m'.

(** The boundary condition only scales the gradient on each face; without it the gradient is the
    transposed divergence. *)
Definition scaled_gradient (s : dc2) (bc : bct) (i : nat) : Prop :=
  exists c, length c = e_nf s /\ forall x, length x = e_n s ->
    match bc with Dirichlet => mv (e_G s) x | _ => vsub (mv (e_G s) x) (mv (e_bcm s bc i) x) end = vmul c (mtv (e_nf s) (e_D s) x).
(** The integral over the wavenumbers from 0 on: constant up to the first, trapezoids beyond. *)
Fixpoint trapezoids (ks fs : vec) : R :=
  match ks, fs with
  | k :: (k' :: _) as ks', f :: (f' :: _) as fs' => (k' - k) * (f + f') / 2 + trapezoids ks' fs'
  | _, _ => 0
  end.

(** ** Examples *)
(** One node or cell of conductivity [sig m], no edges; the boundary adds its conductivity. *)
Definition solve1 (A : mx) (b : vec) : vec := [nth 0 b 0 / nth 0 (act false A [1]) 0].
Definition one2 (form : formulation) (sig : vec -> vec) (dsig : vec -> mat) (bcm : bct -> nat -> mat) (nf : nat) (G D M : mat) (store : bool) : dc2 :=
  mkDc2 form 1 1 nf 1 D G M [[1]] bcm sig dsig (fun m => map Rinv (sig m)) (fun m => [[- nth 0 (nth 0 (dsig m) []) 0 / (nth 0 (sig m) 0) ^ 2]]) [1] [1] solve1 store false
    [mkSrc2 [1] [mkRx2 [[1]] None]].
(** sigma = m^2 on a node, Robin *)
Definition square2 : dc2 := one2 Nodal (fun m => [nth 0 m 0 ^ 2]) (fun m => [[2 * nth 0 m 0]]) (fun _ _ => [[1]]) 0 [] [] [] false.
(** sigma = m on a node *)
Definition linear2 (store : bool) : dc2 := one2 Nodal (fun m => m) (fun _ => [[1]]) (fun _ _ => [[1]]) 0 [] [] [] store.
(** sigma = m in a cell with one face; Robin changes the gradient there *)
Definition cell2 : dc2 := one2 Cell (fun m => m) (fun _ => [[1]]) (fun bc _ => match bc with Robin => [[1]] | _ => [[2]] end) 1 [[2]] [[2]] [[1]] false.
