(** Specification vocabulary for the self-potential simulation. *)
From Coq Require Import Reals.
From Verif Require Import Py Vec VecDeriv Joint SolveDeriv Dc SpecDc SelfPot.
Local Open Scope R_scope.

(** The pieces have the sizes they should, and there is one source. *)
Definition map_ok (n : nat) (q : qmap) : Prop := forall m, length m = q_p q -> length (q_val q m) = n /\ is_mat n (q_p q) (q_der q m).
Definition rx_same (r : receiver) : Prop := match r_n r with Some ns => length ns = length (r_m r) | None => True end.
Definition spot_ok (s : spot) (q : qmap) (rs : list receiver) : Prop :=
  sizes (z_dc s) /\ d_form (z_dc s) = Cell /\ length (z_vol s) = d_n (z_dc s) /\ map_ok (d_n (z_dc s)) q /\ z_srcs s = [rs] /\ Forall rx_same rs.
Definition sp_size (rs : list receiver) : nat := list_sum (map (fun r => length (r_m r)) rs).
(** The potentials at the electrodes, or their differences, in the order of the receivers. *)
Definition potential (d : dc) (u : vec) (r : receiver) (i : nat) : R :=
  dot (d_interp d (nth i (r_m r) 0%nat)) u - match r_n r with Some ns => dot (d_interp d (nth i ns 0%nat)) u | None => 0 end.
Definition potentials (d : dc) (rs : list receiver) (u : vec) : vec := concat (map (fun r => map (potential d u r) (seq 0 (length (r_m r)))) rs).
(** A mapping that calls itself linear has one derivative. *)
Definition honest (q : qmap) : Prop := q_linear q = true -> forall m m', length m = q_p q -> length m' = q_p q -> q_der q m = q_der q m'.

(** Histories on one simulation: fields that were returned may be given back, to dpred with their
    model, to the others with any. *)
Inductive zcall := ZFields (m : vec) | ZDpred (m : vec) (g : option nat) | ZJvec (m v : vec) (g : option nat) | ZJtvec (m w : vec) (g : option nat) | ZGetJ (m : vec) (g : option nat) | ZJtJ (m : vec) (W : option vec) (g : option nat).
Definition any_fields (l : list (vec * vec)) (g : option nat) : option vec := match g with Some k => option_map snd (nth_error l k) | None => None end.
Definition own_fields (l : list (vec * vec)) (m : vec) (g : option nat) : option vec :=
  match g with Some k => match nth_error l k with Some (m', u) => if list_eq_dec Req_EM_T m' m then Some u else None | None => None end | None => None end.
Definition zdo (s : spot) (x : zstate * list (vec * vec)) (c : zcall) : zstate * list (vec * vec) :=
  let '(st, l) := x in
  match c with
  | ZFields m => let '(st, r) := zfields s st m in (st, match r with Ok u => l ++ [(m, u)] | Err _ => l end)
  | ZDpred m g => (fst (zdpred s st m (own_fields l m g)), l)
  | ZJvec m v g => (fst (zJvec s st m v (any_fields l g)), l)
  | ZJtvec m w g => (fst (zJtvec s st m w (any_fields l g)), l)
  | ZGetJ m g => (fst (zgetJ s st m (any_fields l g)), l)
  | ZJtJ m W g => (fst (zJtJ s st m W (any_fields l g)), l)
  end.
Definition zhistory (s : spot) (rho : vec) (q : qmap) (h : list zcall) : zstate * list (vec * vec) := fold_left (zdo s) h (zinit rho q, []).

(** ** Meshes *)
Definition in_mesh (M : fvmesh) (o : option nat) : Prop := match o with Some c => (c < nC M)%nat | None => True end.
Definition mesh_ok (M : fvmesh) : Prop :=
  Forall (fun x => 0 < x) (v_vol M) /\ Forall (fun f => 0 < f_area f /\ (f_dir f < v_dim M)%nat /\ in_mesh M (f_lo f) /\ in_mesh M (f_hi f) /\ f_lo f <> f_hi f) (v_faces M).
(** What leaves cell [c] through the faces, when face [f] carries [w f] per area. *)
Definition outflow (M : fvmesh) (w : face -> R) (c : nat) : R :=
  vsum (map (fun f => match f_lo f with Some k => if Nat.eqb k c then f_area f * w f else 0 | None => 0 end -
                      match f_hi f with Some k => if Nat.eqb k c then f_area f * w f else 0 | None => 0 end) (v_faces M)).
(** The current through a face: the mean of the components of the cells it touches. *)
Definition through (j : nat -> nat -> R) (f : face) : R :=
  match f_lo f, f_hi f with
  | Some a, Some b => (j (f_dir f) a + j (f_dir f) b) / 2
  | Some a, None | None, Some a => j (f_dir f) a
  | None, None => 0 end.
Definition component (M : fvmesh) (j : vec) (k c : nat) : R := nth (k * nC M + c) j 0.
Definition is_active (act : list bool) (o : option nat) : bool := match o with Some c => nth c act false | None => false end.
(** The current of cells that are not active is zero; faces between an active cell and anything
    else are closed. *)
Definition rank (act : list bool) (c : nat) : nat := length (filter (fun b => b) (firstn c act)).
Definition active_component (act : list bool) (j : vec) (k c : nat) : R :=
  if nth c act false then nth (k * length (filter (fun b => b) act) + rank act c) j 0 else 0.
Definition inside (act : list bool) (j : vec) (f : face) : R :=
  if is_active act (f_lo f) && is_active act (f_hi f) then through (active_component act j) f else 0.
(** Out of the mesh through a face on its boundary. *)
Definition outward (f : face) : R := match f_lo f, f_hi f with Some _, None => 1 | None, Some _ => -1 | _, _ => 0 end.
(** The current js = - L grad h through a face: the drop of the head over the resistance of the two
    half cells; outside of the mesh the head is zero. *)
Definition at_cell (h : vec) (o : option nat) : R := match o with Some c => nth c h 0 | None => 0 end.
Definition half_resistance (M : fvmesh) (L : vec) (f : face) (o : option nat) : R := match o with Some c => (vol M c / f_area f / 2) / nth c L 0 | None => 0 end.
Definition driven (M : fvmesh) (L h : vec) (f : face) : R :=
  (at_cell h (f_lo f) - at_cell h (f_hi f)) / (half_resistance M L f (f_lo f) + half_resistance M L f (f_hi f)).
(** ** Small simulations for the examples *)
(** Two cells as in SpecDc.v; three ways to describe q with one number or two. *)
Definition sp2 (neumann store : bool) : spot :=
  mkSpot (mkDc Cell neumann 1 2 2 [[-1; 1]; [0; -1]] [[-1; 0]; [1; -1]] 1 [[1]; [1]] [] (fun m => [nth 0 m 0]) (fun _ => [[1]]) solve2
            (fun k => unit2 k) (fun k => k) false None) [1; 2] store [[volt [0%nat; 1%nat] None]].
Definition rs2 : list receiver := [volt [0%nat; 1%nat] None].
Definition q_id : qmap := mkQ 2 (fun m => m) (fun _ => [[1; 0]; [0; 1]]) true.
Definition q_twice : qmap := mkQ 2 (fun m => vscale 2 m) (fun _ => [[2; 0]; [0; 2]]) true.
Definition q_square : qmap := mkQ 1 (fun m => [nth 0 m 0 * nth 0 m 0; 0]) (fun m => [[2 * nth 0 m 0]; [0]]) false.
(** Cells of width [a] and [b] in a row. *)
Definition row2 (a b : R) : fvmesh := mkMesh 1 [a; b] [mkFace 1 0 None (Some 0%nat); mkFace 1 0 (Some 0%nat) (Some 1%nat); mkFace 1 0 (Some 1%nat) None].
Definition row3 : fvmesh := mkMesh 1 [1; 1; 1] [mkFace 1 0 None (Some 0%nat); mkFace 1 0 (Some 0%nat) (Some 1%nat); mkFace 1 0 (Some 1%nat) (Some 2%nat); mkFace 1 0 (Some 2%nat) None].
