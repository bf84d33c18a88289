(** Specification vocabulary for the DC resistivity simulation. *)
From Verif Require Import Py Vec VecDeriv Joint Dc.
From Coq Require Import Reals.
Local Open Scope R_scope.

(** An exact solver for the matrix [A]: the only solution of the system. *)
Definition solves (n : nat) (solve : mx -> vec -> vec) (A : mx) : Prop :=
  forall b, length b = n -> act false A (solve A b) = b /\ forall y, length y = n -> act false A y = b -> y = solve A b.
(** [Q] holds for the models in a neighbourhood of [m]. *)
Definition near (p : nat) (m : vec) (Q : vec -> Prop) : Prop :=
  exists e, 0 < e /\ forall m', length m' = p -> (forall i, (i < p)%nat -> Rabs (nth i m' 0 - nth i m 0) < e) -> Q m'.
Definition symmetric (n : nat) (A : mx) : Prop := forall a b, length a = n -> length b = n -> dot a (act false A b) = dot (act false A a) b.

(** The pieces have the sizes they should. *)
Definition sizes (s : dc) : Prop :=
  is_mat (d_nf s) (d_n s) (d_G s) /\ is_mat (d_nf s) (d_nc s) (d_M s) /\
  (d_form s = Cell -> is_mat (d_n s) (d_nf s) (d_D s)) /\ (d_form s = Nodal -> is_mat (d_n s) (d_nc s) (d_bc s)) /\
  (forall m, length m = d_p s -> length (d_prop s m) = d_nc s /\ is_mat (d_nc s) (d_p s) (d_dprop s m)) /\
  (forall k, length (d_interp s k) = d_n s) /\ (forall A b, length b = d_n s -> length (d_solve s A b) = d_n s).
(** The property is differentiable at [m] with the derivative of its mapping, resistivities
    can be inverted, and the solver is exact around [m]. *)
Definition regular (s : dc) (m : vec) : Prop :=
  length m = d_p s /\ has_jacobian (d_p s) (d_nc s) (d_prop s) m (mv (d_dprop s m)) /\
  (d_form s = Cell -> forall i, (i < d_nf s)%nat -> nth i (mv (d_M s) (d_prop s m)) 0 <> 0) /\
  near (d_p s) m (fun m' => solves (d_n s) (d_solve s) (getA s m')).
(** Receivers have as many N as M electrodes, and geometric factors if they need them. *)
Definition rx_ok (src : source) (r : receiver) : Prop :=
  match r_n r with Some ns => length ns = length (r_m r) | None => True end /\
  (r_app r = true -> exists g, dict_get Nat.eqb (s_id src) (r_gf r) = Some g /\ length g = length (r_m r) /\ forall x, In x g -> x <> 0).
Definition survey_ok (srcs : list source) : Prop :=
  NoDup (map s_id srcs) /\ Forall (fun src => Forall (rx_ok src) (s_rx src)) srcs.
(** A pole-pole survey whose positions exist. *)
Definition count (l : list bool) : nat := length (filter (fun b => b) l).
Definition mini_ok (mi : mini) : Prop :=
  survey_ok (mi_srcs mi) /\ length (mi_rx mi) = length (mi_am mi) /\ length (mi_tx mi) = length (mi_am mi) /\
  length (mi_an mi) = count (mi_rx mi) /\ length (mi_bm mi) = count (mi_tx mi) /\ length (mi_bn mi) = count (both mi) /\
  Forall (fun i => (i < survey_nD (mi_srcs mi))%nat) (mi_am mi ++ mi_an mi ++ mi_bm mi ++ mi_bn mi).
Definition setup_ok (s : dc) (srcs : list source) : Prop :=
  sizes s /\ match d_mini s with Some mi => mini_ok mi | None => survey_ok srcs end.
Definition data_size (s : dc) (srcs : list source) : nat := match d_mini s with Some mi => length (mi_am mi) | None => survey_nD srcs end.
Definition val {A} (d : A) (r : result A) : A := match r with Ok x => x | Err _ => d end.

(** Histories of calls on one simulation object. A call with [true] gets the fields returned by
    the last call of fields, if they are of the same model and nothing was factored since. *)
Inductive call := CFields (m : vec) | CDpred (m : vec) (g : bool) | CJvec (m v : vec) (g : bool) | CJtvec (m w : vec) (g : bool) | CGetJ (m : vec) (g : bool) | CJtJ (m : vec) (W : option vec) (g : bool).
Definition last_fields := option (vec * dfields).
Definition pick (l : last_fields) (m : vec) (g : bool) : option dfields :=
  if g then match l with Some (m', f) => if list_eq_dec Req_EM_T m' m then Some f else None | None => None end else None.
Definition kept (l : last_fields) (f : option dfields) : last_fields := match f with Some _ => l | None => None end.
Definition do_call (s : dc) (stl : state * last_fields) (c : call) : state * last_fields :=
  let '(st, l) := stl in
  match c with
  | CFields m => let '(st, r) := fields s st m in (st, match r with Ok f => Some (m, f) | Err _ => None end)
  | CDpred m g => let f := pick l m g in (fst (dpred s st m f), kept l f)
  | CJvec m v g => let f := pick l m g in (fst (Jvec s st m v f), kept l f)
  | CJtvec m w g => let f := pick l m g in (fst (Jtvec s st m w f), kept l f)
  | CGetJ m g => let f := pick l m g in (fst (getJ s st m f), kept l f)
  | CJtJ m W g => let f := pick l m g in (fst (getJtJdiag s st m W f), kept l f)
  end.
Definition history (s : dc) (srcs : list source) (h : list call) : state * last_fields := fold_left (do_call s) h (init srcs, None).

(** A sensitivity matrix that does not store itself, and one that does. *)
Definition with_store (s : dc) (b : bool) : dc :=
  mkDc (d_form s) (d_neumann s) (d_p s) (d_n s) (d_nf s) (d_D s) (d_G s) (d_nc s) (d_M s) (d_bc s) (d_prop s) (d_dprop s) (d_solve s) (d_interp s) (d_closest s) b (d_mini s).
Definition with_mini (s : dc) (mi : option mini) : dc :=
  mkDc (d_form s) (d_neumann s) (d_p s) (d_n s) (d_nf s) (d_D s) (d_G s) (d_nc s) (d_M s) (d_bc s) (d_prop s) (d_dprop s) (d_solve s) (d_interp s) (d_closest s) (d_storeJ s) mi.

(** The data of a receiver: differences of potential between its electrodes, divided by the
    geometric factors for apparent resistivities. *)
Definition reading (s : dc) (src : source) (r : receiver) (u : vec) (i : nat) : R :=
  (dot (d_interp s (nth i (r_m r) 0%nat)) u - match r_n r with Some ns => dot (d_interp s (nth i ns 0%nat)) u | None => 0 end) /
  (if r_app r then match dict_get Nat.eqb (s_id src) (r_gf r) with Some g => nth i g 0 | None => 1 end else 1).
Definition readings (s : dc) (srcs : list source) (u : source -> vec) : vec :=
  concat (map (fun src => concat (map (fun r => map (reading s src r (u src)) (seq 0 (length (r_m r)))) (s_rx src))) srcs).
(** A current at each electrode, added up. *)
Definition injected (s : dc) (src : source) : vec :=
  fold_right (fun lc q => vadd (vscale (snd lc) (match d_form s with Nodal => d_interp s (fst lc) | Cell => map (fun i => if Nat.eqb i (d_closest s (fst lc)) then 1 else 0) (seq 0 (d_n s)) end)) q)
    (vzero (d_n s)) (combine (s_locs src) (currents src)).

(** ** Small simulations for the examples *)
(** Cramer's rule *)
Definition solve2 (A : mx) (b : vec) : vec :=
  let c := act false A [1; 0] in let d := act false A [0; 1] in
  let a11 := nth 0 c 0 in let a21 := nth 1 c 0 in let a12 := nth 0 d 0 in let a22 := nth 1 d 0 in
  let x := nth 0 b 0 in let y := nth 1 b 0 in
  let det := a11 * a22 - a12 * a21 in [(a22 * x - a12 * y) / det; (a11 * y - a21 * x) / det].
Definition unit2 (k : nat) : vec := match k with O => [1; 0] | _ => [0; 1] end.
(** Two nodes joined by an edge of conductance sigma = m; Robin terms on both nodes unless
    [neumann]. *)
Definition two_nodes (neumann store : bool) (mi : option mini) : dc :=
  mkDc Nodal neumann 1 2 1 [] [[-1; 1]] 1 [[1]] [[1]; [1]] (fun m => [nth 0 m 0]) (fun _ => [[1]]) solve2 unit2 (fun k => k) store mi.
(** Two cells with a face between them and, next to the first, one on the boundary;
    conductances 1/m. [weights] are the interpolation weights of electrode 2. *)
Definition two_cells (weights : vec) (mi : option mini) : dc :=
  mkDc Cell false 1 2 2 [[-1; 1]; [0; -1]] [[-1; 0]; [1; -1]] 1 [[1]; [1]] [] (fun m => [nth 0 m 0]) (fun _ => [[1]]) solve2
    (fun k => match k with 2%nat => weights | _ => unit2 k end) (fun k => match k with O => 0%nat | 3%nat => 0%nat | _ => 1%nat end) false mi.
Definition volt (ms : list nat) (ns : option (list nat)) : receiver := mkRx ms ns false [].
Definition pole (id a : nat) (c : R) (rs : list receiver) : source := mkSrc id [a] [c] rs.
Definition dipole (id a b : nat) (c : R) (rs : list receiver) : source := mkSrc id [a; b] [c; - c] rs.
(** Unit currents, voltages, and two different electrodes in every dipole. *)
Definition unit_source (src : source) : Prop :=
  (exists a, s_locs src = [a] /\ s_cur src = [1]) \/ (exists a b, a <> b /\ s_locs src = [a; b] /\ s_cur src = [1; -1]).
Definition volt_rx (r : receiver) : Prop :=
  r_app r = false /\ match r_n r with None => True | Some ns => length ns = length (r_m r) /\ Forall (fun mn => fst mn <> snd mn) (combine (r_m r) ns) end.
Definition unit_survey (srcs : list source) : Prop :=
  NoDup (map s_id srcs) /\ Forall (fun src => unit_source src /\ Forall volt_rx (s_rx src)) srcs.
(** The simulation created with miniaturize=True, and with miniaturize=False. *)
Definition miniaturized (s : dc) (srcs : list source) : dc := with_mini s (Some (mini_pole_pole srcs)).
Definition full (s : dc) : dc := with_mini s None.
(** Surveys of the examples *)
Definition ex_srcs : list source := [dipole 0 0 1 1 [volt [0%nat] (Some [1%nat]); volt [1%nat] None]; pole 1 1 1 [volt [0%nat] None]].
Definition one_pole (k : nat) (c : R) : list source := [pole 0 k c [volt [k] None]].
Definition app_pole : list source := [pole 0 0 1 [mkRx [0%nat] None true [(0%nat, [2])]]].
Definition zero_dipole : list source := [pole 0 0 1 [volt [0%nat] (Some [0%nat])]].
Definition cell_pole : list source := [pole 0 2 1 [volt [1%nat] None]].
