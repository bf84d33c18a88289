(** DC/IP surveys from electrode tables: simpeg/electromagnetics/static/utils/static_utils.py
    951-1085, and the tables of a survey: resistivity/survey.py 196-237.  Exact reals. *)
From Verif Require Export Py Vec.
Local Open Scope R_scope.

(** One row of the tables: the places of A, B, M and N. *)
Record quad := { qa : vec; qb : vec; qm : vec; qn : vec }.
Record table := { t_cols : nat; t_rows : list vec }.
(** Receivers (resistivity/receivers.py 247-498) and sources (sources.py 135-270). *)
Inductive receiver := RxPole (ms : list vec) | RxDipole (ms ns : list vec).
Inductive source := SrcPole (rxs : list receiver) (a : vec) | SrcDipole (rxs : list receiver) (a b : vec).
Definition survey := list source.

(** [np.sqrt(np.sum((x - y) ** 2)) < 1e-3] (1025-1026) *)
Definition near (x y : vec) : bool := if Rlt_dec (sqrt (dot (vsub x y) (vsub x y))) (/ 1000) then true else false.
(** [np.all(np.isclose(x, y, atol=1e-3))], relative tolerance 1e-5 (1035, 1053) *)
Definition close1 (x y : R) : bool := if Rle_dec (Rabs (x - y)) (/ 1000 + / 100000 * Rabs y) then true else false.
Definition closev (x y : vec) : bool := forallb (fun p => close1 (fst p) (snd p)) (combine x y).
Definition vec_eqb (x y : vec) : bool := if list_eq_dec Req_EM_T x y then true else false.

Section Rows.
Variable rows : list quad.
Definition row (j : nat) : quad := nth j rows {| qa := []; qb := []; qm := []; qn := [] |}.
(** [np.unique(.., return_index=True)] then [np.sort]: the first row of each pair (A, B)
    (1008-1011). *)
Definition same_pair (i j : nat) : bool := vec_eqb (qa (row i)) (qa (row j)) && vec_eqb (qb (row i)) (qb (row j)).
Definition first_of_pair (i : nat) : bool := forallb (fun j => negb (same_pair j i)) (seq 0 i).
Definition firsts : list nat := filter first_of_pair (seq 0 (List.length rows)).
(** [rx_index] (1022-1028), [is_pole_rx] (1035) *)
Definition near_pair (i j : nat) : bool := near (qa (row j)) (qa (row i)) && near (qb (row j)) (qb (row i)).
Definition rx_index (i : nat) : list nat := filter (near_pair i) (seq 0 (List.length rows)).
Definition pole_rx (j : nat) : bool := closev (qm (row j)) (qn (row j)).
Definition poles (i : nat) : list nat := filter pole_rx (rx_index i).
Definition dipoles (i : nat) : list nat := filter (fun j => negb (pole_rx j)) (rx_index i).
(** The receivers and the source of a pair (1036-1056). *)
Definition rx_list (i : nat) : list receiver :=
  (match poles i with [] => [] | l => [RxPole (map (fun j => qm (row j)) l)] end) ++
  (match dipoles i with [] => [] | l => [RxDipole (map (fun j => qm (row j)) l) (map (fun j => qn (row j)) l)] end).
Definition source_of (i : nat) : source :=
  if closev (qa (row i)) (qb (row i)) then SrcPole (rx_list i) (qa (row i)) else SrcDipole (rx_list i) (qa (row i)) (qb (row i)).
Definition out_indices : list nat := flat_map (fun i => poles i ++ dipoles i) firsts.
(** [np.hstack] of nothing, and the comparison of [k] with [out_indices] when they have not
    the same size, raise (1059-1062). *)
Definition from_rows : result (survey * list nat) :=
  if (List.length rows =? 0)%nat then Err ValueError
  else if negb (List.length out_indices =? List.length rows)%nat then Err ValueError
  else Ok (map source_of firsts, out_indices).
End Rows.

(** The arguments (991-1005); the data type is taken to be one of the four. *)
Definition same_shape (x y : table) : bool := (t_cols x =? t_cols y)%nat && (List.length (t_rows x) =? List.length (t_rows y))%nat.
Fixpoint zip4 (a b m n : list vec) : list quad :=
  match a, b, m, n with x :: a, y :: b, z :: m, w :: n => {| qa := x; qb := y; qm := z; qn := w |} :: zip4 a b m n | _, _, _, _ => [] end.
Definition generate (la lb lm ln : option table) : result (survey * list nat) :=
  match la, lm with
  | None, _ => Err TypeError
  | _, None => Err TypeError
  | Some a, Some m =>
    let b := match lb with Some b => b | None => a end in
    let n := match ln with Some n => n | None => m end in
    if same_shape a b && same_shape b m && same_shape m n then from_rows (zip4 (t_rows a) (t_rows b) (t_rows m) (t_rows n)) else Err ValueError
  end.

(** [_set_abmn_locations] (196-237) *)
Fixpoint zipmn (a b : vec) (ms ns : list vec) : list quad :=
  match ms, ns with m :: ms, n :: ns => {| qa := a; qb := b; qm := m; qn := n |} :: zipmn a b ms ns | _, _ => [] end.
Definition rx_rows (a b : vec) (rx : receiver) : list quad := match rx with RxPole ms => zipmn a b ms ms | RxDipole ms ns => zipmn a b ms ns end.
Definition src_rows (s : source) : list quad := match s with SrcPole rxs a => flat_map (rx_rows a a) rxs | SrcDipole rxs a b => flat_map (rx_rows a b) rxs end.
Definition locations (s : survey) : list quad := flat_map src_rows s.
(** [nD] *)
Definition rx_nD (rx : receiver) : nat := match rx with RxPole ms => List.length ms | RxDipole ms _ => List.length ms end.
Definition src_nD (s : source) : nat := match s with SrcPole rxs _ | SrcDipole rxs _ _ => fold_right (fun r n => (rx_nD r + n)%nat) 0%nat rxs end.
Definition survey_nD (s : survey) : nat := fold_right (fun r n => (src_nD r + n)%nat) 0%nat s.
