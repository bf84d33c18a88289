(** DC/IP data in columns: read_dcip_xyz and write_dcip_xyz of
    simpeg/utils/io_utils/io_utils_electromagnetics.py (12-190, 981-1054).  A file is its
    header line and its rows of numbers; [pr] is what "%.8e" leaves of a number. *)
From Verif Require Export Py Vec Abmn.
From Coq Require Export String.
Local Open Scope R_scope.

Record xfile := { x_heads : list string; x_rows : list vec }.
(** A data object: the survey, the data and their standard deviations (data.py 55-90, 204-298). *)
Record ddata := { dd_survey : survey; dd_obs : vec; dd_std : vec }.

(** [list.index] *)
Fixpoint index_of (s : string) (l : list string) : result nat :=
  match l with [] => Err ValueError | x :: l' => if String.eqb x s then Ok 0%nat else do k <- index_of s l'; Ok (S k) end.
Definition cell (i : nat) (r : vec) : result R := match nth_error r i with Some x => Ok x | None => Err IndexError end.
Definition select (cols : list nat) (r : vec) : result vec := mapM (fun i => cell i r) cols.
(** [data_array[out, i]] *)
Definition column_of (t : list vec) (i : nat) (out : list nat) : result vec :=
  mapM (fun j => match nth_error t j with Some r => cell i r | None => Err IndexError end) out.
Definition opt_list {A} (o : option A) : list A := match o with Some x => [x] | None => [] end.

(** The columns of the electrodes (119-143) *)
Definition location_columns (k : nat) : list nat * list nat * list nat * list nat :=
  if (k =? 12)%nat then ([0;1;2], [3;4;5], [6;7;8], [9;10;11])%nat
  else if (k =? 8)%nat then ([0;1], [2;3], [4;5], [6;7])%nat
  else ([1], [2], [3], [4])%nat.
Definition place (surface : bool) (cols : list nat) (r : vec) : result vec := do v <- select cols r; Ok (if surface then v ++ [9999] else v).
Definition row_quad (surface : bool) (cs : list nat * list nat * list nat * list nat) (r : vec) : result quad :=
  let '(ca, cb, cm, cn) := cs in
  do a <- place surface ca r; do b <- place surface cb r; do m <- place surface cm r; do n <- place surface cn r; Ok {| qa := a; qb := b; qm := m; qn := n |}.
(** [read_dcip_xyz].  One row gives an array of one dimension and [shape[1]] fails (115);
    so does no row. The result: the survey, the data, the deviations and the dictionary
    (what is not asked for is [None]). *)
Definition read_xyz (f : xfile) (ha hb hm hn : list string) (hd hu : option string) (hx : option (list string)) (surface : bool)
  : result (survey * option vec * option vec * option (list (string * vec))) :=
  let heads := ha ++ hb ++ hm ++ hn ++ opt_list hd ++ opt_list hu ++ match hx with Some l => l | None => [] end in
  do cols <- mapM (fun h => index_of h (x_heads f)) heads;
  do t <- mapM (select cols) (x_rows f);
  if (List.length t <=? 1)%nat then Err IndexError else
  let k := (List.length heads - (List.length (opt_list hd) + List.length (opt_list hu) + List.length (match hx with Some l => l | None => [] end)))%nat in
  do rows <- mapM (row_quad surface (location_columns k)) t;
  do (s, out) <- from_rows rows;
  do d <- match hd with Some h => do i <- index_of h (x_heads f); do c <- column_of t i out; Ok (Some c) | None => Ok None end;
  do u <- match hu with Some h => do i <- index_of h (x_heads f); do c <- column_of t i out; Ok (Some c) | None => Ok None end;
  do x <- match hx with
          | Some l => do cs <- mapM (fun h => do i <- index_of h (x_heads f); do c <- column_of t i out; Ok (h, c)) l; Ok (Some cs)
          | None => Ok None end;
  Ok (s, d, u, x).

(** [write_dcip_xyz] *)
Definition heads2 : list string := ["XA"; "ZA"; "XB"; "ZB"; "XM"; "ZM"; "XN"; "ZN"]%string.
Definition heads3 : list string := ["XA"; "YA"; "ZA"; "XB"; "YB"; "ZB"; "XM"; "YM"; "ZM"; "XN"; "YN"; "ZN"]%string.
Definition quad_row (q : quad) : vec := qa q ++ qb q ++ qm q ++ qn q.
Fixpoint zip_rows (t : list vec) (c : vec) : list vec := match t, c with r :: t', x :: c' => (r ++ [x]) :: zip_rows t' c' | _, _ => [] end.
Definition add_column (t : list vec) (c : vec) : result (list vec) := if (List.length t =? List.length c)%nat then Ok (zip_rows t c) else Err ValueError.
Fixpoint add_all (t : list vec) (cs : list vec) : result (list vec) := match cs with [] => Ok t | c :: cs' => do t' <- add_column t c; add_all t' cs' end.
Definition write_xyz (pr : R -> R) (o : ddata) (hd hu : option string) (extra : list (string * vec)) : result xfile :=
  let t := map quad_row (locations (dd_survey o)) in
  let heads := if (List.length (List.hd [] t) =? 8)%nat then heads2 else heads3 in
  do t <- match hd with Some _ => add_column t (dd_obs o) | None => Ok t end;
  do t <- match hu with Some _ => add_column t (dd_std o) | None => Ok t end;
  do t <- add_all t (map snd extra);
  Ok {| x_heads := heads ++ opt_list hd ++ opt_list hu ++ map fst extra; x_rows := map (map pr) t |}.
