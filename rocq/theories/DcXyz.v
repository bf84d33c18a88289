(** Column files of DC/IP data: read_dcip_xyz and write_dcip_xyz, and the "simple" format of the
    UBC 2D files (simpeg/utils/io_utils/io_utils_electromagnetics.py 12-189, 272-314, 713-727,
    981-1052).  A file is its header and its rows of numbers; printing is a rounding [P].
    Headers are words without blanks; values are numbers (no nan).  The survey comes from the
    electrode tables as in Abmn.v.  XyzIO.v (C73) has the columns and the round trip of XYZ
    files; here are the checks that decide which files are accepted, and the simple format. *)
From Verif Require Import Py Vec Abmn.
From Coq Require Import String.
Local Open Scope R_scope.
Local Open Scope list_scope.

Record cfile := { f_head : list string; f_rows : list vec }.
(** list.index *)
Fixpoint col_index (h : string) (l : list string) : result nat :=
  match l with [] => Err ValueError | x :: l => if String.eqb x h then Ok 0%nat else do i <- col_index h l; Ok (S i) end.
Definition at_col (e : exn) (r : vec) (c : nat) : result R := match nth_error r c with Some x => Ok x | None => Err e end.
(** [data_array[:, cols]] and [data_array[out_indices, c]] *)
Definition take_cols (arr : list vec) (cs : list nat) : result (list vec) := mapM (fun r => mapM (at_col IndexError r) cs) arr.
Definition column (arr : list vec) (out : list nat) (c : nat) : result vec := mapM (fun j => at_col IndexError (nth j arr []) c) out.
Definition sky : R := 9999.
Definition lift_rows (surface : bool) (l : list vec) : list vec := if surface then map (fun r => r ++ [sky]) l else l.
Record headers := { h_a : list string; h_b : list string; h_m : list string; h_n : list string; h_data : option string; h_unc : option string; h_dict : option (list string) }.
Definition opt_list {A} (o : option A) : list A := match o with Some x => [x] | None => [] end.
Definition out_headers (h : headers) : list string := h_a h ++ h_b h ++ h_m h ++ h_n h ++ opt_list (h_data h) ++ opt_list (h_unc h) ++ match h_dict h with Some l => l | None => [] end.
Record xyz := { x_survey : survey; x_obs : option vec; x_std : option vec; x_dict : option (list (string * vec)) }.
(** Data(survey).dobs and standard_deviation (data.py): lengths agree; no negative uncertainties *)
Definition check_std (w : vec) : result vec := if existsb (fun x => if Rlt_dec x 0 then true else false) w then Err ValueError else Ok w.
(** 122-139 *)
Definition groups (nloc : nat) : list (list nat) :=
  (if (nloc =? 12) then [[0; 1; 2]; [3; 4; 5]; [6; 7; 8]; [9; 10; 11]] else if (nloc =? 8) then [[0; 1]; [2; 3]; [4; 5]; [6; 7]] else [[1]; [2]; [3]; [4]])%nat.
Definition quads (a b m n : list vec) : list quad := zip4 a b m n.
Definition opt_col (arr : list vec) (out : list nat) (head : list string) (h : option string) : result (option vec) :=
  match h with None => Ok None | Some h => do c <- col_index h head; do v <- column arr out c; Ok (Some v) end.
(** 12-189; loadtxt gives a one-dimensional array for a single row, which has no second dimension
    (120) *)
Definition read_xyz (h : headers) (surface : bool) (f : cfile) : result (xyz * list nat) :=
  do cols <- mapM (fun x => col_index x (f_head f)) (out_headers h);
  do arr <- mapM (fun r => mapM (at_col ValueError r) cols) (f_rows f);
  if (List.length arr <=? 1)%nat then Err IndexError else
  let nloc := (List.length (out_headers h) - List.length (opt_list (h_data h)) - List.length (opt_list (h_unc h)) - List.length (match h_dict h with Some l => l | None => [] end))%nat in
  do ga <- take_cols arr (nth 0 (groups nloc) []);
  do gb <- take_cols arr (nth 1 (groups nloc) []);
  do gm <- take_cols arr (nth 2 (groups nloc) []);
  do gn <- take_cols arr (nth 3 (groups nloc) []);
  do so <- from_rows (quads (lift_rows surface ga) (lift_rows surface gb) (lift_rows surface gm) (lift_rows surface gn));
  do d <- opt_col arr (snd so) (f_head f) (h_data h);
  do w <- opt_col arr (snd so) (f_head f) (h_unc h);
  do w <- match w with None => Ok None | Some w => do w <- check_std w; Ok (Some w) end;
  do dd <- match h_dict h with None => Ok None | Some l => do vs <- mapM (fun x => do c <- col_index x (f_head f); do v <- column arr (snd so) c; Ok (x, v)) l; Ok (Some vs) end;
  Ok ({| x_survey := fst so; x_obs := d; x_std := w; x_dict := dd |}, snd so).

(** ** Writing *)
Definition flat (q : quad) : vec := qa q ++ qb q ++ qm q ++ qn q.
Definition head2 : list string := ["XA"; "ZA"; "XB"; "ZB"; "XM"; "ZM"; "XN"; "ZN"]%string.
Definition head3 : list string := ["XA"; "YA"; "ZA"; "XB"; "YB"; "ZB"; "XM"; "YM"; "ZM"; "XN"; "YN"; "ZN"]%string.
(** np.c_ with one more column *)
Fixpoint add_col (t : list vec) (c : vec) : result (list vec) :=
  match t, c with [], [] => Ok [] | r :: t, x :: c => do l <- add_col t c; Ok ((r ++ [x]) :: l) | _, _ => Err ValueError end.
Fixpoint add_cols (t : list vec) (l : list (string * vec)) : result (list vec) := match l with [] => Ok t | (_, c) :: l => do t <- add_col t c; add_cols t l end.
(** 981-1052; asking for standard_deviation raises when there are no uncertainties (1031) *)
Definition write_xyz (P : R -> R) (s : survey) (obs : vec) (std : option vec) (hd hu : option string) (dict : list (string * vec)) : result cfile :=
  let t := map flat (locations s) in
  let head := match t with r :: _ => if (List.length r =? 8)%nat then head2 else head3 | [] => head3 end in
  do t <- match hd with Some _ => add_col t obs | None => Ok t end;
  do w <- match std with Some w => Ok w | None => Err TypeError end;
  do t <- match hu with Some _ => add_col t w | None => Ok t end;
  do t <- add_cols t dict;
  Ok {| f_head := head ++ opt_list hd ++ opt_list hu ++ map fst dict; f_rows := map (map P) t |}.

(** ** The simple 2D format (272-314, 713-727): four positions, datum and uncertainty *)
Definition write_simple (P : R -> R) (s : survey) (obs std : option vec) : result (list vec) :=
  do t <- mapM (fun q => do a <- at_col IndexError (qa q) 0; do b <- at_col IndexError (qb q) 0; do m <- at_col IndexError (qm q) 0; do n <- at_col IndexError (qn q) 0; Ok [a; b; m; n]) (locations s);
  do t <- match obs with Some d => add_col t d | None => Ok t end;
  do t <- match std with Some d => add_col t d | None => Ok t end;
  Ok (map (map P) t).
(** all rows have the length of the first *)
Definition read_simple (rows : list vec) : result (xyz * list nat) :=
  let n := match rows with r :: _ => List.length r | [] => 0%nat end in
  if negb (forallb (fun r => (List.length r =? n)%nat) rows) then Err ValueError else
  if (List.length rows <=? 1)%nat then Err IndexError else
  do ga <- take_cols rows [0%nat]; do gb <- take_cols rows [1%nat]; do gm <- take_cols rows [2%nat]; do gn <- take_cols rows [3%nat];
  do so <- from_rows (quads (lift_rows true ga) (lift_rows true gb) (lift_rows true gm) (lift_rows true gn));
  do d <- (if (4 <? n)%nat then do v <- column rows (snd so) 4; Ok (Some v) else Ok None);
  do w <- (if (5 <? n)%nat then do v <- column rows (snd so) 5; do v <- check_std v; Ok (Some v) else Ok None);
  Ok ({| x_survey := fst so; x_obs := d; x_std := w; x_dict := None |}, snd so).
