(** C73: DC/IP data files in columns. *)
From Verif Require Import Py Vec Abmn SpecAbmn AbmnFacts AbmnFacts2 XyzIO SpecXyzIO XyzIOFacts XyzIOFacts2 XyzIOFacts3.
Local Open Scope R_scope.

(** Data written and read back with the standard headers, in two or three dimensions: the
    survey is the one generated from the printed electrodes, and every column is printed
    and put in the order of that survey. *)
Theorem C73_round_trip : forall pr o hd hu extra k, (k = 3 \/ k = 2)%nat -> Forall (quad_dim k) (locations (dd_survey o)) -> (2 <= List.length (locations (dd_survey o)))%nat ->
  Forall (fun c => List.length c = List.length (locations (dd_survey o))) (columns o hd hu extra) -> NoDup (std_heads k ++ names hd hu extra) ->
  apart (map (printed_quad pr) (locations (dd_survey o))) ->
  exists f s out, from_rows (map (printed_quad pr) (locations (dd_survey o))) = Ok (s, out) /\ write_xyz pr o hd hu extra = Ok f /\
    read_xyz f (std_part k 0) (std_part k 1) (std_part k 2) (std_part k 3) hd hu (Some (map fst extra)) false =
    Ok (s, option_map (fun _ => sorted pr out (dd_obs o)) hd, option_map (fun _ => sorted pr out (dd_std o)) hu, Some (map (fun e => (fst e, sorted pr out (snd e))) extra)).
Proof. exact round_trip. Qed.
Print Assumptions C73_round_trip.
Example C73_round_trip_case : let o := two_data in let hd := Some "V"%string in let hu := Some "S"%string in let extra := [("IP"%string, [5; 6])] in
  Forall (quad_dim 2) (locations (dd_survey o)) /\ (2 <= List.length (locations (dd_survey o)))%nat /\
  Forall (fun c => List.length c = List.length (locations (dd_survey o))) (columns o hd hu extra) /\ NoDup (std_heads 2 ++ names hd hu extra) /\
  apart (map (printed_quad (fun x => x)) (locations (dd_survey o))).
Proof. split; [repeat constructor|]. split; [apply le_n|]. split; [repeat constructor|]. split; [exact nodup_heads|exact two_apart]. Qed.

(** What is read from any file: electrodes and columns are those of the headers, provided
    the columns of data have the same number in the file as among the headers asked for. *)
Theorem C73_columns_partial : forall f ha hb hm hn hd hu hx surface k s d u x, NoDup (x_heads f) -> (k = 3 \/ k = 2)%nat -> dims k ha -> dims k hb -> dims k hm -> dims k hn ->
  Forall (same_number (x_heads f) (request ha hb hm hn hd hu hx)) (asked hd hu hx) ->
  read_xyz f ha hb hm hn hd hu hx surface = Ok (s, d, u, x) ->
  exists rows out, Forall2 (row_of (x_heads f) surface ha hb hm hn) (x_rows f) rows /\ from_rows rows = Ok (s, out) /\
    match hd with Some h => exists c, d = Some c /\ sorted_column f out h c | None => d = None end /\
    match hu with Some h => exists c, u = Some c /\ sorted_column f out h c | None => u = None end /\
    match hx with Some l => exists cs, x = Some cs /\ Forall2 (fun h e => fst e = h /\ sorted_column f out h (snd e)) l cs | None => x = None end.
Proof. exact read_right. Qed.
Print Assumptions C73_columns_partial.
Example C73_columns_case : same_number (std_heads 2 ++ ["V"%string]) (request (std_part 2 0) (std_part 2 1) (std_part 2 2) (std_part 2 3) (Some "V"%string) None None) "V".
Proof. exists 8%nat. split; reflexivity. Qed.
(** Otherwise other columns are returned: with the data in the first column of the file,
    the data read are coordinates of electrode A. *)
Theorem C73_columns_refuted : exists s c, read_xyz late ["XA"; "ZA"]%string ["XB"; "ZB"]%string ["XM"; "ZM"]%string ["XN"; "ZN"]%string (Some "V"%string) None None false = Ok (s, Some c, None, None) /\
  (c = [1; 11] \/ c = [11; 1]).
Proof. exact late_read. Qed.
Print Assumptions C73_columns_refuted.
(** One coordinate per electrode: B is taken for A, M for B, N for M and the data for N. *)
Theorem C73_line_refuted : forall f ha hb hm hn hd surface s d u x, read_xyz f [ha] [hb] [hm] [hn] (Some hd) None None surface = Ok (s, d, u, x) ->
  exists rows out, Forall2 (row_of (x_heads f) surface [hb] [hm] [hn] [hd]) (x_rows f) rows /\ from_rows rows = Ok (s, out).
Proof. exact line_columns. Qed.
Print Assumptions C73_line_refuted.
Theorem C73_line_without_data_refuted : forall f ha hb hm hn surface, exists e, read_xyz f [ha] [hb] [hm] [hn] None None None surface = Err e.
Proof. exact line_fails. Qed.
Print Assumptions C73_line_without_data_refuted.
(** A file with one row cannot be read. *)
Theorem C73_single_row_refuted : forall f ha hb hm hn hd hu hx surface r, x_rows f = [r] -> exists e, read_xyz f ha hb hm hn hd hu hx surface = Err e.
Proof. exact read_single. Qed.
Print Assumptions C73_single_row_refuted.
