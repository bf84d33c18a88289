(** C82: which column files are accepted, and the simple format. *)
From Verif Require Import Py Vec Abmn SpecAbmn DcXyz SpecDcXyz DcXyzFacts DcXyzFacts2 DcXyzFacts3 DcXyzFacts4.
From Coq Require Import String Permutation Lia.
Local Open Scope R_scope.
Local Open Scope list_scope.

(** A file whose first columns are those asked for, in the order of the reader, is accepted exactly when different pairs (A, B) are a millimetre apart and no
    uncertainty is negative. *)
Theorem C82_accepted : forall h surface f k extra, coordinates k h -> f_head f = out_headers h ++ extra -> full_file f ->
  (exists r, read_xyz h surface f = Ok r) <-> apart (map (electrodes_of f h surface) (f_rows f)) /\ match h_unc h with Some u => Forall (fun r => 0 <= under u (f_head f) r) (f_rows f) | None => True end.
Proof. exact read_accepts. Qed.
Print Assumptions C82_accepted.
Example C82_case : full_file demo_file /\ f_head demo_file = out_headers demo_heads ++ [] /\ coordinates 2 demo_heads.
Proof. exact demo_full. Qed.
Example C82_accepted_case : exists r, read_xyz demo_heads false demo_file = Ok r.
Proof. exact demo_accepted. Qed.
(** A header that is not in the file is an error. *)
Theorem C82_missing : forall h surface f x, In x (out_headers h) -> ~ In x (f_head f) -> read_xyz h surface f = Err ValueError.
Proof. exact missing_header. Qed.
Print Assumptions C82_missing.
(** A survey written in the simple format and read back has its data and uncertainties, as
    printed, with the same positions; elevations are 9999. *)
Theorem C82_simple : forall P s obs std k, Forall (quad_dim k) (locations s) -> (0 < k)%nat -> (2 <= List.length (locations s))%nat ->
  (forall v, obs = Some v -> List.length v = List.length (locations s)) -> (forall v, std = Some v -> List.length v = List.length (locations s)) -> (obs = None -> std = None) ->
  exists rows, write_simple P s obs std = Ok rows /\ forall x out, read_simple rows = Ok (x, out) ->
    kept (fun q => first_place (round_quad P q)) s x out /\ x_obs x = option_map (fun v => picked P v out) obs /\ x_std x = option_map (fun v => picked P v out) std.
Proof. exact simple_round_trip. Qed.
Print Assumptions C82_simple.
Example C82_simple_case : Forall (quad_dim 2) (locations demo_xyz) /\ List.length (locations demo_xyz) = 2%nat.
Proof. exact demo_dims. Qed.

(** When the datum is the first column of the file, the data returned are the x coordinates
    of A. *)
Theorem C82_data_first_refuted : forall h surface f k d, coordinates k h -> h_data h = Some d -> h_unc h = None -> h_dict h = None ->
  f_head f = d :: h_a h ++ h_b h ++ h_m h ++ h_n h -> full_file f ->
  forall x out, read_xyz h surface f = Ok (x, out) -> x_obs x = Some (column_of f out (nth 0 (h_a h) EmptyString)).
Proof. exact data_first. Qed.
Print Assumptions C82_data_first_refuted.
Example C82_data_first_case : full_file first_file /\ exists r, read_xyz first_heads false first_file = Ok r.
Proof. exact first_accepted. Qed.
(** A simple file of one row cannot be read. *)
Theorem C82_one_simple_row_refuted : forall r, exists e, read_simple [r] = Err e.
Proof. exact simple_single. Qed.
Print Assumptions C82_one_simple_row_refuted.
(** Data without uncertainties cannot be written, even without a header for them. *)
Theorem C82_no_uncertainties_refuted : forall P s obs hd hu dict, (match hd with Some _ => List.length obs = List.length (locations s) | None => True end) -> write_xyz P s obs None hd hu dict = Err TypeError.
Proof. exact no_std. Qed.
Print Assumptions C82_no_uncertainties_refuted.
(** Files with one position per electrode: B is taken for A, M for B, N for M and the datum for N. *)
Theorem C82_line_refuted : forall a b m n d f x out, f_head f = [a; b; m; n; d] -> full_file f -> read_xyz (line_heads a b m n (Some d)) true f = Ok (x, out) ->
  from_rows (map (fun r => {| qa := [under b (f_head f) r; sky]; qb := [under m (f_head f) r; sky]; qm := [under n (f_head f) r; sky]; qn := [under d (f_head f) r; sky] |}) (f_rows f)) = Ok (x_survey x, out).
Proof. exact line_shifted. Qed.
Print Assumptions C82_line_refuted.
Example C82_line_case : full_file line_file /\ exists r, read_xyz (line_heads "A" "B" "M" "N" (Some "D"%string)) true line_file = Ok r.
Proof. exact line_accepted. Qed.
(** Without a datum they cannot be read. *)
Theorem C82_line_without_data_refuted : forall a b m n f, f_head f = [a; b; m; n] -> full_file f -> read_xyz (line_heads a b m n None) true f = Err IndexError.
Proof. exact line_fails. Qed.
Print Assumptions C82_line_without_data_refuted.
