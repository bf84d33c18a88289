(** C72: DC/IP surveys generated from tables of electrodes. *)
From Verif Require Import Py Vec Abmn SpecAbmn AbmnFacts AbmnFacts2.
From Coq Require Import Permutation.
Local Open Scope R_scope.

(** The order returned with the survey is a permutation of the rows. *)
Theorem C72_order : forall rows s out, from_rows rows = Ok (s, out) -> Permutation out (seq 0 (List.length rows)).
Proof. exact order_perm. Qed.
Print Assumptions C72_order.
(** The survey has one datum per row. *)
Theorem C72_number_of_data : forall rows s out, from_rows rows = Ok (s, out) -> survey_nD s = List.length rows.
Proof. exact survey_count. Qed.
Print Assumptions C72_number_of_data.
(** The electrodes of the survey, in its own order, are those of the rows in the order
    returned; a second electrode that is merged with the first counts as a pole. *)
Theorem C72_electrodes : forall rows s out, from_rows rows = Ok (s, out) -> Forall2 recorded (locations s) (map (row rows) out).
Proof. exact electrodes. Qed.
Print Assumptions C72_electrodes.
(** So they are exactly the rows when poles are given as twice the same place. *)
Theorem C72_electrodes_exact : forall rows s out, from_rows rows = Ok (s, out) -> Forall clear_poles rows -> locations s = map (row rows) out.
Proof. exact electrodes_exact. Qed.
Print Assumptions C72_electrodes_exact.
(** Tables are accepted exactly when they are not empty and different pairs (A, B) are a
    millimetre apart. *)
Theorem C72_accepted : forall rows, (exists r, from_rows rows = Ok r) <-> rows <> [] /\ apart rows.
Proof. exact accepted. Qed.
Print Assumptions C72_accepted.
(** Every source is the pole or the dipole of one of the rows. *)
Theorem C72_sources : forall rows s out, from_rows rows = Ok (s, out) -> forall k, (k < List.length s)%nat ->
  exists q, In q rows /\ match nth k s (SrcPole [] []) with
    | SrcPole _ a => a = qa q /\ merged (qa q) (qb q)
    | SrcDipole _ a b => a = qa q /\ b = qb q /\ ~ merged (qa q) (qb q) end.
Proof. exact source_kind. Qed.
Print Assumptions C72_sources.
Example C72_case : (exists r, from_rows demo = Ok r) /\ Forall clear_poles demo.
Proof. split; [exact demo_ok|exact demo_clear]. Qed.

(** The function itself: the tables have one shape; without B all sources are poles. *)
Theorem C72_tables : forall a b m n s out, generate (Some a) (Some b) (Some m) (Some n) = Ok (s, out) ->
  Permutation out (seq 0 (List.length (t_rows a))) /\ survey_nD s = List.length (t_rows a) /\ (t_cols a = t_cols b /\ t_cols a = t_cols m /\ t_cols a = t_cols n).
Proof. exact generate_tables. Qed.
Print Assumptions C72_tables.
Theorem C72_without_b : forall a m n s out, generate (Some a) None (Some m) n = Ok (s, out) -> Forall (fun x => ~ is_dipole x) s.
Proof. exact no_b. Qed.
Print Assumptions C72_without_b.
Example C72_tables_case : exists r, generate (Some {| t_cols := 1; t_rows := [[0]] |}) None (Some {| t_cols := 1; t_rows := [[5]] |}) None = Ok r.
Proof.
  destruct (proj2 (accepted [{| qa := [0]; qb := [0]; qm := [5]; qn := [5] |}])) as (r & H); [split; [discriminate|apply single_apart]|]. exists r. exact H.
Qed.

(** A dipole whose ends differ by a hundred-thousandth of the coordinate (five metres at
    500 km) becomes a pole. *)
Theorem C72_far_dipole_refuted : forall x d m n, 0 < d -> d <= x / 100000 ->
  exists rxs, from_rows [{| qa := [x + d]; qb := [x]; qm := m; qn := n |}] = Ok ([SrcPole rxs [x + d]], [0%nat]).
Proof. exact far_dipole. Qed.
Print Assumptions C72_far_dipole_refuted.
Example C72_far_case : 0 < 5 /\ 5 <= 500000 / 100000.
Proof. lra. Qed.
