(** C79: splitting a 3D DC survey into 2D lines. *)
From Verif Require Import Py Vec Abmn SpecAbmn Lines2d SpecLines2d Lines2dFacts Lines2dFacts2 Lines2dFacts3 Lines2dFacts4 Lines2dFacts5.
From Coq Require Import ZArith Permutation Sorted.
Local Open Scope R_scope.

(** What is accepted. *)
Theorem C79_checked : forall sv nd ids, (exists ls, convert sv nd ids false = Ok ls) <-> locations sv <> [] /\ all3 (locations sv) /\ nd = 1%nat /\ List.length ids = List.length (locations sv).
Proof.
  intros sv nd ids. split; [intros (ls & H); apply convert_ok in H; tauto|]. intros (H0 & H1 & -> & H2). rewrite convert_valid by assumption. eexists. reflexivity.
Qed.
Print Assumptions C79_checked.
Theorem C79_error : forall sv nd ids ix e, convert sv nd ids ix = Err e -> e = ValueError.
Proof. exact convert_error. Qed.
Print Assumptions C79_error.
(** There is one line per line ID in increasing order, and the indices returned for it are
    those of its data; each is there at least once. *)
Theorem C79_lines : forall sv nd ids ix ls, convert sv nd ids ix = Ok ls -> exists zs, StronglySorted Z.lt zs /\ (forall z, In z zs <-> In z ids) /\
  Forall2 (fun z l => match l with Line s out => survey_nD s = List.length out /\ List.length (locations s) = List.length out /\ forall j, In j out <-> on_line ids z j | Lost _ => True end) zs ls.
Proof. exact lines_complete. Qed.
Print Assumptions C79_lines.
(** Each is there once exactly when different pairs (A, B) have different positions along the
    profile. *)
Theorem C79_once_partial : forall sv nd ids ix ls, convert sv nd ids ix = Ok ls -> exists zs, StronglySorted Z.lt zs /\ (forall z, In z zs <-> In z ids) /\
  Forall2 (fun z l => match l with Line s out => NoDup out <-> pairs_apart (locations sv) ids z | Lost _ => True end) zs ls.
Proof. exact lines_once. Qed.
Print Assumptions C79_once_partial.
(** Then the electrodes of the 2D survey are those of its data in the order returned, placed on
    the profile. *)
Theorem C79_electrodes_partial : forall sv nd ids ix ls, convert sv nd ids ix = Ok ls -> exists zs, StronglySorted Z.lt zs /\ (forall z, In z zs <-> In z ids) /\
  Forall2 (fun z l => match l with
    | Line s out => pairs_apart (locations sv) ids z -> exists r0 u, frame (locations sv) ids z r0 u /\ Forall2 recorded (locations s) (map (fun j => profile_row r0 u (row (locations sv) j)) out)
    | Lost _ => True end) zs ls.
Proof. exact lines_electrodes. Qed.
Print Assumptions C79_electrodes_partial.
(** There is one profile at most, its direction is a unit vector; it starts below the A
    electrode of the first pair and passes below that of the last. *)
Theorem C79_one_profile : forall rows ids z r0 u r0' u', all3 rows -> List.length ids = List.length rows -> frame rows ids z r0 u -> frame rows ids z r0' u' -> r0 = r0' /\ u = u'.
Proof. exact frame_unique. Qed.
Print Assumptions C79_one_profile.
Theorem C79_unit : forall rows ids z r0 u, frame rows ids z r0 u -> List.length r0 = 2%nat /\ List.length u = 2%nat /\ dot u u = 1.
Proof. exact frame_unit. Qed.
Print Assumptions C79_unit.
Theorem C79_ends : forall r0 r1 z, List.length r0 = 2%nat -> List.length r1 = 2%nat -> 0 < distance r0 r1 ->
  profile r0 (vscale (/ distance r0 r1) (vsub r1 r0)) (r0 ++ [z]) = [0; z] /\ profile r0 (vscale (/ distance r0 r1) (vsub r1 r0)) (r1 ++ [z]) = [distance r0 r1; z].
Proof. exact profile_end. Qed.
Print Assumptions C79_ends.
(** Electrodes in the vertical plane of the profile keep their distances; others come closer. *)
Theorem C79_straight : forall r0 u v w t, List.length u = 2%nat -> dot u u = 1 -> List.length v = 3%nat -> List.length w = 3%nat -> vsub (plan v) (plan w) = vscale t u ->
  distance (profile r0 u v) (profile r0 u w) = distance v w.
Proof. exact profile_keeps. Qed.
Print Assumptions C79_straight.
Theorem C79_crooked : forall r0 u v w, List.length u = 2%nat -> dot u u = 1 -> List.length v = 3%nat -> List.length w = 3%nat ->
  distance (profile r0 u v) (profile r0 u w) <= distance v w.
Proof. exact profile_shrinks. Qed.
Print Assumptions C79_crooked.
Example C79_case : frame (locations two) (repeat 0%Z 2) 0%Z [0; 0] [1; 0] /\ pairs_apart (locations two) (repeat 0%Z 2) 0%Z /\ exists s out, convert two 1 (repeat 0%Z 2) true = Ok [Line s out].
Proof. split; [exact two_frame|]. split; [exact two_apart|]. destruct origin_bad as (s & out & _ & H & _). exists s, out. exact H. Qed.

(** FINDING: a line is lost exactly when it has no profile, as when all its sources have the
    same A electrode: with indices the call fails, without them its survey has no data. *)
Theorem C79_lost : forall sv nd ids ix ls, convert sv nd ids ix = Ok ls -> exists zs, StronglySorted Z.lt zs /\ (forall z, In z zs <-> In z ids) /\
  Forall2 (fun z l => (exists n, l = Lost n) <-> ~ exists r0 u, frame (locations sv) ids z r0 u) zs ls.
Proof. exact lines_lost. Qed.
Print Assumptions C79_lost.
Theorem C79_one_source_refuted : forall sv ids z p, locations sv <> [] -> all3 (locations sv) -> List.length ids = List.length (locations sv) -> In z ids -> (forall j, on_line ids z j -> plan (qa (row (locations sv) j)) = p) ->
  convert sv 1 ids true = Err ValueError /\ exists ls n, convert sv 1 ids false = Ok ls /\ In (Lost n) ls.
Proof. exact single_lost. Qed.
Print Assumptions C79_one_source_refuted.
Example C79_one_source_case : let sv := poles_at [5; 0; 0] [[0; 0; 0]] in
  locations sv <> [] /\ all3 (locations sv) /\ forall j, on_line [0%Z] 0%Z j -> plan (qa (row (locations sv) j)) = [0; 0].
Proof. split; [discriminate|]. split; [apply all3_poles; [reflexivity|repeat constructor]|]. intros j [H _]. destruct j; [reflexivity|cbn in H; lia]. Qed.
(** FINDING: sources below each other share their data; a datum of the source at depth 10 is
    also reported for the source at the surface. *)
Theorem C79_depth_refuted : exists s out, convert holes 1 (repeat 0%Z 3) true = Ok [Line s out] /\ ~ NoDup out /\
  exists q, In (q, 0%nat) (combine (locations s) out) /\ qa q = [0; 0] /\ qa (row (locations holes) 0) = [0; 0; -10].
Proof. exact holes_bad. Qed.
Print Assumptions C79_depth_refuted.
(** FINDING: dipoles across the line become poles. *)
Theorem C79_across_refuted : exists s out q, convert across 1 (repeat 0%Z 2) true = Ok [Line s out] /\ In (q, 0%nat) (combine (locations s) out) /\ qb q = qa q /\ qn q = qm q /\
  qa (row (locations across) 0) <> qb (row (locations across) 0) /\ qm (row (locations across) 0) <> qn (row (locations across) 0).
Proof. exact across_bad. Qed.
Print Assumptions C79_across_refuted.
(** FINDING: the A electrode of the first source of the source list need not be at zero. *)
Theorem C79_origin_refuted : exists s out q, convert two 1 (repeat 0%Z 2) true = Ok [Line s out] /\ In (q, 0%nat) (combine (locations s) out) /\ qa q = [10; 0].
Proof. exact origin_bad. Qed.
Print Assumptions C79_origin_refuted.
