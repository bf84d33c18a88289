(** Splitting a survey into lines: the function. *)
From Verif Require Import Py Vec Abmn SpecAbmn AbmnFacts Lines2d SpecLines2d Lines2dFacts Lines2dFacts2 Lines2dFacts3.
From Coq Require Import ZArith Permutation Sorted.
Local Open Scope R_scope.

Lemma three_all3 rows : forallb three rows = true <-> all3 rows.
Proof.
  unfold all3. rewrite forallb_forall, Forall_forall. split; intros H q Hq; specialize (H q Hq); unfold three in *.
  - rewrite !andb_true_iff, !Nat.eqb_eq in H. tauto.
  - rewrite !andb_true_iff, !Nat.eqb_eq. tauto.
Qed.
Definition raw (rows : list quad) (ids : list Z) : list line2d := map (fun z => line rows (line_index ids z)) (unique_ids ids).
Lemma convert_ok sv nd ids ix ls : convert sv nd ids ix = Ok ls ->
  locations sv <> [] /\ all3 (locations sv) /\ nd = 1%nat /\ len ids = len (locations sv) /\ ls = raw (locations sv) ids /\ (ix = true -> forall n, ~ In (Lost n) ls).
Proof.
  unfold convert. destruct (len (locations sv) =? 0)%nat eqn:E0; [discriminate|]. destruct (forallb three _) eqn:E1; [|discriminate]. destruct (nd =? 1)%nat eqn:E2; [|discriminate]. destruct (len ids =? _)%nat eqn:E3; [|discriminate].
  cbn [negb]. destruct (ix && _) eqn:E4; [discriminate|]. intros H. injection H as <-. apply Nat.eqb_eq in E2, E3. apply Nat.eqb_neq in E0. split; [destruct (locations sv); [contradiction|discriminate]|]. split; [apply three_all3, E1|]. split; [exact E2|]. split; [exact E3|]. split; [reflexivity|].
  intros -> n Hn. cbn in E4. assert (X : existsb lost (map (fun z => line (locations sv) (line_index ids z)) (unique_ids ids)) = true) by (apply existsb_exists; exists (Lost n); auto). congruence.
Qed.
Lemma convert_valid sv ids ix : locations sv <> [] -> all3 (locations sv) -> len ids = len (locations sv) ->
  convert sv 1 ids ix = if ix && existsb lost (raw (locations sv) ids) then Err ValueError else Ok (raw (locations sv) ids).
Proof.
  intros H0 H1 H2. unfold convert. replace (len (locations sv) =? 0)%nat with false by (symmetry; apply Nat.eqb_neq; destruct (locations sv); [contradiction|discriminate]).
  apply three_all3 in H1. rewrite H1. rewrite H2. change (1 =? 1)%nat with true. rewrite (Nat.eqb_refl (len (locations sv))). reflexivity.
Qed.
Lemma convert_error sv nd ids ix e : convert sv nd ids ix = Err e -> e = ValueError.
Proof.
  unfold convert. destruct (len (locations sv) =? 0)%nat; [congruence|]. destruct (forallb three _); cbn [negb]; [|congruence]. destruct (nd =? 1)%nat; cbn [negb]; [|congruence]. destruct (len ids =? _)%nat; cbn [negb]; [|congruence]. destruct (ix && _); congruence.
Qed.

(** A property of every line *)
Lemma every_line sv nd ids ix ls (P : Z -> line2d -> Prop) : convert sv nd ids ix = Ok ls ->
  (all3 (locations sv) -> len ids = len (locations sv) -> forall z, In z ids -> P z (line (locations sv) (line_index ids z))) ->
  exists zs, StronglySorted Z.lt zs /\ (forall z, In z zs <-> In z ids) /\ Forall2 P zs ls.
Proof.
  intros H G. apply convert_ok in H. destruct H as (_ & A3 & _ & L & -> & _). exists (unique_ids ids). split; [apply unique_ids_sorted|]. split; [apply unique_ids_in|]. unfold raw.
  assert (Q : forall zs, (forall z, In z zs -> In z ids) -> Forall2 P zs (map (fun z => line (locations sv) (line_index ids z)) zs)).
  { intros zs. induction zs as [|z zs IH]; intros I; [constructor|]. cbn. constructor; [apply G; auto; apply I; left; reflexivity|apply IH; intros x Hx; apply I; right; exact Hx]. }
  apply Q. intros z. apply unique_ids_in.
Qed.

Lemma before_lex x y : before x y -> lex_lt x y = true.
Proof. intros (p & a & b & x' & y' & -> & -> & H). induction p as [|c p IH]; cbn; [destruct (Rlt_dec a b); [reflexivity|contradiction]|]. destruct (Rlt_dec c c); [lra|exact IH]. Qed.
Lemma below_antisym x y : (x = y \/ before x y) -> (y = x \/ before y x) -> x = y.
Proof.
  intros [->|H] [E|H']; auto. apply before_lex in H. apply before_lex in H'. pose proof (lex_trans _ _ _ H H') as Q. rewrite lex_irr in Q. discriminate.
Qed.
Lemma frame_unique rows ids z r0 u r0' u' : all3 rows -> len ids = len rows -> frame rows ids z r0 u -> frame rows ids z r0' u' -> r0 = r0' /\ u = u'.
Proof.
  intros A3 L (f & l & Hf & Hl & O & E0 & P & Eu) (f' & l' & Hf' & Hl' & O' & E0' & P' & Eu').
  assert (Q1 : ab (row rows f) = ab (row rows f')) by (apply below_antisym; [apply O, Hf'|apply O', Hf]).
  assert (Q2 : ab (row rows l) = ab (row rows l')) by (apply below_antisym; [apply O', Hl|apply O, Hl']).
  destruct Hf as [Hf _], Hl as [Hl _], Hf' as [Hf' _], Hl' as [Hl' _].
  apply (ab_inj rows A3) in Q1; [|lia|lia]. apply (ab_inj rows A3) in Q2; [|lia|lia]. destruct Q1 as [Q1 _], Q2 as [Q2 _]. subst. rewrite Q1, Q2. auto.
Qed.
Lemma frame_line rows ids z r0 u : all3 rows -> len ids = len rows -> In z ids -> frame rows ids z r0 u ->
  r0 = line_r0 (line_rows rows (line_index ids z)) /\ u = line_u (line_rows rows (line_index ids z)) /\ distance (line_r0 (line_rows rows (line_index ids z))) (line_rN (line_rows rows (line_index ids z))) <> 0.
Proof.
  intros A3 L Iz F. pose proof F as (f & l & Hf & Hl & O & E0 & P & Eu).
  assert (Q1 : ab (row rows f) = ab (row rows (fj rows ids z))) by (apply below_antisym; [apply O; apply idx_on, (fs_lt rows), (fs_hd rows ids z L Iz)|apply (order rows ids z A3 L Iz), Hf]).
  assert (Q2 : ab (row rows l) = ab (row rows (lj rows ids z))) by (apply below_antisym; [apply (order rows ids z A3 L Iz), Hl|apply O; apply idx_on, (fs_lt rows), (fs_last rows ids z L Iz)]).
  destruct Hf as [Hf _], Hl as [Hl _].
  apply (ab_inj rows A3) in Q1; [|lia|apply (idx_lt rows ids z L), (fs_lt rows), (fs_hd rows ids z L Iz)]. apply (ab_inj rows A3) in Q2; [|lia|apply (idx_lt rows ids z L), (fs_lt rows), (fs_last rows ids z L Iz)]. destruct Q1 as [Q1 _], Q2 as [Q2 _].
  rewrite Q1 in E0. rewrite Q2 in P. rewrite <- (r0_eq rows ids z A3 L Iz) in E0. rewrite <- (rN_eq rows ids z A3 L Iz) in P.
  assert (D : distance (line_r0 (line_rows rows (line_index ids z))) (line_rN (line_rows rows (line_index ids z))) <> 0) by (rewrite <- E0; lra).
  pose proof (frame_unique _ _ _ _ _ _ _ A3 L F (frame_ok rows ids z A3 L Iz D)). tauto.
Qed.

Definition complete (ids : list Z) (z : Z) (l : line2d) : Prop := match l with Line s out => survey_nD s = len out /\ len (locations s) = len out /\ forall j, In j out <-> on_line ids z j | Lost _ => True end.
Lemma lines_complete sv nd ids ix ls : convert sv nd ids ix = Ok ls -> exists zs, StronglySorted Z.lt zs /\ (forall z, In z zs <-> In z ids) /\ Forall2 (complete ids) zs ls.
Proof.
  intros H. apply (every_line _ _ _ _ _ (complete ids) H). intros A3 L z Iz. rewrite line_cases by assumption. destruct (Req_EM_T _ 0) as [D|D]; [exact I|]. cbn. split; [rewrite l_nD; symmetry; apply map_length|].
  split; [rewrite l_locations_len; symmetry; apply map_length|]. intros j. apply out_members; assumption.
Qed.
Lemma lines_once sv nd ids ix ls : convert sv nd ids ix = Ok ls -> exists zs, StronglySorted Z.lt zs /\ (forall z, In z zs <-> In z ids) /\
  Forall2 (fun z l => match l with Line s out => NoDup out <-> pairs_apart (locations sv) ids z | Lost _ => True end) zs ls.
Proof.
  intros H. apply (every_line _ _ _ _ _ _ H). intros A3 L z Iz. rewrite line_cases by assumption. destruct (Req_EM_T _ 0) as [D|D]; [exact I|]. split.
  - intros N r0 u F i j Hi Hj Ne [Ta Tb]. destruct (frame_line _ _ _ _ _ A3 L Iz F) as (-> & -> & _). exact (apart_out _ _ _ A3 L Iz i j N Hi Hj Ne Ta Tb).
  - intros Ap. apply nodup_out; assumption.
Qed.
Lemma lines_electrodes sv nd ids ix ls : convert sv nd ids ix = Ok ls -> exists zs, StronglySorted Z.lt zs /\ (forall z, In z zs <-> In z ids) /\
  Forall2 (fun z l => match l with
    | Line s out => pairs_apart (locations sv) ids z -> exists r0 u, frame (locations sv) ids z r0 u /\ Forall2 recorded (locations s) (map (fun j => profile_row r0 u (row (locations sv) j)) out)
    | Lost _ => True end) zs ls.
Proof.
  intros H. apply (every_line _ _ _ _ _ _ H). intros A3 L z Iz. rewrite line_cases by assumption. destruct (Req_EM_T _ 0) as [D|D]; [exact I|]. intros Ap. eexists _, _. split; [apply frame_ok; assumption|]. apply electrodes_line; assumption.
Qed.
Lemma lines_lost sv nd ids ix ls : convert sv nd ids ix = Ok ls -> exists zs, StronglySorted Z.lt zs /\ (forall z, In z zs <-> In z ids) /\
  Forall2 (fun z l => (exists n, l = Lost n) <-> ~ exists r0 u, frame (locations sv) ids z r0 u) zs ls.
Proof.
  intros H. apply (every_line _ _ _ _ _ _ H). intros A3 L z Iz. rewrite line_cases by assumption. destruct (Req_EM_T _ 0) as [D|D]; split.
  - intros _ (r0 & u & F). destruct (frame_line _ _ _ _ _ A3 L Iz F) as (_ & _ & Q). contradiction.
  - intros _. eexists. reflexivity.
  - intros (n & Q). discriminate.
  - intros Q. exfalso. apply Q. eexists _, _. apply frame_ok; assumption.
Qed.
Lemma one_place rows ids z p : (forall j, on_line ids z j -> plan (qa (row rows j)) = p) -> ~ exists r0 u, frame rows ids z r0 u.
Proof.
  intros H (r0 & u & f & l & Hf & Hl & _ & -> & P & _). rewrite (H f Hf), (H l Hl) in P. unfold distance in P. rewrite self_zero, sqrt_0 in P. lra.
Qed.
Lemma single_lost sv ids z p : locations sv <> [] -> all3 (locations sv) -> len ids = len (locations sv) -> In z ids -> (forall j, on_line ids z j -> plan (qa (row (locations sv) j)) = p) ->
  convert sv 1 ids true = Err ValueError /\ exists ls n, convert sv 1 ids false = Ok ls /\ In (Lost n) ls.
Proof.
  intros H0 A3 L Iz Hp.
  assert (Q : exists n, In (Lost n) (raw (locations sv) ids)).
  { assert (E : exists n, line (locations sv) (line_index ids z) = Lost n).
    { rewrite line_cases by assumption. destruct (Req_EM_T _ 0) as [D|D]; [eexists; reflexivity|]. exfalso. apply (one_place _ _ _ _ Hp). eexists _, _. apply frame_ok; assumption. }
    destruct E as (n & E). exists n. apply in_map_iff. exists z. split; [exact E|apply unique_ids_in, Iz]. }
  destruct Q as (n & Q). rewrite !convert_valid by assumption.
  assert (X : existsb lost (raw (locations sv) ids) = true) by (apply existsb_exists; exists (Lost n); auto). rewrite X. split; [reflexivity|]. eexists _, n. split; [reflexivity|exact Q].
Qed.
(** One line. *)
Lemma one_id ids z : ids <> [] -> Forall (fun x => x = z) ids -> unique_ids ids = [z].
Proof.
  intros N F. pose proof (unique_ids_sorted ids) as S. pose proof (unique_ids_in ids) as I. rewrite Forall_forall in F.
  assert (Iz : In z (unique_ids ids)) by (apply I; destruct ids as [|x l]; [contradiction|]; left; apply F; left; reflexivity).
  destruct (unique_ids ids) as [|a [|b l]]; [destruct Iz| |].
  - destruct Iz as [->|[]]. reflexivity.
  - exfalso. inversion S as [|? ? _ Q]; subst. inversion Q; subst. assert (a = z) by (apply F, I; left; reflexivity). assert (b = z) by (apply F, I; right; left; reflexivity). lia.
Qed.
Lemma line_reported sv nd ids ix s out z r0 u i j : convert sv nd ids ix = Ok [Line s out] -> Forall (fun x => x = z) ids -> frame (locations sv) ids z r0 u ->
  on_line ids z i -> on_line ids z j ->
  together (hd 0 (profile r0 u (qa (row (locations sv) i)))) (hd 0 (profile r0 u (qa (row (locations sv) j)))) -> together (hd 0 (profile r0 u (qb (row (locations sv) i)))) (hd 0 (profile r0 u (qb (row (locations sv) j)))) ->
  exists q, In (q, i) (combine (locations s) out) /\ qa q = profile r0 u (qa (row (locations sv) j)) /\
    second (profile r0 u (qa (row (locations sv) j))) (profile r0 u (qb (row (locations sv) j))) (qb q) /\ qm q = profile r0 u (qm (row (locations sv) i)) /\ second (profile r0 u (qm (row (locations sv) i))) (profile r0 u (qn (row (locations sv) i))) (qn q).
Proof.
  intros H Fz F Hi Hj Ta Tb. apply convert_ok in H. destruct H as (_ & A3 & _ & L & E & _).
  assert (Iz : In z ids) by (destruct Hi as [B <-]; apply nth_In, B).
  assert (N : ids <> []) by (intros ->; destruct Iz). unfold raw in E. rewrite (one_id ids z N Fz) in E. cbn [map] in E. rewrite line_cases in E by assumption.
  destruct (frame_line _ _ _ _ _ A3 L Iz F) as (-> & -> & D). destruct (Req_EM_T _ 0); [contradiction|]. injection E as -> ->.
  apply reported; assumption.
Qed.
Lemma one_line sv ids z r0 u ix : locations sv <> [] -> all3 (locations sv) -> len ids = len (locations sv) -> Forall (fun x => x = z) ids -> frame (locations sv) ids z r0 u -> exists s out, convert sv 1 ids ix = Ok [Line s out].
Proof.
  intros H0 A3 L Fz F. assert (N : ids <> []) by (intros ->; destruct (locations sv); [contradiction|discriminate]). assert (Iz : In z ids) by (rewrite Forall_forall in Fz; destruct ids as [|x l]; [contradiction|]; left; apply Fz; left; reflexivity).
  rewrite convert_valid by assumption. unfold raw. rewrite (one_id ids z N Fz). cbn [map]. rewrite line_cases by assumption. destruct (frame_line _ _ _ _ _ A3 L Iz F) as (_ & _ & D). destruct (Req_EM_T _ 0); [contradiction|]. cbn. rewrite andb_false_r. eexists _, _. reflexivity.
Qed.
Lemma frame_unit rows ids z r0 u : frame rows ids z r0 u -> len r0 = 2%nat /\ len u = 2%nat /\ dot u u = 1.
Proof. intros (f & l & _ & _ & _ & -> & P & ->). split; [reflexivity|]. split; [reflexivity|]. apply unit_dir; auto. Qed.
