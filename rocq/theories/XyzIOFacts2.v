(** DC/IP data in columns: writing and reading back; counterexamples. *)
From Verif Require Import Py Vec Abmn SpecAbmn AbmnFacts AbmnFacts2 XyzIO SpecXyzIO XyzIOFacts.
From Coq Require Import Permutation.
Local Open Scope R_scope.

Lemma nth_map_seq {A} (f : nat -> A) n j d : (j < n)%nat -> nth j (map f (seq 0 n)) d = f j.
Proof. intros H. rewrite (nth_indep _ d (f 0%nat)) by (rewrite map_length, seq_length; exact H). rewrite map_nth, seq_nth by exact H. reflexivity. Qed.
Lemma zip_rows_len : forall t c, len t = len c -> len (zip_rows t c) = len t.
Proof. induction t as [|r t IH]; intros [|x c] L; try discriminate; [reflexivity|]. cbn. f_equal. apply IH. injection L. trivial. Qed.
Lemma zip_rows_nth : forall t c j, len t = len c -> (j < len t)%nat -> nth j (zip_rows t c) [] = nth j t [] ++ [nth j c 0].
Proof. induction t as [|r t IH]; intros [|x c] j L H; try discriminate; [cbn in H; lia|]. destruct j as [|j]; [reflexivity|]. cbn in *. apply IH; lia. Qed.
Lemma add_all_ok : forall cs t, Forall (fun c => len c = len t) cs -> exists t', add_all t cs = Ok t' /\ len t' = len t /\ forall j, (j < len t)%nat -> nth j t' [] = nth j t [] ++ map (fun c => nth j c 0) cs.
Proof.
  induction cs as [|c cs IH]; intros t H; [exists t; split; [reflexivity|]; split; [reflexivity|]; intros j _; rewrite app_nil_r; reflexivity|]. inversion H as [|? ? Hc Hcs]; subst.
  cbn [add_all]. unfold add_column. rewrite Hc, Nat.eqb_refl. cbn [bind]. destruct (IH (zip_rows t c)) as (t' & E & L & J).
  { rewrite zip_rows_len by congruence. exact Hcs. }
  rewrite zip_rows_len in L, J by congruence. exists t'. split; [exact E|]. split; [exact L|]. intros j Hj. rewrite J by exact Hj. rewrite zip_rows_nth by (try congruence; exact Hj). rewrite <- app_assoc. reflexivity.
Qed.
Lemma add_all_app t a b : add_all t (a ++ b) = (do t' <- add_all t a; add_all t' b).
Proof. revert t. induction a as [|c a IH]; intros t; [reflexivity|]. cbn. destruct (add_column t c); [cbn; apply IH|reflexivity]. Qed.
Lemma write_all pr o hd hu extra : write_xyz pr o hd hu extra =
  (do t <- add_all (map quad_row (locations (dd_survey o))) (columns o hd hu extra);
   Ok {| x_heads := (if (len (List.hd [] (map quad_row (locations (dd_survey o)))) =? 8)%nat then heads2 else heads3) ++ names hd hu extra; x_rows := map (map pr) t |}).
Proof.
  unfold write_xyz, columns. destruct hd as [h|], hu as [h'|]; cbn [col app add_all opt_list bind].
  - destruct (add_column _ (dd_obs o)) as [t|]; [|reflexivity]. cbn [bind]. destruct (add_column t (dd_std o)) as [t'|]; [|reflexivity]. reflexivity.
  - destruct (add_column _ (dd_obs o)) as [t|]; [|reflexivity]. cbn [bind]. destruct (add_all t (map snd extra)); reflexivity.
  - cbn [bind]. destruct (add_column _ (dd_std o)) as [t|]; [|reflexivity]. cbn [bind]. destruct (add_all t (map snd extra)); reflexivity.
  - cbn [bind]. destruct (add_all _ (map snd extra)); reflexivity.
Qed.
Lemma index_all heads : NoDup heads -> mapM (fun h => index_of h heads) heads = Ok (seq 0 (len heads)).
Proof.
  intros N. apply F2_mapM. assert (G : forall pre l, heads = pre ++ l -> Forall2 (fun h i => index_of h heads = Ok i) l (seq (len pre) (len l))); [|apply (G [] heads eq_refl)].
  intros pre l. revert pre. induction l as [|h l IH]; intros pre E; [constructor|]. cbn. constructor.
  - apply index_nodup; [exact N|]. rewrite E, nth_error_app2, Nat.sub_diag by lia. reflexivity.
  - specialize (IH (pre ++ [h])). rewrite app_length in IH. cbn in IH. replace (len pre + 1)%nat with (S (len pre)) in IH by lia. apply IH. rewrite E, <- app_assoc. reflexivity.
Qed.
Lemma select_all r : select (seq 0 (len r)) r = Ok r.
Proof.
  unfold select. apply F2_mapM. assert (G : forall pre l, r = pre ++ l -> Forall2 (fun i x => cell i r = Ok x) (seq (len pre) (len l)) l); [|apply (G [] r eq_refl)].
  intros pre l. revert pre. induction l as [|x l IH]; intros pre E; [constructor|]. cbn. constructor.
  - apply cell_spec. rewrite E, nth_error_app2, Nat.sub_diag by lia. reflexivity.
  - specialize (IH (pre ++ [x])). rewrite app_length in IH. cbn in IH. replace (len pre + 1)%nat with (S (len pre)) in IH by lia. apply IH. rewrite E, <- app_assoc. reflexivity.
Qed.
Lemma select_rows k : forall t, Forall (fun r => len r = k) t -> mapM (select (seq 0 k)) t = Ok t.
Proof. induction 1 as [|r t <- _ IH]; [reflexivity|]. cbn. rewrite select_all. cbn. rewrite IH. reflexivity. Qed.
Lemma column_ok t i out w : Forall (fun r => len r = w) t -> (i < w)%nat -> Forall (fun j => (j < len t)%nat) out -> column_of t i out = Ok (map (fun j => nth i (nth j t []) 0) out).
Proof.
  intros Ht Hi Ho. unfold column_of. apply F2_mapM. induction Ho as [|j out Hj _ IH]; [constructor|]. cbn. constructor; [|exact IH].
  rewrite (nth_error_nth' t [] Hj). apply cell_spec. apply nth_error_nth'. rewrite Forall_forall in Ht. rewrite (Ht (nth j t [])) by (apply nth_In, Hj). exact Hi.
Qed.
Definition table_rows (pr : R -> R) (qs : list quad) (cs : list vec) : list vec := map (fun j => map pr (quad_row (nth j qs {| qa := []; qb := []; qm := []; qn := [] |}) ++ map (fun c => nth j c 0) cs)) (seq 0 (len qs)).
Lemma rows_written pr qs cs t : (forall j, (j < len qs)%nat -> nth j t [] = nth j (map quad_row qs) [] ++ map (fun c => nth j c 0) cs) -> len t = len qs -> map (map pr) t = table_rows pr qs cs.
Proof.
  intros J L. unfold table_rows. apply (nth_ext _ _ [] []); [rewrite !map_length, seq_length; exact L|]. rewrite map_length. intros j Hj. rewrite L in Hj.
  rewrite (nth_indep (map (map pr) t) [] (map pr [])) by (rewrite map_length; lia). rewrite map_nth, J by exact Hj.
  rewrite nth_map_seq by exact Hj. do 2 f_equal. rewrite (nth_indep (map quad_row qs) [] (quad_row {| qa := []; qb := []; qm := []; qn := [] |})) by (rewrite map_length; exact Hj). apply map_nth.
Qed.
Definition noq : quad := {| qa := []; qb := []; qm := []; qn := [] |}.
Lemma quad_back pr k q w : (k = 3 \/ k = 2)%nat -> quad_dim k q -> row_quad false (location_columns (4 * k)) (map pr (quad_row q ++ w)) = Ok (printed_quad pr q).
Proof.
  intros Hk (La & Lb & Lm & Ln). destruct q as [a b m n]. cbn in *. destruct Hk as [K|K]; subst k.
  - destruct a as [|a1 [|a2 [|a3 [|]]]]; try discriminate. destruct b as [|b1 [|b2 [|b3 [|]]]]; try discriminate. destruct m as [|m1 [|m2 [|m3 [|]]]]; try discriminate. destruct n as [|n1 [|n2 [|n3 [|]]]]; try discriminate. reflexivity.
  - destruct a as [|a1 [|a2 [|]]]; try discriminate. destruct b as [|b1 [|b2 [|]]]; try discriminate. destruct m as [|m1 [|m2 [|]]]; try discriminate. destruct n as [|n1 [|n2 [|]]]; try discriminate. reflexivity.
Qed.
Lemma std_split k : (k = 3 \/ k = 2)%nat -> std_part k 0 ++ std_part k 1 ++ std_part k 2 ++ std_part k 3 = std_heads k /\ len (std_heads k) = (4 * k)%nat /\
  dims k (std_part k 0) /\ dims k (std_part k 1) /\ dims k (std_part k 2) /\ dims k (std_part k 3).
Proof. intros [K|K]; subst k; repeat split. Qed.
Lemma quad_row_len k q : quad_dim k q -> len (quad_row q) = (4 * k)%nat.
Proof. intros (A & B & C & D). unfold quad_row. rewrite !app_length. lia. Qed.
Lemma nth_columns pr k q w i : quad_dim k q -> (i < len w)%nat -> nth (4 * k + i) (map pr (quad_row q ++ w)) 0 = pr (nth i w 0).
Proof.
  intros D Hi. rewrite (nth_indep _ 0 (pr 0)) by (rewrite map_length, app_length, (quad_row_len k q D); lia). rewrite map_nth. f_equal. rewrite app_nth2 by (rewrite (quad_row_len k q D); lia). f_equal. rewrite (quad_row_len k q D). lia.
Qed.
Section Round.
Variables (pr : R -> R) (o : ddata) (hd hu : option string) (extra : list (string * vec)) (k : nat).
Notation qs := (locations (dd_survey o)).
Notation cs := (columns o hd hu extra).
Notation heads := (std_heads k ++ names hd hu extra).
Hypothesis Hk : (k = 3 \/ k = 2)%nat.
Hypothesis Hq : Forall (quad_dim k) qs.
Hypothesis Hn : (2 <= len qs)%nat.
Hypothesis Hc : Forall (fun c => len c = len qs) cs.
Hypothesis Hh : NoDup heads.
Hypothesis Ha : apart (map (printed_quad pr) qs).
Definition file_out : xfile := {| x_heads := heads; x_rows := table_rows pr qs cs |}.
Lemma written : write_xyz pr o hd hu extra = Ok file_out.
Proof.
  rewrite write_all. destruct (add_all_ok cs (map quad_row qs)) as (t & E & L & J); [rewrite map_length; exact Hc|]. rewrite map_length in L, J. rewrite E. cbn [bind]. rewrite (rows_written pr qs cs t J L). unfold file_out. f_equal. f_equal. f_equal.
  unfold std_heads. assert (X : exists q qs', qs = q :: qs') by (destruct qs as [|q qs']; [cbn in Hn; lia|eauto]). destruct X as (q & qs' & Eq). rewrite Eq in *. cbn [map List.hd]. inversion Hq as [|? ? Dq]; subst. rewrite (quad_row_len k q Dq). destruct Hk as [K|K]; rewrite K; reflexivity.
Qed.
Lemma names_len : len (names hd hu extra) = len cs.
Proof. unfold names, columns, col, opt_list. rewrite !app_length, !map_length. destruct hd, hu; reflexivity. Qed.
Lemma heads_len : len heads = (4 * k + len cs)%nat.
Proof. rewrite app_length, names_len. destruct (std_split k Hk) as (_ & -> & _). reflexivity. Qed.
Lemma nth_quad j : (j < len qs)%nat -> quad_dim k (nth j qs noq).
Proof. intros H. rewrite Forall_forall in Hq. apply Hq, nth_In, H. Qed.
Lemma rows_width : Forall (fun r => len r = (4 * k + len cs)%nat) (table_rows pr qs cs).
Proof.
  unfold table_rows. apply Forall_map. apply Forall_forall. intros j Hj. apply in_seq in Hj. rewrite map_length, app_length, map_length, (quad_row_len k); [reflexivity|]. apply nth_quad. lia.
Qed.
Lemma rows_len : len (table_rows pr qs cs) = len qs.
Proof. unfold table_rows. rewrite map_length, seq_length. reflexivity. Qed.
Lemma rows_nth j : (j < len qs)%nat -> nth j (table_rows pr qs cs) [] = map pr (quad_row (nth j qs noq) ++ map (fun c => nth j c 0) cs).
Proof.
  intros Hj. unfold table_rows. rewrite nth_map_seq by exact Hj. reflexivity.
Qed.
Lemma rows_back : mapM (row_quad false (location_columns (4 * k))) (table_rows pr qs cs) = Ok (map (printed_quad pr) qs).
Proof.
  apply F2_mapM. unfold table_rows. assert (E : map (printed_quad pr) qs = map (fun j => printed_quad pr (nth j qs noq)) (seq 0 (len qs))).
  { rewrite <- (map_map (fun j => nth j qs noq) (printed_quad pr)). f_equal. apply (nth_ext _ _ noq noq); [rewrite map_length, seq_length; reflexivity|]. intros j Hj. rewrite nth_map_seq by exact Hj. reflexivity. }
  rewrite E. assert (G : forall l, Forall (fun j => (j < len qs)%nat) l -> Forall2 (fun x y => row_quad false (location_columns (4 * k)) x = Ok y)
    (map (fun j => map pr (quad_row (nth j qs {| qa := []; qb := []; qm := []; qn := [] |}) ++ map (fun c => nth j c 0) cs)) l) (map (fun j => printed_quad pr (nth j qs noq)) l)).
  { induction 1 as [|j l Hj _ IH]; [constructor|]. cbn [map]. constructor; [|exact IH]. apply quad_back; [exact Hk|apply nth_quad, Hj]. }
  apply G. apply Forall_forall. intros j Hj. apply in_seq in Hj. lia.
Qed.
Lemma column_back out i h c : Forall (fun j => (j < len qs)%nat) out -> nth_error (names hd hu extra) i = Some h -> nth_error cs i = Some c ->
  (do p <- index_of h heads; column_of (table_rows pr qs cs) p out) = Ok (sorted pr out c).
Proof.
  intros Ho Hi Ei. destruct (std_split k Hk) as (_ & Ls & _). rewrite (index_nodup h heads (4 * k + i) Hh).
  - cbn [bind]. assert (Li : (i < len cs)%nat) by (apply nth_error_Some; congruence). rewrite (column_ok _ (4 * k + i) out (4 * k + len cs) rows_width) by (rewrite ?rows_len; try assumption; lia). f_equal. unfold sorted. apply map_ext_in. intros j Hj.
    rewrite Forall_forall in Ho. specialize (Ho j Hj). rewrite rows_nth by exact Ho. rewrite (nth_columns pr k) by (try (apply nth_quad; exact Ho); rewrite map_length; exact Li). f_equal.
    transitivity (nth i (map (fun c => nth j c 0) cs) ((fun c => nth j c 0) [])); [apply nth_indep; rewrite map_length; exact Li|]. rewrite (map_nth (fun c => nth j c 0)). f_equal. apply nth_error_nth, Ei.
  - rewrite nth_error_app2 by lia. rewrite Ls. replace (4 * k + i - 4 * k)%nat with i by lia. exact Hi.
Qed.
Lemma round : exists s out, from_rows (map (printed_quad pr) qs) = Ok (s, out) /\ write_xyz pr o hd hu extra = Ok file_out /\
  read_xyz file_out (std_part k 0) (std_part k 1) (std_part k 2) (std_part k 3) hd hu (Some (map fst extra)) false =
    Ok (s, option_map (fun _ => sorted pr out (dd_obs o)) hd, option_map (fun _ => sorted pr out (dd_std o)) hu, Some (map (fun e => (fst e, sorted pr out (snd e))) extra)).
Proof.
  destruct (proj2 (accepted (map (printed_quad pr) qs))) as ([s out] & F); [split; [intros Z; apply (f_equal (@List.length _)) in Z; rewrite map_length in Z; cbn in Z; lia|exact Ha]|].
  exists s, out. split; [exact F|]. split; [exact written|]. assert (Ho : Forall (fun j => (j < len qs)%nat) out).
  { pose proof (order_perm _ _ _ F) as Pm. apply Forall_forall. intros j Hj. apply (Permutation_in _ Pm) in Hj. apply in_seq in Hj. rewrite map_length in Hj. lia. }
  destruct (std_split k Hk) as (Sp & Ls & _). unfold read_xyz. cbn [x_heads x_rows file_out].
  replace (std_part k 0 ++ std_part k 1 ++ std_part k 2 ++ std_part k 3 ++ opt_list hd ++ opt_list hu ++ map fst extra) with heads by (rewrite <- Sp; unfold names; rewrite <- !app_assoc; reflexivity).
  rewrite (index_all heads Hh). cbn [bind]. rewrite heads_len. rewrite (select_rows _ _ rows_width). cbn [bind]. rewrite rows_len. replace (len qs <=? 1)%nat with false by (symmetry; apply Nat.leb_gt; lia).
  assert (Kk : (4 * k + len cs - (len (opt_list hd) + len (opt_list hu) + len (map fst extra)) = 4 * k)%nat) by (rewrite <- names_len; unfold names; rewrite !app_length; lia). rewrite Kk, rows_back. cbn [bind]. rewrite F. cbn [bind].
  assert (Cd : forall h, hd = Some h -> (do p <- index_of h heads; column_of (table_rows pr qs cs) p out) = Ok (sorted pr out (dd_obs o))).
  { intros h E. apply (column_back out 0); [exact Ho|unfold names; rewrite E; reflexivity|unfold columns; rewrite E; reflexivity]. }
  assert (Cu : forall h, hu = Some h -> (do p <- index_of h heads; column_of (table_rows pr qs cs) p out) = Ok (sorted pr out (dd_std o))).
  { intros h E. apply (column_back out (len (opt_list hd))); [exact Ho| |].
    - unfold names. rewrite nth_error_app2, Nat.sub_diag, E by lia. reflexivity.
    - unfold columns. replace (len (opt_list hd)) with (len (col hd (dd_obs o))) by (destruct hd; reflexivity). rewrite nth_error_app2, Nat.sub_diag, E by lia. reflexivity. }
  assert (Ed : match hd with Some h => do i <- index_of h heads; do c <- column_of (table_rows pr qs cs) i out; Ok (Some c) | None => Ok None end = Ok (option_map (fun _ => sorted pr out (dd_obs o)) hd)).
  { remember hd as hd' eqn:Eh. destruct hd' as [h|]; [|reflexivity]. specialize (Cd h eq_refl). destruct (index_of h _) as [p|]; [|discriminate]. cbn [bind] in *. rewrite Cd. reflexivity. }
  rewrite Ed. cbn [bind].
  assert (Eu : match hu with Some h => do i <- index_of h heads; do c <- column_of (table_rows pr qs cs) i out; Ok (Some c) | None => Ok None end = Ok (option_map (fun _ => sorted pr out (dd_std o)) hu)).
  { clear Cd Ed. remember hu as hu' eqn:Eh. destruct hu' as [h|]; [|reflexivity]. specialize (Cu h eq_refl). destruct (index_of h _) as [p|]; [|discriminate]. cbn [bind] in *. rewrite Cu. reflexivity. }
  rewrite Eu. cbn [bind].
  assert (Ex : mapM (fun h => do i <- index_of h heads; do c <- column_of (table_rows pr qs cs) i out; Ok (h, c)) (map fst extra) = Ok (map (fun e => (fst e, sorted pr out (snd e))) extra)).
  { apply F2_mapM. assert (G : forall pre l, extra = pre ++ l -> Forall2 (fun h e => (do i <- index_of h heads; do c <- column_of (table_rows pr qs cs) i out; Ok (h, c)) = Ok e) (map fst l) (map (fun e => (fst e, sorted pr out (snd e))) l)); [|apply (G [] extra eq_refl)].
    intros pre l. revert pre. induction l as [|[h c] l IH]; intros pre E; [constructor|]. cbn [map fst snd]. constructor.
    - pose proof (column_back out (len (opt_list hd) + len (opt_list hu) + len pre) h c Ho) as CB. rewrite E in CB |- *.
      assert (A1 : nth_error (names hd hu (pre ++ (h, c) :: l)) (len (opt_list hd) + len (opt_list hu) + len pre) = Some h).
      { unfold names. rewrite nth_error_app2 by lia. rewrite nth_error_app2 by lia. replace (len (opt_list hd) + len (opt_list hu) + len pre - len (opt_list hd) - len (opt_list hu))%nat with (len (map (@fst string vec) pre)) by (rewrite map_length; lia).
        rewrite map_app, nth_error_app2, Nat.sub_diag by lia. reflexivity. }
      assert (A2 : nth_error (columns o hd hu (pre ++ (h, c) :: l)) (len (opt_list hd) + len (opt_list hu) + len pre) = Some c).
      { unfold columns. replace (len (opt_list hd)) with (len (col hd (dd_obs o))) by (destruct hd; reflexivity). replace (len (opt_list hu)) with (len (col hu (dd_std o))) by (destruct hu; reflexivity).
        rewrite nth_error_app2 by lia. rewrite nth_error_app2 by lia. replace (len (col hd (dd_obs o)) + len (col hu (dd_std o)) + len pre - len (col hd (dd_obs o)) - len (col hu (dd_std o)))%nat with (len (map (@snd string vec) pre)) by (rewrite map_length; lia).
        rewrite map_app, nth_error_app2, Nat.sub_diag by lia. reflexivity. }
      specialize (CB A1 A2). destruct (index_of h _) as [p|]; [|discriminate]. cbn [bind] in *. rewrite CB. reflexivity.
    - apply (IH (pre ++ [(h, c)])). rewrite E, <- app_assoc. reflexivity. }
  rewrite Ex. cbn [bind]. reflexivity.
Qed.
End Round.
Lemma round_trip pr o hd hu extra k : (k = 3 \/ k = 2)%nat -> Forall (quad_dim k) (locations (dd_survey o)) -> (2 <= len (locations (dd_survey o)))%nat ->
  Forall (fun c => len c = len (locations (dd_survey o))) (columns o hd hu extra) -> NoDup (std_heads k ++ names hd hu extra) -> apart (map (printed_quad pr) (locations (dd_survey o))) ->
  exists f s out, from_rows (map (printed_quad pr) (locations (dd_survey o))) = Ok (s, out) /\ write_xyz pr o hd hu extra = Ok f /\
    read_xyz f (std_part k 0) (std_part k 1) (std_part k 2) (std_part k 3) hd hu (Some (map fst extra)) false =
    Ok (s, option_map (fun _ => sorted pr out (dd_obs o)) hd, option_map (fun _ => sorted pr out (dd_std o)) hu, Some (map (fun e => (fst e, sorted pr out (snd e))) extra)).
Proof. intros A B C D E F. exists (file_out pr o hd hu extra k). apply round; assumption. Qed.
