(** Gradient files: round trip. *)
From Verif Require Import Py Vec PfIO SpecPfIO PfIOFacts.
Local Open Scope R_scope.

(** Strings without a character. *)
Fixpoint free (c : ascii) (s : string) : bool := match s with EmptyString => true | String a s' => negb (Ascii.eqb a c) && free c s' end.
Lemma split_free c s : free c s = true -> split_on c s = [s].
Proof. induction s as [|a s IH]; intros H; [reflexivity|]. cbn in H. apply andb_prop in H. destruct H as [H1 H2]. cbn. destruct (Ascii.eqb a c); [discriminate|]. rewrite IH by exact H2. reflexivity. Qed.
Lemma split_app c a b : free c a = true -> split_on c (String.append a (String c b)) = a :: split_on c b.
Proof.
  induction a as [|x a IH]; intros H; cbn.
  - rewrite Ascii.eqb_refl. reflexivity.
  - cbn in H. apply andb_prop in H. destruct H as [H1 H2]. destruct (Ascii.eqb x c); [discriminate|]. rewrite IH by exact H2. reflexivity.
Qed.
Lemma free_app c a b : free c a = true -> free c b = true -> free c (String.append a b) = true.
Proof. induction a as [|x a IH]; intros H1 H2; [exact H2|]. cbn in *. apply andb_prop in H1. destruct H1 as [H0 H1]. rewrite H0, IH by assumption. reflexivity. Qed.
Lemma free_concat c sep us : free c sep = true -> Forall (fun u => free c u = true) us -> free c (String.concat sep us) = true.
Proof.
  intros Hs. induction 1 as [|u us Hu _ IH]; [reflexivity|]. destruct us as [|v us]; [exact Hu|]. change (String.concat sep (u :: v :: us)) with (String.append u (String.append sep (String.concat sep (v :: us)))).
  apply free_app; [exact Hu|]. apply free_app; [exact Hs|exact IH].
Qed.
Lemma comma_app a b : comma_to_space (String.append a b) = String.append (comma_to_space a) (comma_to_space b).
Proof. induction a as [|x a IH]; [reflexivity|]. cbn. rewrite IH. reflexivity. Qed.
Lemma comma_free a : free "," a = true -> comma_to_space a = a.
Proof. induction a as [|x a IH]; intros H; [reflexivity|]. cbn in *. apply andb_prop in H. destruct H as [H1 H2]. destruct (Ascii.eqb x ","); [discriminate|]. rewrite IH by exact H2. reflexivity. Qed.
Lemma comma_concat us : Forall (fun u => free "," u = true) us -> comma_to_space (String.concat "," us) = String.concat " " us.
Proof.
  induction 1 as [|u us Hu _ IH]; [reflexivity|]. destruct us as [|v us]; [apply comma_free, Hu|].
  change (String.concat "," (u :: v :: us)) with (String.append u (String "," (String.concat "," (v :: us)))).
  change (String.concat " " (u :: v :: us)) with (String.append u (String " " (String.concat " " (v :: us)))).
  rewrite comma_app, (comma_free u Hu). cbn [comma_to_space Ascii.eqb Bool.eqb]. rewrite IH. reflexivity.
Qed.
Lemma split_concat us : us <> [] -> Forall (fun u => free " " u = true) us -> split_on " " (String.concat " " us) = us.
Proof.
  intros Ne H. induction H as [|u us Hu _ IH]; [contradiction|]. destruct us as [|v us]; [apply split_free, Hu|].
  change (String.concat " " (u :: v :: us)) with (String.append u (String " " (String.concat " " (v :: us)))). rewrite split_app by exact Hu. f_equal. apply IH. discriminate.
Qed.
Lemma ubc_clean u : In u ubc_types -> free "=" u = true /\ free "!" u = true /\ free "," u = true /\ free " " u = true /\ negb (String.eqb u "") = true.
Proof. intros [<-|[<-|[<-|[<-|[<-|[<-|[<-|[]]]]]]]]; repeat split. Qed.
Lemma header_back us : us <> [] -> Forall (fun u => In u ubc_types) us -> header_comps (Text (String.append "datacomp=" (String.concat "," us))) = Ok us.
Proof.
  intros Ne H. unfold header_comps. change (String.append "datacomp=" (String.concat "," us)) with (String.append "datacomp" (String "=" (String.concat "," us))).
  rewrite split_app by reflexivity. assert (F : forall c, free c "," = true -> (forall u, In u ubc_types -> free c u = true) -> free c (String.concat "," us) = true).
  { intros c Hc Hu. apply free_concat; [exact Hc|]. eapply Forall_impl; [|exact H]. exact Hu. }
  rewrite (split_free "=") by (apply F; [reflexivity|intros u Hu; apply (ubc_clean u Hu)]). cbn iota beta. f_equal.
  rewrite (split_free "!") by (apply F; [reflexivity|intros u Hu; apply (ubc_clean u Hu)]). cbn [hd]. rewrite comma_concat by (eapply Forall_impl; [|exact H]; intros u Hu; apply (ubc_clean u Hu)).
  rewrite split_concat; [|exact Ne|eapply Forall_impl; [|exact H]; intros u Hu; apply (ubc_clean u Hu)].
  clear Ne F. induction H as [|u us Hu _ IH]; [reflexivity|]. cbn [filter]. destruct (ubc_clean u Hu) as (_ & _ & _ & _ & Q). rewrite Q, IH. reflexivity.
Qed.

(** Names and factors. *)
Lemma names c : In c simpeg_types -> exists u k, to_ubc c = Ok (u, k) /\ from_ubc u = Ok (c, k) /\ In u ubc_types /\ (k = 1 \/ k = -1).
Proof.
  intros H. repeat (destruct H as [<-|H]; [eexists _, _; split; [reflexivity|]; split; [reflexivity|]; split; [cbn; tauto|]; first [left; reflexivity|right; reflexivity]|]). destruct H.
Qed.
Lemma converted comps : Forall (fun c => In c simpeg_types) comps -> exists us ks, convert comps = (us, Ok ks) /\ mapM from_ubc us = Ok (combine comps ks) /\
  Forall (fun u => In u ubc_types) us /\ Forall (fun k => k = 1 \/ k = -1) ks /\ len us = len comps /\ len ks = len comps.
Proof.
  induction 1 as [|c comps Hc _ IH]; [exists [], []; repeat split; constructor|]. destruct IH as (us & ks & E & M & U & K & L1 & L2). destruct (names c Hc) as (u & k & T & Fr & Iu & Pk).
  exists (u :: us), (k :: ks). cbn [convert]. rewrite T, E. cbn [bind mapM combine]. rewrite Fr. cbn [bind]. rewrite M. cbn [bind]. split; [reflexivity|]. split; [reflexivity|].
  split; [constructor; assumption|]. split; [constructor; assumption|]. cbn. split; congruence.
Qed.
Lemma combine_fst {A B} : forall (a : list A) (b : list B), len a = len b -> map fst (combine a b) = a.
Proof. induction a as [|x a IH]; intros [|y b] L; try discriminate; [reflexivity|]. cbn. f_equal. apply IH. injection L. trivial. Qed.
Lemma combine_snd {A B} : forall (a : list A) (b : list B), len a = len b -> map snd (combine a b) = b.
Proof. induction a as [|x a IH]; intros [|y b] L; try discriminate; [reflexivity|]. cbn. f_equal. apply IH. injection L. trivial. Qed.

(** Rows. *)
Lemma rows_length n k : forall v, len (rows_of n k v) = n.
Proof. induction n as [|n IH]; intros v; [reflexivity|]. cbn. f_equal. apply IH. Qed.
Lemma rows_each n k : forall v, len v = (n * k)%nat -> Forall (fun r => len r = k) (rows_of n k v).
Proof.
  induction n as [|n IH]; intros v L; [constructor|]. cbn in *. constructor; [rewrite firstn_length, L; lia|]. apply IH. rewrite skipn_length, L. lia.
Qed.
Lemma rows_concat n k : forall v, len v = (n * k)%nat -> List.concat (rows_of n k v) = v.
Proof.
  induction n as [|n IH]; intros v L; [destruct v; [reflexivity|discriminate]|]. cbn in *. rewrite IH by (rewrite skipn_length, L; lia). apply firstn_skipn.
Qed.
Lemma concat_printed P rows : List.concat (map (printed P) rows) = printed P (List.concat rows).
Proof. unfold printed. symmetry. apply concat_map. Qed.
Lemma scale_back P ks r : sound_printer P -> Forall (fun k => k = 1 \/ k = -1) ks -> len r = len ks -> scale_row ks (printed P (scale_row ks r)) = printed P r.
Proof.
  intros SP HK. revert r. induction HK as [|k ks Hk _ IH]; intros [|x r] L; try discriminate; [reflexivity|]. injection L as L. unfold scale_row in *. cbn. f_equal; [|apply IH, L].
  destruct x as [x|]; [|reflexivity]. cbn. f_equal. destruct Hk as [E|E]; rewrite E; [rewrite !Rmult_1_l; reflexivity|].
  replace (-1 * x) with (- x) by ring. rewrite (exp_opp P SP). ring.
Qed.
Lemma scale_length ks : forall r, len r = len ks -> len (scale_row ks r) = len ks.
Proof. induction ks as [|k ks IH]; intros [|x r] L; try discriminate; [reflexivity|]. cbn. f_equal. apply IH. injection L. trivial. Qed.
Lemma printed_app P a b : printed P (a ++ b) = printed P a ++ printed P b.
Proof. apply map_app. Qed.
Lemma firstn_exact {A} (a b : list A) n : len a = n -> firstn n (a ++ b) = a.
Proof. intros <-. rewrite firstn_app, Nat.sub_diag, firstn_all. cbn. apply app_nil_r. Qed.
Lemma skipn_exact {A} (a b : list A) n : len a = n -> skipn n (a ++ b) = b.
Proof. intros <-. rewrite skipn_app, skipn_all, Nat.sub_diag. reflexivity. Qed.
Lemma row3_ok l x : len l = 3%nat -> row3 (l ++ x) = Ok l.
Proof. intros L. unfold row3. rewrite firstn_exact by exact L. destruct l as [|a [|b [|c [|]]]]; try discriminate. reflexivity. Qed.
Lemma entry_obs P k ks l o : sound_printer P -> Forall (fun k => k = 1 \/ k = -1) ks -> len ks = k -> len l = 3%nat -> len o = k ->
  gg_entry k ks (printed P (l ++ scale_row ks o)) = Ok (printed P l, Some (printed P o), None).
Proof.
  intros SP HK Lk Ll Lo. assert (L3 : len (printed P l) = 3%nat) by (rewrite printed_length; exact Ll). unfold gg_entry. rewrite printed_app, row3_ok by exact L3. cbn [bind].
  rewrite app_length, L3, printed_length, scale_length by congruence. rewrite Lk, Nat.eqb_refl. rewrite skipn_exact by exact L3. rewrite scale_back by (try assumption; congruence). reflexivity.
Qed.
Lemma entry_both P k ks l o s : sound_printer P -> Forall (fun k => k = 1 \/ k = -1) ks -> len ks = k -> k <> 0%nat -> len l = 3%nat -> len o = k -> len s = k ->
  gg_entry k ks (printed P ((l ++ scale_row ks o) ++ s)) = Ok (printed P l, Some (printed P o), Some (printed P s)).
Proof.
  intros SP HK Lk K0 Ll Lo Ls. assert (L3 : len (printed P l) = 3%nat) by (rewrite printed_length; exact Ll). assert (Lso : len (printed P (scale_row ks o)) = k) by (rewrite printed_length, scale_length; congruence).
  unfold gg_entry. rewrite !printed_app, <- app_assoc, row3_ok by exact L3. cbn [bind]. rewrite !app_length, L3, Lso, printed_length, Ls.
  replace (3 + (k + k) =? 3 + k)%nat with false by (symmetry; apply Nat.eqb_neq; lia). replace (3 + (k + k) =? 3 + k * 2)%nat with true by (symmetry; apply Nat.eqb_eq; lia).
  rewrite (skipn_exact (printed P l)) by exact L3. rewrite firstn_exact by exact Lso. rewrite scale_back by (try assumption; congruence).
  replace (3 + k)%nat with (len (printed P l ++ printed P (scale_row ks o))) by (rewrite app_length; lia). rewrite app_assoc, skipn_exact by reflexivity. reflexivity.
Qed.
Lemma gg_rows_obs P k ks : sound_printer P -> Forall (fun k => k = 1 \/ k = -1) ks -> len ks = k -> forall locs rows, points locs -> len rows = len locs -> Forall (fun r => len r = k) rows ->
  gg_rows k ks (len locs) (map (row_line P) (zip2 (@app num) locs (map (scale_row ks) rows))) = Ok (zip2 (fun l o => (printed P l, Some (printed P o), None)) locs rows).
Proof.
  intros SP HK Lk. induction locs as [|l locs IH]; intros [|o rows] HP L HR; try discriminate; [reflexivity|]. inversion HP; inversion HR; subst. injection L as L.
  cbn [len map zip2 gg_rows]. rewrite floats_row. cbn [bind]. rewrite entry_obs by (try assumption; reflexivity). cbn [bind]. rewrite IH by assumption. reflexivity.
Qed.
Lemma gg_rows_both P k ks : sound_printer P -> Forall (fun k => k = 1 \/ k = -1) ks -> len ks = k -> k <> 0%nat -> forall locs rows srows, points locs -> len rows = len locs -> len srows = len locs ->
  Forall (fun r => len r = k) rows -> Forall (fun r => len r = k) srows ->
  gg_rows k ks (len locs) (map (row_line P) (zip2 (@app num) (zip2 (@app num) locs (map (scale_row ks) rows)) srows))
  = Ok (zip2 (fun e s => (e, Some (printed P s))) (zip2 (fun l o => (printed P l, Some (printed P o))) locs rows) srows).
Proof.
  intros SP HK Lk K0. induction locs as [|l locs IH]; intros [|o rows] [|s srows] HP L Ls HR HS; try discriminate; [reflexivity|]. inversion HP; inversion HR; inversion HS; subst. injection L as L. injection Ls as Ls.
  cbn [len map zip2 gg_rows]. rewrite floats_row. cbn [bind]. rewrite entry_both by (try assumption; reflexivity). cbn [bind]. rewrite IH by assumption. reflexivity.
Qed.

(** The lists read back. *)
Lemma zip_locs1 P : forall (locs rows : list (list num)), len rows = len locs ->
  map (fun e => fst (fst e)) (zip2 (fun l o => (printed P l, Some (printed P o), @None (list num))) locs rows) = printed_table P locs /\
  map (fun e => snd (fst e)) (zip2 (fun l o => (printed P l, Some (printed P o), @None (list num))) locs rows) = map (fun o => Some (printed P o)) rows /\
  map snd (zip2 (fun l o => (printed P l, Some (printed P o), @None (list num))) locs rows) = map (fun _ => None) rows.
Proof. induction locs as [|l locs IH]; intros [|o rows] L; try discriminate; [repeat split|]. injection L as L. destruct (IH rows L) as (A & B & C). cbn. rewrite A, B, C. repeat split. Qed.
Lemma zip_locs2 P : forall (locs rows srows : list (list num)), len rows = len locs -> len srows = len locs ->
  let z := zip2 (fun e s => (e, Some (printed P s))) (zip2 (fun l o => (printed P l, Some (printed P o))) locs rows) srows in
  map (fun e => fst (fst e)) z = printed_table P locs /\ map (fun e => snd (fst e)) z = map (fun o => Some (printed P o)) rows /\ map snd z = map (fun o => Some (printed P o)) srows.
Proof.
  induction locs as [|l locs IH]; intros [|o rows] [|s srows] L Ls; try discriminate; [repeat split|]. injection L as L. injection Ls as Ls. destruct (IH rows srows L Ls) as (A & B & C). cbn in *. rewrite A, B, C. repeat split.
Qed.
Lemma present_all P rows : rows <> [] -> present (map (fun o => Some (printed P o)) rows) = Some (printed P (List.concat rows)).
Proof.
  intros Ne. unfold present. assert (E : flat_map (fun x : option (list num) => match x with Some r => [r] | None => [] end) (map (fun o => Some (printed P o)) rows) = map (printed P) rows).
  { clear Ne. induction rows as [|r rows IH]; [reflexivity|]. cbn. rewrite IH. reflexivity. }
  rewrite E. destruct rows as [|r rows]; [contradiction|]. rewrite <- concat_printed. reflexivity.
Qed.
Lemma present_none (rows : list (list num)) : present (map (fun _ => @None (list num)) rows) = None.
Proof. unfold present. assert (E : flat_map (fun x : option (list num) => match x with Some r => [r] | None => [] end) (map (fun _ => None) rows) = []) by (induction rows as [|r rows IH]; [reflexivity|exact IH]). rewrite E. reflexivity. Qed.
Lemma exists_nonzero l : some_nonzero l -> existsb (fun x => negb (zero x)) l = true.
Proof. intros (x & Hin & Hx). apply existsb_exists. exists x. split; [exact Hin|]. destruct (zero x) eqn:E; [|reflexivity]. apply zero_iff in E. contradiction. Qed.
Lemma exists_zero l : existsb (fun x => negb (zero x)) l = false -> all_zero l.
Proof.
  induction l as [|x l IH]; intros H; [constructor|]. cbn in H. apply orb_false_elim in H. destruct H as [H1 H2]. constructor; [|apply IH, H2]. apply zero_iff. destruct (zero x); [reflexivity|discriminate].
Qed.
Lemma printed_zero P l : sound_printer P -> all_zero l -> printed P l = repeat (Some 0) (len l).
Proof. intros SP. induction 1 as [|x l Hx _ IH]; [reflexivity|]. subst x. cbn. f_equal; [|exact IH]. f_equal. apply (exp_zero P SP). reflexivity. Qed.
Lemma printed_exists P l : sound_printer P -> existsb (fun x => negb (zero x)) (printed P l) = existsb (fun x => negb (zero x)) l.
Proof.
  intros SP. induction l as [|x l IH]; [reflexivity|]. cbn [printed map existsb]. fold (printed P l). rewrite IH. f_equal. destruct x as [r|]; [|reflexivity]. cbn. f_equal.
  destruct (Req_EM_T (p_exp P r) 0) as [E|E], (Req_EM_T r 0) as [E'|E']; try reflexivity; exfalso; [apply E', (exp_zero P SP), E|apply E; subst r; apply (exp_zero P SP); reflexivity].
Qed.
Lemma nD_many locs comps : nD (one locs comps) = (len locs * len comps)%nat.
Proof. unfold nD, one, r_nD. cbn. lia. Qed.
Lemma make_gg locs comps obs fl wd : finite obs -> len obs = (len locs * len comps)%nat -> len fl = (len locs * len comps)%nat -> Forall nonneg_num fl ->
  match wd with Some w => w | None => repeat (Some 0) (len locs * len comps) end = fl ->
  exists d', make_data None (one locs comps) (Some obs) wd = Ok d' /\ d_field d' = None /\ d_rxs d' = one locs comps /\ d_obs d' = obs /\ stdev d' = Ok fl.
Proof.
  intros F Lo Lf Nn U. unfold make_data. rewrite nD_many, Lo, Nat.eqb_refl. cbn [negb].
  assert (G : forall q, q = fl -> exists d', (if negb (len q =? len locs * len comps)%nat then Err ValueError else if existsb negative q then Err ValueError
    else Ok {| d_field := None; d_rxs := one locs comps; d_obs := obs; d_rel := Some (repeat (Some 0) (len locs * len comps)); d_floor := Some q |}) = Ok d' /\
    d_field d' = None /\ d_rxs d' = one locs comps /\ d_obs d' = obs /\ stdev d' = Ok fl); [|apply G; destruct wd; exact U].
  clear U. intros q Eq. subst q. rewrite Lf, Nat.eqb_refl. cbn [negb]. rewrite nonneg_not by exact Nn.
  eexists. split; [reflexivity|]. split; [reflexivity|]. split; [reflexivity|]. split; [reflexivity|]. rewrite <- Lo. apply stdev_floor; [exact F|congruence|exact Nn].
Qed.

Section Gg.
Variables (P : printer) (d : pdata) (locs : list (list num)) (comps : list string).
Hypothesis SP : sound_printer P.
Hypothesis SD : sound_data d.
Hypothesis HP : points locs.
Hypothesis HF : finite (d_obs d).
Hypothesis HN : some_nonzero (d_obs d).
Hypothesis HC : Forall (fun c => In c simpeg_types) comps.
Hypothesis E : d_rxs d = one locs comps.
Lemma gg_len : len (d_obs d) = (len locs * len comps)%nat.
Proof. destruct SD as (L & _). rewrite E, nD_many in L. exact L. Qed.
Lemma gg_some : locs <> [] /\ comps <> [].
Proof. pose proof gg_len as L. destruct HN as (x & Hin & _). split; intros Z; rewrite Z in L; cbn in L; rewrite ?Nat.mul_0_r in L; destruct (d_obs d); try contradiction; discriminate. Qed.
(** The file written. *)
Definition gg_table (ks : list R) (s : list num) : list (list num) :=
  let n := len locs in let k := len comps in
  let t := zip2 (@app num) locs (map (scale_row ks) (rows_of n k (d_obs d))) in
  if existsb (fun x => negb (zero x)) s then zip2 (@app num) t (rows_of n k s) else t.
Lemma gg_written us ks s : convert comps = (us, Ok ks) -> len us = len comps -> stdev d = Ok s -> len s = len (d_obs d) ->
  snd (write_gg P d) = Ok ([Text (String.append "datacomp=" (String.concat "," us)); Toks [TInt (len locs)]] ++ map (row_line P) (gg_table ks s)).
Proof.
  intros Ec Lu Es Ls. pose proof gg_len as Lo. unfold write_gg. rewrite E. unfold one at 1. cbn [r_comps r_locs]. rewrite Ec. cbn [snd bind].
  rewrite (exists_nonzero _ HN), Lu. unfold reshape_rows at 1. rewrite Lo, Nat.eqb_refl. cbn [bind]. unfold add_columns at 1. rewrite map_length, rows_length, Nat.eqb_refl. cbn [bind]. rewrite Es. cbn [bind].
  unfold gg_table. destruct (existsb (fun x => negb (zero x)) s) eqn:Ez; [|reflexivity]. unfold reshape_rows. rewrite Ls, Lo, Nat.eqb_refl. cbn [bind]. unfold add_columns.
  rewrite zip2_length by (rewrite map_length, rows_length; reflexivity). rewrite rows_length, Nat.eqb_refl. reflexivity.
Qed.
Lemma gg_round : exists f d', snd (write_gg P d) = Ok f /\ read_gg f = Ok d' /\ d_field d' = None /\ same_printed P d d' comps.
Proof.
  pose proof gg_len as Lo. destruct gg_some as [Nl Nc]. destruct (stdev_ok d SD) as (s & Es & Ls & Ns). destruct (converted comps HC) as (us & ks & Ec & M & U & K & L1 & L2).
  assert (Ne : us <> []) by (intros Z; subst us; destruct comps; [contradiction|discriminate]).
  pose proof (rows_each (len locs) (len comps) (d_obs d) Lo) as RO. assert (Ls' : len s = (len locs * len comps)%nat) by congruence. pose proof (rows_each (len locs) (len comps) s Ls') as RS.
  set (wd := if existsb (fun x => negb (zero x)) s then Some (printed P s) else None).
  destruct (make_gg (printed_table P locs) comps (printed P (d_obs d)) (printed P s) wd) as (d' & MK & F1 & F2 & F3 & F4); rewrite ?printed_length, ?table_length; try assumption;
    [apply printed_finite; exact HF|apply printed_nonneg; assumption| |].
  { unfold wd. destruct (existsb (fun x => negb (zero x)) s) eqn:Ez; [reflexivity|]. rewrite printed_zero by (try exact SP; apply exists_zero, Ez). rewrite Ls'. reflexivity. }
  eexists. exists d'. split; [apply (gg_written us ks s Ec L1 Es Ls)|]. split; [|split; [exact F1|]].
  - unfold read_gg. cbn [app tl]. rewrite (header_back us Ne U). cbn [bind]. rewrite M. cbn [bind next tokens int_of]. rewrite (combine_snd comps ks), (combine_fst comps ks), L1 by congruence.
    assert (Rn : rows_of (len locs) (len comps) (d_obs d) <> []) by (intros Z; apply (f_equal (@List.length _)) in Z; rewrite rows_length in Z; destruct locs; [contradiction|discriminate]).
    assert (Rs : rows_of (len locs) (len comps) s <> []) by (intros Z; apply (f_equal (@List.length _)) in Z; rewrite rows_length in Z; destruct locs; [contradiction|discriminate]).
    assert (K0 : len comps <> 0%nat) by (intros Z; destruct comps; [contradiction|discriminate]).
    unfold gg_table. unfold wd in MK. destruct (existsb (fun x => negb (zero x)) s) eqn:Ez.
    + rewrite (gg_rows_both P (len comps) ks) by (rewrite ?rows_length; try assumption; try reflexivity). cbn [bind].
      destruct (zip_locs2 P locs (rows_of (len locs) (len comps) (d_obs d)) (rows_of (len locs) (len comps) s)) as (A & B & C); rewrite ?rows_length; try reflexivity. rewrite A, B, C.
      rewrite !present_all, !rows_concat by assumption. exact MK.
    + rewrite (gg_rows_obs P (len comps) ks) by (rewrite ?rows_length; try assumption; reflexivity). cbn [bind].
      destruct (zip_locs1 P locs (rows_of (len locs) (len comps) (d_obs d))) as (A & B & C); rewrite ?rows_length; try reflexivity. rewrite A, B, C.
      rewrite present_all, rows_concat, present_none by assumption. exact MK.
  - exists {| r_locs := locs; r_comps := comps |}, s. split; [exact E|]. split; [exact F2|]. split; [exact F3|]. split; [exact Es|exact F4].
Qed.
End Gg.
