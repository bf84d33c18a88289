(** UBC files: writing again, blank lines, truncated files, counterexamples. *)
From Verif Require Import Py Vec PfIO SpecPfIO PfIOFacts PfIOFacts2.
Local Open Scope R_scope.

(** Writing what was read. *)
Lemma row_again P r r' : printed P r = printed P r' -> row_line P r = row_line P r'.
Proof. intros H. unfold row_line. rewrite <- (map_map (nmap (p_exp P)) TNum r), <- (map_map (nmap (p_exp P)) TNum r'). unfold printed in H. rewrite H. reflexivity. Qed.
Lemma rows_again P : forall t t', printed_table P t = printed_table P t' -> map (row_line P) t = map (row_line P) t'.
Proof. induction t as [|r t IH]; intros [|r' t'] H; try discriminate; [reflexivity|]. injection H as H1 H2. cbn. f_equal; [apply row_again, H1|apply IH, H2]. Qed.
Lemma table_again P t : sound_printer P -> printed_table P (printed_table P t) = printed_table P t.
Proof. intros SP. unfold printed_table. rewrite map_map. apply map_ext. intros r. apply printed_again, SP. Qed.
Lemma table_app1 P : forall t c, printed_table P (zip2 app1 t c) = zip2 app1 (printed_table P t) (printed P c).
Proof. induction t as [|r t IH]; intros [|x c]; try reflexivity. cbn. f_equal; [apply printed_app|apply IH]. Qed.
Lemma table_app P : forall t c, printed_table P (zip2 (@app num) t c) = zip2 (@app num) (printed_table P t) (printed_table P c).
Proof. induction t as [|r t IH]; intros [|x c]; try reflexivity. cbn. f_equal; [apply printed_app|apply IH]. Qed.
Lemma opp_again P l : sound_printer P -> printed P (map (nmap Ropp) (printed P l)) = printed P (map (nmap Ropp) l).
Proof. intros SP. unfold printed. rewrite !map_map. apply map_ext. intros [r|]; [|reflexivity]. cbn. rewrite !(exp_opp P SP), (exp_again P SP). reflexivity. Qed.
Lemma printed_many P locs comps comps' : len comps = len comps' -> nD (one (printed_table P locs) comps) = nD (one locs comps').
Proof. intros H. rewrite !nD_many, table_length, H. reflexivity. Qed.
Lemma grav_again P d d' locs comps comps' : sound_printer P -> d_rxs d = one locs comps' -> len comps = len comps' -> same_printed P d d' comps -> write_grav P d' = write_grav P d.
Proof.
  intros SP E L (rx & s & E1 & E2 & E3 & E4 & E5). rewrite E in E1. injection E1 as <-. cbn [r_locs] in E2. unfold write_grav. rewrite E2, E, E3, E4, E5, (printed_many P locs comps comps' L).
  unfold one. cbn [one_receiver bind r_locs]. unfold add_column. rewrite !map_length, table_length, printed_length.
  destruct (len locs =? len (d_obs d))%nat eqn:Q; [|reflexivity]. apply Nat.eqb_eq in Q. cbn [bind]. rewrite !zip2_length by (rewrite ?table_length, map_length, ?printed_length; exact Q). rewrite printed_length, table_length.
  destruct (len locs =? len s)%nat; [|reflexivity]. cbn [bind]. do 2 f_equal. apply rows_again. rewrite !table_app1, table_again, printed_again, opp_again by exact SP. reflexivity.
Qed.
Lemma mag_again P d d' locs comps comps' amp inc dec : sound_printer P -> d_rxs d = one locs comps' -> len comps = len comps' -> d_field d = Some (amp, inc, dec) ->
  d_field d' = Some (printed2 P amp, printed2 P inc, printed2 P dec) -> same_printed P d d' comps -> write_mag P d' = write_mag P d.
Proof.
  intros SP E L F F' (rx & s & E1 & E2 & E3 & E4 & E5). rewrite E in E1. injection E1 as <-. cbn [r_locs] in E2. unfold write_mag. rewrite E2, E, E3, E4, E5, F, F', (printed_many P locs comps comps' L).
  unfold one. cbn [one_receiver bind r_locs]. unfold add_column. rewrite table_length, !printed_length.
  destruct (len locs =? len (d_obs d))%nat eqn:Q; [|reflexivity]. apply Nat.eqb_eq in Q. cbn [bind]. rewrite !zip2_length by (rewrite ?table_length, ?printed_length; exact Q). rewrite table_length.
  destruct (len locs =? len s)%nat; [|reflexivity]. cbn [bind]. f_equal.
  assert (A : forall x, fix2 P (printed2 P x) = fix2 P x) by (intros [x|]; [unfold fix2, printed2; cbn; rewrite (fix2_again P SP); reflexivity|reflexivity]). rewrite !A. f_equal. apply rows_again.
  rewrite !table_app1, table_again, !printed_again by exact SP. reflexivity.
Qed.
Lemma rows_printed P n k : forall v, rows_of n k (printed P v) = printed_table P (rows_of n k v).
Proof. induction n as [|n IH]; intros v; [reflexivity|]. cbn. unfold printed at 1 2. rewrite firstn_map, skipn_map. f_equal. apply IH. Qed.
Lemma scale_again P ks : sound_printer P -> Forall (fun k => k = 1 \/ k = -1) ks -> forall r, printed P (scale_row ks (printed P r)) = printed P (scale_row ks r).
Proof.
  intros SP HK. induction HK as [|k ks Hk _ IH]; intros [|x r]; try reflexivity. cbn. f_equal; [|apply IH]. destruct x as [x|]; [|reflexivity]. cbn. f_equal.
  destruct Hk as [E|E]; rewrite E; [rewrite !Rmult_1_l; apply (exp_again P SP)|]. replace (-1 * x) with (- x) by ring. replace (-1 * p_exp P x) with (- p_exp P x) by ring. rewrite !(exp_opp P SP), (exp_again P SP). reflexivity.
Qed.
Lemma to_ubc_pm c u k : to_ubc c = Ok (u, k) -> k = 1 \/ k = -1.
Proof.
  unfold to_ubc. destruct (index_of c simpeg_types) as [i|] eqn:E; [|discriminate]. cbn [bind]. intros H. injection H as _ <-. assert (B : (i < 7)%nat).
  { assert (G : forall l j, index_of c l = Ok j -> (j < len l)%nat); [|apply (G _ _ E)]. induction l as [|a l IH]; intros j Q; [discriminate|]. cbn in Q. destruct (String.eqb a c) eqn:Ea.
    - injection Q as <-. cbn. lia.
    - rewrite ?Ea in Q. destruct (index_of c l) as [j'|] eqn:Ej; [|discriminate]. cbn in Q. injection Q as <-. specialize (IH _ eq_refl). cbn. lia. }
  do 7 (destruct i as [|i]; [cbn; auto|]). lia.
Qed.
Lemma convert_pm comps : forall us ks, convert comps = (us, Ok ks) -> Forall (fun k => k = 1 \/ k = -1) ks.
Proof.
  induction comps as [|c comps IH]; intros us ks H; cbn in H; [injection H as _ <-; constructor|]. destruct (to_ubc c) as [[u k]|] eqn:E; [|discriminate]. destruct (convert comps) as [us' ks'] eqn:Ec.
  destruct ks' as [ks'|]; [|discriminate]. injection H as _ <-. constructor; [apply (to_ubc_pm _ _ _ E)|apply (IH _ _ eq_refl)].
Qed.
Lemma gg_again P d d' locs comps : sound_printer P -> d_rxs d = one locs comps -> same_printed P d d' comps -> snd (write_gg P d') = snd (write_gg P d).
Proof.
  intros SP E (rx & s & E1 & E2 & E3 & E4 & E5). rewrite E in E1. injection E1 as <-. cbn [r_locs] in E2. unfold write_gg. rewrite E2, E, E3, E4, E5. unfold one. cbn [r_comps r_locs].
  destruct (convert comps) as [us ks] eqn:Ec. cbn [snd]. destruct ks as [ks|]; [|reflexivity]. cbn [bind]. pose proof (convert_pm _ _ _ Ec) as HK. rewrite table_length, !printed_exists by exact SP.
  unfold reshape_rows, add_columns. rewrite !printed_length.
  assert (Sc : forall v, printed_table P (map (scale_row ks) (rows_of (len locs) (len us) (printed P v))) = printed_table P (map (scale_row ks) (rows_of (len locs) (len us) v))).
  { intros v. rewrite rows_printed. unfold printed_table. rewrite !map_map. apply map_ext. intros r. apply scale_again; assumption. }
  destruct (existsb (fun x => negb (zero x)) (d_obs d)).
  - destruct (len (d_obs d) =? len locs * len us)%nat; [|reflexivity]. cbn [bind]. rewrite table_length, !map_length, !rows_length, Nat.eqb_refl. cbn [bind].
    destruct (existsb (fun x => negb (zero x)) s).
    + destruct (len s =? len locs * len us)%nat; [|reflexivity]. cbn [bind]. rewrite !zip2_length, table_length, !rows_length, Nat.eqb_refl by (rewrite ?table_length, map_length, rows_length; reflexivity). cbn [bind].
      do 2 f_equal. apply rows_again. rewrite !table_app, Sc, table_again, rows_printed, table_again by exact SP. reflexivity.
    + cbn [bind]. do 2 f_equal. apply rows_again. rewrite !table_app, Sc, table_again by exact SP. reflexivity.
  - cbn [bind]. destruct (existsb (fun x => negb (zero x)) s).
    + destruct (len s =? len locs * len us)%nat; [|reflexivity]. cbn [bind]. rewrite table_length, !rows_length, Nat.eqb_refl. cbn [bind].
      do 2 f_equal. apply rows_again. rewrite !table_app, table_again, rows_printed, table_again by exact SP. reflexivity.
    + cbn [bind]. do 2 f_equal. apply rows_again, table_again, SP.
Qed.

(** Blank lines. *)
Definition rr (f : file) (n : nat) : outcome (list (list num * num * num)) := let (cur, f) := next f in read_rows f n cur.
Lemma rr_cons l f n : rr (l :: f) (S n) = match floats (tokens l) with
  | Err e => Raises e | Ok [] => rr f (S n) | Ok t => run e <- lift (entry t); run es <- rr f n; Returns (e :: es) end.
Proof.
  unfold rr. cbn [next]. destruct f as [|l' f]; cbn [next read_rows]; (destruct (floats (tokens l)) as [t|]; [|reflexivity]); cbn [lift]; (destruct t as [|x t]; [reflexivity|]);
    destruct (entry (x :: t)) as [e|]; try reflexivity. cbn [lift obind]. destruct n; reflexivity.
Qed.
Lemma rr_0 f : rr f 0 = Returns [].
Proof. unfold rr. destruct (next f) as [l f0]. destruct f0; reflexivity. Qed.
Definition filled (l : line) : bool := match tokens l with [] => false | _ => true end.
Lemma filled_blank l : filled l = false <-> blank l.
Proof. unfold filled, blank. destruct (tokens l); split; congruence. Qed.
Lemma floats_nil t : floats t = Ok [] -> t = [].
Proof. unfold floats. destruct t as [|a t]; [reflexivity|]. cbn. destruct (float_of a); [|discriminate]. cbn. destruct (mapM float_of t); discriminate. Qed.
Lemma rr_blank f : forall n, rr (filter filled f) n = rr f n.
Proof.
  induction f as [|l f IH]; intros [|n]; rewrite ?rr_0; try reflexivity. rewrite rr_cons. cbn [filter]. destruct (filled l) eqn:E.
  - rewrite rr_cons, !IH. reflexivity.
  - apply filled_blank in E. rewrite E, IH. reflexivity.
Qed.
Lemma read_grav_rr l f : read_grav (l :: f) = (run n <- lift (int_of (tokens l)); run es <- rr f n;
  lift (make_data None [{| r_locs := locs_of es; r_comps := ["gz"%string] |}] (option_map (map (nmap Ropp)) (unless_zero (obs_of es))) (unless_zero (std_of es)))).
Proof. unfold read_grav. cbn [next]. destruct (int_of (tokens l)) as [n|]; [|reflexivity]. cbn [lift obind]. unfold rr. destruct (next f). reflexivity. Qed.
Lemma grav_blank l f f' : filter filled f = filter filled f' -> read_grav (l :: f) = read_grav (l :: f').
Proof. intros H. rewrite !read_grav_rr. destruct (int_of (tokens l)) as [n|]; [|reflexivity]. cbn [lift obind]. rewrite <- (rr_blank f), <- (rr_blank f'), H. reflexivity. Qed.
Lemma read_mag_rr l1 l2 l3 f n : int_of (tokens l3) = Ok (S n) -> read_mag (l1 :: l2 :: l3 :: f) = (run B <- lift (floats (firstn 3 (tokens l1))); run es <- rr f (S n);
  match B with
  | [inc; dec; amp] =>
    run inc <- lift (check_inclination inc);
    lift (make_data (Some (amp, inc, dec)) [{| r_locs := locs_of es; r_comps := ["tmi"%string] |}] (unless_zero (obs_of es)) (unless_zero (std_of es)))
  | _ => Raises IndexError
  end).
Proof.
  intros E. unfold read_mag. cbn [next]. destruct (floats (firstn 3 (tokens l1))) as [B|]; [|reflexivity]. cbn [lift obind]. rewrite E. cbn [lift obind].
  destruct f as [|l f]; [reflexivity|]. cbn [next]. unfold rr. cbn [next]. destruct f; cbn [read_rows]; destruct (floats (tokens l)); reflexivity.
Qed.
Lemma mag_blank l1 l2 l3 f f' n : int_of (tokens l3) = Ok (S n) -> filter filled f = filter filled f' -> read_mag (l1 :: l2 :: l3 :: f) = read_mag (l1 :: l2 :: l3 :: f').
Proof. intros E H. rewrite !(read_mag_rr _ _ _ _ _ E). rewrite <- (rr_blank f), <- (rr_blank f'), H. reflexivity. Qed.

(** Too few rows. *)
Lemma rr_short f : forall n es, rr f n = Returns es -> (n <= len (filter filled f))%nat.
Proof.
  induction f as [|l f IH]; intros [|n] es H; try lia; [discriminate|]. rewrite rr_cons in H. cbn [filter]. destruct (floats (tokens l)) as [t|] eqn:E; [|discriminate].
  destruct t as [|x t].
  - apply floats_nil in E. unfold filled. rewrite E. apply (IH _ _ H).
  - assert (F : filled l = true) by (unfold filled; destruct (tokens l); [discriminate|reflexivity]). rewrite F. destruct (entry (x :: t)); [|discriminate]. cbn [lift obind] in H.
    destruct (rr f n) as [es'| |] eqn:Er; try discriminate. specialize (IH _ _ Er). cbn. lia.
Qed.
Lemma rr_hangs P t : Forall (fun r => len r = 5%nat) t -> forall n, (len t < n)%nat -> rr (map (row_line P) t) n = Hangs.
Proof.
  induction 1 as [|r t Hr _ IH]; intros n Hn; (destruct n as [|n]; [lia|]); [reflexivity|]. cbn [map]. rewrite rr_cons, floats_row. destruct r as [|a [|b [|c [|e [|g [|]]]]]]; try discriminate. cbn [printed map].
  rewrite entry5. cbn [lift obind]. cbn in Hn. rewrite IH by lia. reflexivity.
Qed.
Lemma app1_5 : forall locs obs s, points locs -> Forall (fun r => len r = 5%nat) (zip2 app1 (zip2 app1 locs obs) s).
Proof.
  induction locs as [|l locs IH]; intros [|o obs] [|x s] H; try constructor; inversion H; subst; [|apply IH; assumption]. unfold app1. rewrite !app_length. cbn. lia.
Qed.
Lemma forall_firstn {A} (Q : A -> Prop) n : forall l, Forall Q l -> Forall Q (firstn n l).
Proof. induction n as [|n IH]; intros l H; [constructor|]. destruct H; [constructor|]. cbn. constructor; [assumption|apply IH; assumption]. Qed.
Section Cut.
Variables (P : printer) (d : pdata) (locs : list (list num)) (c : string).
Hypothesis SD : sound_data d.
Hypothesis HP : points locs.
Hypothesis E : d_rxs d = one locs [c].
Lemma cut_len : len (d_obs d) = len locs.
Proof. destruct SD as (L & _). rewrite E, nD_one in L. exact L. Qed.
Lemma grav_cut f k : write_grav P d = Ok f -> (2 <= k < len f)%nat -> read_grav (firstn k f) = Hangs.
Proof.
  intros W K. pose proof cut_len as Lo. destruct (stdev_ok d SD) as (s & Es & Ls & _). unfold write_grav in W. rewrite E, nD_one in W. change (one_receiver (one locs [c])) with (@Ok receiver {| r_locs := locs; r_comps := [c] |}) in W. cbn [bind r_locs] in W. unfold add_column in W.
  rewrite map_length, Lo, Nat.eqb_refl in W. cbn [bind] in W. rewrite Es in W. cbn [bind] in W. rewrite zip2_length, Ls, Lo, Nat.eqb_refl in W by (rewrite map_length; congruence). cbn [bind] in W. injection W as <-.
  destruct k as [|[|k]]; try lia. cbn [app firstn]. rewrite read_grav_rr. cbn [tokens int_of lift obind]. unfold rr. cbn [next tokens].
  cbn in K. rewrite map_length in K. set (t := zip2 app1 (zip2 app1 locs (map (nmap Ropp) (d_obs d))) s) in *.
  assert (Lt : len t = len locs) by (unfold t; rewrite !zip2_length; rewrite ?zip2_length; rewrite ?map_length; congruence). rewrite firstn_map.
  rewrite read_rows_blank by lia. assert (H : rr (map (row_line P) (firstn k t)) (len locs) = Hangs) by (apply rr_hangs; [apply forall_firstn, app1_5, HP|rewrite firstn_length; lia]).
  unfold rr in H. destruct (map (row_line P) (firstn k t)); [reflexivity|]. cbn [next] in H. rewrite H. reflexivity.
Qed.
Lemma mag_cut f k amp inc dec : write_mag P d = Ok f -> d_field d = Some (amp, inc, dec) -> (4 <= k < len f)%nat -> read_mag (firstn k f) = Hangs.
Proof.
  intros W F K. pose proof cut_len as Lo. destruct (stdev_ok d SD) as (s & Es & Ls & _). unfold write_mag in W. rewrite E, F, nD_one in W. change (one_receiver (one locs [c])) with (@Ok receiver {| r_locs := locs; r_comps := [c] |}) in W. cbn [bind r_locs] in W. unfold add_column in W.
  rewrite Lo, Nat.eqb_refl in W. cbn [bind] in W. rewrite Es in W. cbn [bind] in W. rewrite zip2_length, Ls, Lo, Nat.eqb_refl in W by congruence. cbn [bind] in W. injection W as <-.
  destruct k as [|[|[|[|k]]]]; try lia. cbn [app firstn]. cbn in K. rewrite map_length in K. set (t := zip2 app1 (zip2 app1 locs (d_obs d)) s) in *.
  assert (Lt : len t = len locs) by (unfold t; rewrite !zip2_length; rewrite ?zip2_length; congruence). rewrite firstn_map.
  destruct (len locs) as [|m] eqn:Em; [lia|]. rewrite (read_mag_rr _ _ _ _ m) by reflexivity. cbn [tokens firstn]. unfold fix2. cbn [floats mapM float_of bind lift obind].
  rewrite rr_cons. cbn [tokens floats mapM]. rewrite rr_hangs; [reflexivity|apply forall_firstn, app1_5, HP|rewrite firstn_length; lia].
Qed.
End Cut.
Lemma gg_rows_short k ks : forall n f es, gg_rows k ks n f = Ok es -> (n <= len f)%nat.
Proof.
  induction n as [|n IH]; intros f es H; [lia|]. destruct f as [|l f]; [discriminate|]. cbn in H. destruct (floats (tokens l)) as [t|]; [|discriminate]. cbn in H. destruct (gg_entry k ks t); [|discriminate]. cbn in H.
  destruct (gg_rows k ks n f) eqn:E; [|discriminate]. specialize (IH _ _ E). cbn. lia.
Qed.

Lemma gg_cut P d f k : snd (write_gg P d) = Ok f -> (k < len f)%nat -> exists e, read_gg (firstn k f) = Err e.
Proof.
  intros W K. assert (S : exists us t n, f = [Text (String.append "datacomp=" (String.concat "," us)); Toks [TInt n]] ++ map (row_line P) t /\ len t = n).
  { unfold write_gg in W. destruct (d_rxs d) as [|rx [|]]; try discriminate. destruct (convert (r_comps rx)) as [us ks]. cbn [snd] in W. destruct ks as [ks|]; [|discriminate]. cbn [bind] in W.
    assert (A : forall t c t', add_columns t c = Ok t' -> len t' = len t).
    { intros t c t'. unfold add_columns. destruct (len t =? len c)%nat eqn:Q; [|discriminate]. apply Nat.eqb_eq in Q. intros H. injection H as <-. apply zip2_length, Q. }
    match type of W with bind ?r _ = _ => destruct r as [t|] eqn:E1; [|discriminate] end. cbn [bind] in W. destruct (stdev d) as [s|]; [|discriminate]. cbn [bind] in W.
    match type of W with bind ?r _ = _ => destruct r as [t'|] eqn:E2; [|discriminate] end. cbn [bind] in W. injection W as <-. exists us, t', (len (r_locs rx)). split; [reflexivity|].
    assert (L1 : len t = len (r_locs rx)).
    { destruct (existsb (fun x => negb (zero x)) (d_obs d)); [|injection E1 as <-; reflexivity]. destruct (reshape_rows (len (r_locs rx)) (len us) (d_obs d)); [|discriminate]. cbn [bind] in E1. apply (A _ _ _ E1). }
    destruct (existsb (fun x => negb (zero x)) s); [|injection E2 as <-; exact L1]. destruct (reshape_rows (len (r_locs rx)) (len us) s); [|discriminate]. cbn [bind] in E2. rewrite (A _ _ _ E2). exact L1. }
  destruct S as (us & t & n & -> & Lt). cbn [app] in *. destruct k as [|k]; [eexists; reflexivity|]. cbn [firstn]. unfold read_gg.
  destruct (header_comps (Text (String.append "datacomp=" (String.concat "," us)))) as [cs|e]; [|eexists; reflexivity]. cbn [bind tl]. destruct (mapM from_ubc cs) as [cf|e]; [|eexists; reflexivity]. cbn [bind].
  destruct k as [|k]; [eexists; reflexivity|]. cbn [firstn next tokens int_of bind]. destruct (gg_rows (len cs) (map snd cf) n (firstn k (map (row_line P) t))) as [es|e] eqn:G; [|eexists; reflexivity].
  apply gg_rows_short in G. rewrite firstn_length, map_length in G. cbn in K. rewrite map_length in K. lia.
Qed.
(** Writing a gradient file twice. *)
Lemma ubc_not_simpeg u : In u ubc_types -> to_ubc u = Err ValueError.
Proof. intros [<-|[<-|[<-|[<-|[<-|[<-|[<-|[]]]]]]]]; reflexivity. Qed.
Lemma gg_twice P d locs comps : d_rxs d = one locs comps -> comps <> [] -> Forall (fun c => In c simpeg_types) comps ->
  d_rxs (fst (write_gg P d)) <> d_rxs d /\ snd (write_gg P (fst (write_gg P d))) = Err ValueError.
Proof.
  intros E Ne HC. destruct (converted comps HC) as (us & ks & Ec & _ & U & _ & L & _). unfold write_gg at 1 3. rewrite E. unfold one. cbn [r_comps r_locs]. rewrite Ec. cbn [fst d_rxs].
  destruct us as [|u us]; [destruct comps; [contradiction|discriminate]|]. inversion U as [|? ? Hu]; subst. pose proof (ubc_not_simpeg u Hu) as T. split.
  - intros Q. injection Q as Q. subst comps. inversion HC; subst. destruct (names u) as (? & ? & T' & _); [assumption|]. congruence.
  - unfold write_gg. cbn [d_rxs r_comps convert]. rewrite T. reflexivity.
Qed.
Lemma exactly_sound : sound_printer exactly.
Proof. constructor; cbn; intros; try reflexivity; try assumption; try tauto. Qed.

(** Components are not looked at. *)
Definition as_component (d : pdata) (locs : list (list num)) (c : string) : pdata :=
  {| d_field := d_field d; d_rxs := one locs [c]; d_obs := d_obs d; d_rel := d_rel d; d_floor := d_floor d |}.
Lemma as_sound d locs c c' : d_rxs d = one locs [c] -> sound_data d -> sound_data (as_component d locs c').
Proof. intros E (A & B & C & D). unfold sound_data, as_component. cbn [d_obs d_rxs d_rel d_floor]. rewrite E in A, B, C. repeat split; try assumption. Qed.
Lemma grav_other P d locs c : sound_printer P -> sound_data d -> points locs -> finite (d_obs d) -> some_nonzero (d_obs d) -> d_rxs d = one locs [c] ->
  exists f d', write_grav P d = Ok f /\ read_grav f = Returns d' /\ d_rxs d' = one (printed_table P locs) ["gz"%string] /\ d_obs d' = printed P (d_obs d).
Proof.
  intros SP SD HP HF HN E. destruct (grav_round P (as_component d locs "gz") locs SP (as_sound d locs c "gz" E SD) HP HF HN eq_refl) as (f & d' & W & Rd & _ & (rx & s & E1 & E2 & E3 & _)).
  cbn [as_component d_rxs] in E1. injection E1 as <-. exists f, d'. split; [|split; [exact Rd|split; [exact E2|exact E3]]]. rewrite <- W. unfold write_grav. rewrite E. reflexivity.
Qed.
Lemma mag_other P d locs c amp inc dec : sound_printer P -> sound_data d -> points locs -> finite (d_obs d) -> some_nonzero (d_obs d) -> d_rxs d = one locs [c] -> d_field d = Some (amp, Some inc, dec) -> -90 <= inc <= 90 ->
  exists f d', write_mag P d = Ok f /\ read_mag f = Returns d' /\ d_rxs d' = one (printed_table P locs) ["tmi"%string] /\ d_obs d' = printed P (d_obs d).
Proof.
  intros SP SD HP HF HN E F HI. destruct (mag_round P (as_component d locs "tmi") locs SP (as_sound d locs c "tmi" E SD) HP HF HN amp inc dec eq_refl F HI) as (f & d' & W & Rd & _ & (rx & s & E1 & E2 & E3 & _)).
  cbn [as_component d_rxs] in E1. injection E1 as <-. exists f, d'. split; [|split; [exact Rd|split; [exact E2|exact E3]]]. rewrite <- W. unfold write_mag. rewrite E. reflexivity.
Qed.

(** Data that are all zero come back as nan. *)
Lemma unless_none l : all_zero l -> unless_zero l = None.
Proof. intros H. unfold unless_zero. replace (forallb zero l) with true; [reflexivity|]. symmetry. apply forallb_forall. intros x Hx. apply zero_iff. unfold all_zero in H. rewrite Forall_forall in H. apply H, Hx. Qed.
Lemma zero_printed P l : sound_printer P -> all_zero l -> all_zero (printed P l).
Proof. intros SP H. unfold printed. apply Forall_map. eapply Forall_impl; [|exact H]. intros x ->. cbn. f_equal. apply (exp_zero P SP). reflexivity. Qed.
Lemma zero_opp l : all_zero l -> all_zero (map (nmap Ropp) l).
Proof. intros H. apply Forall_map. eapply Forall_impl; [|exact H]. intros x ->. cbn. f_equal. lra. Qed.
Lemma make_zero fld locs c fl : len fl = len locs -> Forall nonneg_num fl ->
  exists d', make_data fld (one locs [c]) None (unless_zero fl) = Ok d' /\ d_obs d' = repeat None (len locs).
Proof.
  intros Lf Nn. unfold make_data. rewrite nD_one, repeat_length, Nat.eqb_refl. cbn [negb].
  pose proof (unless_default fl) as U. rewrite Lf in U. rewrite U. rewrite Lf, Nat.eqb_refl. cbn [negb]. rewrite nonneg_not by exact Nn. eexists. split; reflexivity.
Qed.
Section Zero.
Variables (P : printer) (d : pdata) (locs : list (list num)) (c : string).
Hypothesis SP : sound_printer P.
Hypothesis SD : sound_data d.
Hypothesis HP : points locs.
Hypothesis HZ : all_zero (d_obs d).
Hypothesis Ne : locs <> [].
Hypothesis E : d_rxs d = one locs [c].
Lemma grav_zero : exists f d', write_grav P d = Ok f /\ read_grav f = Returns d' /\ d_obs d' = repeat None (len locs).
Proof.
  assert (Lo : len (d_obs d) = len locs) by (destruct SD as (L & _); rewrite E, nD_one in L; exact L). destruct (stdev_ok d SD) as (s & Es & Ls & Ns). rewrite Lo in Ls.
  assert (Lo' : len (map (nmap Ropp) (d_obs d)) = len locs) by (rewrite map_length; exact Lo).
  unfold write_grav. rewrite E. unfold one at 1. cbn [one_receiver bind r_locs]. unfold add_column. rewrite Lo', Nat.eqb_refl. cbn [bind]. rewrite Es. cbn [bind].
  rewrite zip2_length, Ls, Nat.eqb_refl by congruence. cbn [bind]. eexists. destruct (make_zero None (printed_table P locs) "gz"%string (printed P s)) as (d' & MK & F1); rewrite ?printed_length, ?table_length; try assumption; [apply printed_nonneg; assumption|].
  exists d'. split; [reflexivity|]. split; [|rewrite F1, table_length; reflexivity]. unfold read_grav. cbn [app next tokens lift int_of obind]. rewrite nD_one. rewrite (read_all P locs _ s HP Lo' Ls Ne). cbn [obind].
  destruct (entries_locs P locs _ s Lo' Ls) as (A & B & C). rewrite A, B, C. rewrite (unless_none (printed P (map (nmap Ropp) (d_obs d)))) by (apply zero_printed; [exact SP|apply zero_opp, HZ]).
  cbn [option_map]. fold (one (printed_table P locs) ["gz"%string]). rewrite MK. reflexivity.
Qed.
Lemma mag_zero amp inc dec : d_field d = Some (amp, Some inc, dec) -> -90 <= inc <= 90 -> exists f d', write_mag P d = Ok f /\ read_mag f = Returns d' /\ d_obs d' = repeat None (len locs).
Proof.
  intros Ef Hi. assert (Lo : len (d_obs d) = len locs) by (destruct SD as (L & _); rewrite E, nD_one in L; exact L). destruct (stdev_ok d SD) as (s & Es & Ls & Ns). rewrite Lo in Ls.
  unfold write_mag. rewrite E, Ef. unfold one at 1. cbn [one_receiver bind r_locs]. unfold add_column. rewrite Lo, Nat.eqb_refl. cbn [bind]. rewrite Es. cbn [bind].
  rewrite zip2_length, Ls, Nat.eqb_refl by congruence. cbn [bind]. eexists. destruct (make_zero (Some (printed2 P amp, printed2 P (Some inc), printed2 P dec)) (printed_table P locs) "tmi"%string (printed P s)) as (d' & MK & F1); rewrite ?printed_length, ?table_length; try assumption; [apply printed_nonneg; assumption|].
  exists d'. split; [reflexivity|]. split; [|rewrite F1, table_length; reflexivity]. unfold read_mag. cbn [app next tokens lift int_of obind firstn floats mapM float_of fix2 bind]. rewrite nD_one. rewrite (read_all P locs _ s HP Lo Ls Ne). cbn [obind].
  cbn [nmap option_map check_inclination]. pose proof (fix2_range P SP inc Hi). destruct (Rlt_dec (p_fix2 P inc) (-90)); [lra|]. destruct (Rlt_dec 90 (p_fix2 P inc)); [lra|]. cbn [lift obind].
  destruct (entries_locs P locs _ s Lo Ls) as (A & B & C). rewrite A, B, C. rewrite (unless_none (printed P (d_obs d))) by (apply zero_printed; assumption). transitivity (lift (Ok d')); [|reflexivity]. rewrite <- MK. reflexivity.
Qed.
End Zero.
(** Gradient data that are all zero: the deviations are read as the data. *)
Lemma gg_zero P locs c s d : sound_printer P -> In c ["gyy"; "gxy"; "gxx"; "gzz"; "guv"]%string -> points locs -> d_rxs d = one locs [c] -> sound_data d -> all_zero (d_obs d) -> stdev d = Ok s -> some_nonzero s ->
  exists f d', snd (write_gg P d) = Ok f /\ read_gg f = Ok d' /\ d_obs d' = printed P s.
Proof.
  intros SP Hc HP E SD HZ Es Hs. destruct (stdev_ok d SD) as (s' & Es' & Ls & Ns). rewrite Es in Es'. injection Es' as <-.
  assert (Lo : len (d_obs d) = len locs) by (destruct SD as (L & _); rewrite E, nD_one in L; exact L).
  assert (Hc' : exists u, to_ubc c = Ok (u, 1) /\ from_ubc u = Ok (c, 1) /\ In u ubc_types).
  { repeat (destruct Hc as [<-|Hc]; [eexists; split; [reflexivity|]; split; [reflexivity|]; cbn; tauto|]). destruct Hc. }
  destruct Hc' as (u & T & Fr & Iu). assert (Ls1 : len s = (len locs * 1)%nat) by lia. assert (Hz : existsb (fun x => negb (zero x)) (d_obs d) = false).
  { destruct (existsb (fun x => negb (zero x)) (d_obs d)) eqn:Q; [|reflexivity]. apply existsb_exists in Q. destruct Q as (x & Hin & Hx). unfold all_zero in HZ. rewrite Forall_forall in HZ. rewrite (HZ x Hin) in Hx. cbn in Hx. destruct (Req_EM_T 0 0); [discriminate|contradiction]. }
  pose proof (rows_each (len locs) 1 s Ls1) as RS.
  assert (Id : map (scale_row [1]) (rows_of (len locs) 1 s) = rows_of (len locs) 1 s).
  { rewrite <- (map_id (rows_of (len locs) 1 s)) at 2. apply map_ext_in. intros r Hr. rewrite Forall_forall in RS. specialize (RS r Hr). destruct r as [|x [|]]; try discriminate. cbn. destruct x as [x|]; [cbn; rewrite Rmult_1_l|]; reflexivity. }
  eexists. eexists. split; [|split].
  - unfold write_gg. rewrite E. unfold one at 1. cbn [r_comps r_locs convert]. rewrite T. cbn [snd bind]. rewrite Hz. cbn [bind]. rewrite Es. cbn [bind]. rewrite (exists_nonzero s Hs). unfold reshape_rows. change (len [u]) with 1%nat. rewrite Ls1, Nat.eqb_refl. cbn [bind].
    unfold add_columns. rewrite rows_length, Nat.eqb_refl. cbn [bind]. reflexivity.
  - unfold read_gg. cbn [app tl]. rewrite (header_back [u]); [|discriminate|constructor; [exact Iu|constructor]]. cbn [bind mapM]. rewrite Fr. cbn [bind next tokens int_of map snd fst]. change (len [u]) with 1%nat.
    rewrite <- Id. rewrite (gg_rows_obs P 1 [1] SP); [|constructor; [left; reflexivity|constructor]|reflexivity|exact HP|apply rows_length|exact RS]. cbn [bind].
    destruct (zip_locs1 P locs (rows_of (len locs) 1 s) (rows_length _ _ _)) as (A & B & C). rewrite A, B, C. rewrite present_none, present_all, rows_concat; [|exact Ls1|intros Z; apply (f_equal (@List.length _)) in Z; rewrite rows_length in Z; cbn in Z; destruct Hs as (x & Hin & _); destruct s; [contradiction|cbn in Ls1; lia]].
    unfold make_data. change [{| r_locs := printed_table P locs; r_comps := [c] |}] with (one (printed_table P locs) [c]). rewrite nD_one, table_length, printed_length. replace (len s =? len locs)%nat with true by (symmetry; apply Nat.eqb_eq; lia). cbn [negb].
    rewrite repeat_length, Nat.eqb_refl. cbn [negb]. rewrite nonneg_not; [reflexivity|]. apply Forall_forall. intros x Hx. apply repeat_spec in Hx. subst x. cbn. lra.
  - reflexivity.
Qed.
(** The concrete cases. *)
Lemma stations_points : points stations.
Proof. repeat constructor. Qed.
Lemma case_sound fld c obs std : len obs = 2%nat -> len std = 2%nat -> sound_data (case fld [c] obs std).
Proof. intros A B. unfold sound_data, case. cbn. repeat split; try assumption. right. discriminate. Qed.
Lemma case2_sound fld a b obs std : len obs = 4%nat -> len std = 4%nat -> sound_data (case fld [a; b] obs std).
Proof. intros A B. unfold sound_data, case. cbn. repeat split; try assumption. right. discriminate. Qed.
Lemma finite_some (l : list R) : finite (map Some l).
Proof. apply Forall_map. apply Forall_forall. intros x _. discriminate. Qed.
Lemma first_nonzero x l : x <> 0 -> some_nonzero (Some x :: l).
Proof. intros H. exists (Some x). split; [left; reflexivity|]. intros Z. injection Z as Z. contradiction. Qed.
(** Files that differ by blank lines only. *)
Lemma same_filled f f' : without_blanks f f' -> filter filled f = filter filled f'.
Proof.
  induction 1 as [|l f f' _ IH|l f f' B _ IH|l f f' B _ IH]; [reflexivity| | |]; cbn [filter].
  - rewrite IH. reflexivity.
  - rewrite (proj2 (filled_blank l) B). exact IH.
  - rewrite (proj2 (filled_blank l) B). exact IH.
Qed.
Lemma grav_blanks l f f' : without_blanks f f' -> read_grav (l :: f) = read_grav (l :: f').
Proof. intros H. apply grav_blank, same_filled, H. Qed.
Lemma mag_blanks l1 l2 l3 f f' n : int_of (tokens l3) = Ok (S n) -> without_blanks f f' -> read_mag (l1 :: l2 :: l3 :: f) = read_mag (l1 :: l2 :: l3 :: f').
Proof. intros E H. apply (mag_blank _ _ _ _ _ n E), same_filled, H. Qed.
