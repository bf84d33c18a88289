(** UBC files of gravity and magnetic data: round trips. *)
From Verif Require Import Py Vec PfIO SpecPfIO.
Local Open Scope R_scope.

Notation len := List.length.
Lemma zip2_length {A B C} (f : A -> B -> C) : forall a b, len a = len b -> len (zip2 f a b) = len a.
Proof. induction a as [|x a IH]; intros [|y b] H; try discriminate; [reflexivity|]. cbn. f_equal. apply IH. injection H. trivial. Qed.
Lemma floats_nums l : floats (map TNum l) = Ok l.
Proof. unfold floats. induction l as [|x l IH]; [reflexivity|]. cbn. rewrite IH. reflexivity. Qed.
Lemma floats_row P r : floats (tokens (row_line P r)) = Ok (printed P r).
Proof. unfold row_line. cbn [tokens]. rewrite <- (map_map (nmap (p_exp P)) TNum). apply floats_nums. Qed.
Lemma entry5 a b c d e : entry [a; b; c; d; e] = Ok ([a; b; c], d, e).
Proof. reflexivity. Qed.
Definition entries3 (P : printer) : list (list num) -> list num -> list num -> list (list num * num * num) :=
  fix go locs obs s := match locs, obs, s with
    | l :: locs, o :: obs, x :: s => (printed P l, nmap (p_exp P) o, nmap (p_exp P) x) :: go locs obs s | _, _, _ => [] end.
Lemma row_entry P l o x : len l = 3%nat -> floats (tokens (row_line P (app1 (app1 l o) x))) = Ok (printed P (app1 (app1 l o) x)) /\
  entry (printed P (app1 (app1 l o) x)) = Ok (printed P l, nmap (p_exp P) o, nmap (p_exp P) x) /\ printed P (app1 (app1 l o) x) <> [].
Proof. intros L. split; [apply floats_row|]. destruct l as [|a [|b [|c [|]]]]; try discriminate. split; [reflexivity|discriminate]. Qed.
Lemma read_rows_step rest n cur t : floats cur = Ok t -> t <> [] ->
  read_rows rest (S n) cur = (run e <- lift (entry t);
      match rest with
      | [] => match n with O => Returns [e] | S _ => Hangs end
      | l :: rest' => run es <- read_rows rest' n (tokens l); Returns (e :: es)
      end).
Proof. intros E Ne. destruct rest; cbn [read_rows]; rewrite E; cbn [lift]; destruct t; try contradiction; reflexivity. Qed.
Lemma read_rows_written P : forall locs obs s, points locs -> len obs = len locs -> len s = len locs -> locs <> [] ->
  forall l t, zip2 app1 (zip2 app1 locs obs) s = l :: t ->
  read_rows (map (row_line P) t) (len locs) (tokens (row_line P l)) = Returns (entries3 P locs obs s).
Proof.
  induction locs as [|p locs IH]; intros obs s HP Lo Ls Ne l t E; [contradiction|]. destruct obs as [|o obs]; [discriminate|]. destruct s as [|x s]; [discriminate|].
  inversion HP as [|? ? H1 H2]; subst. cbn [zip2] in E. injection E as <- <-. destruct (row_entry P p o x H1) as (F & En & Nn).
  cbn [len]. rewrite (read_rows_step _ _ _ _ F Nn), En. cbn [lift obind]. destruct locs as [|p' locs].
  - destruct obs; [|discriminate]. destruct s; [|discriminate]. reflexivity.
  - destruct obs as [|o' obs]; [discriminate|]. destruct s as [|x' s]; [discriminate|]. cbn [zip2 map].
    specialize (IH (o' :: obs) (x' :: s) H2 ltac:(injection Lo as Lo; cbn; congruence) ltac:(injection Ls as Ls; cbn; congruence) ltac:(discriminate) (app1 (app1 p' o') x') (zip2 app1 (zip2 app1 locs obs) s) eq_refl).
    rewrite IH. cbn [obind]. reflexivity.
Qed.
Lemma read_rows_blank f n : n <> 0%nat -> read_rows (f) n [] = match f with [] => Hangs | l :: f' => read_rows f' n (tokens l) end.
Proof. destruct n; [contradiction|]. intros _. destruct f; reflexivity. Qed.
Lemma entries_locs P : forall locs obs s, len obs = len locs -> len s = len locs ->
  locs_of (entries3 P locs obs s) = printed_table P locs /\ obs_of (entries3 P locs obs s) = printed P obs /\ std_of (entries3 P locs obs s) = printed P s.
Proof.
  induction locs as [|p locs IH]; intros [|o obs] [|x s] Lo Ls; try discriminate; [repeat split|].
  injection Lo as Lo. injection Ls as Ls. destruct (IH obs s Lo Ls) as (A & B & C). cbn. unfold locs_of, obs_of, std_of in *. rewrite A, B, C. repeat split.
Qed.
(** All rows at once. *)
Lemma read_all P locs obs s : points locs -> len obs = len locs -> len s = len locs -> locs <> [] ->
  read_rows (map (row_line P) (zip2 app1 (zip2 app1 locs obs) s)) (len locs) [] = Returns (entries3 P locs obs s).
Proof.
  intros HP Lo Ls Ne. destruct (zip2 app1 (zip2 app1 locs obs) s) as [|l t] eqn:E.
  - apply (f_equal (@List.length _)) in E. rewrite !zip2_length in E; [|congruence|rewrite zip2_length; congruence]. destruct locs; [contradiction|discriminate].
  - rewrite read_rows_blank by (destruct locs; [contradiction|discriminate]). cbn [map]. apply (read_rows_written P locs obs s HP Lo Ls Ne _ _ E).
Qed.

(** Zero tests. *)
Lemma zero_iff x : zero x = true <-> x = Some 0.
Proof. destruct x as [r|]; cbn; [|split; discriminate]. destruct (Req_EM_T r 0) as [->|N]; split; try reflexivity; try discriminate. intros E. injection E as E. contradiction. Qed.
Lemma unless_some l : some_nonzero l -> unless_zero l = Some l.
Proof.
  intros (x & Hin & Hx). unfold unless_zero. destruct (forallb zero l) eqn:E; [|reflexivity]. rewrite forallb_forall in E. specialize (E x Hin). apply zero_iff in E. contradiction.
Qed.
Lemma unless_default l : match unless_zero l with Some x => x | None => repeat (Some 0) (len l) end = l.
Proof.
  unfold unless_zero. destruct (forallb zero l) eqn:E; [|reflexivity]. induction l as [|x l IH]; [reflexivity|]. cbn in E. apply andb_prop in E. destruct E as [E1 E2].
  apply zero_iff in E1. subst x. cbn. f_equal. apply IH. exact E2.
Qed.
Lemma printed_length P l : len (printed P l) = len l.
Proof. apply map_length. Qed.
Lemma printed_nonzero P l : sound_printer P -> some_nonzero l -> some_nonzero (printed P l).
Proof.
  intros SP (x & Hin & Hx). exists (nmap (p_exp P) x). split; [apply in_map; exact Hin|]. destruct x as [r|]; cbn; [|discriminate]. intros E. injection E as E.
  apply (proj1 (exp_zero P SP r)) in E. subst r. apply Hx. reflexivity.
Qed.
Lemma printed_again P l : sound_printer P -> printed P (printed P l) = printed P l.
Proof. intros SP. unfold printed. rewrite map_map. apply map_ext. intros [r|]; [|reflexivity]. cbn. rewrite (exp_again P SP). reflexivity. Qed.
Lemma printed_opp P l : sound_printer P -> map (nmap Ropp) (printed P (map (nmap Ropp) l)) = printed P l.
Proof. intros SP. unfold printed. rewrite !map_map. apply map_ext. intros [r|]; [|reflexivity]. cbn. rewrite (exp_opp P SP), Ropp_involutive. reflexivity. Qed.
Lemma opp_nonzero l : some_nonzero l -> some_nonzero (map (nmap Ropp) l).
Proof.
  intros (x & Hin & Hx). exists (nmap Ropp x). split; [apply in_map; exact Hin|]. destruct x as [r|]; [|discriminate]. cbn. intros E. injection E as E. apply Hx. f_equal. lra.
Qed.

(** Uncertainties. *)
Definition nonneg_num (x : num) : Prop := match x with Some r => 0 <= r | None => True end.
Lemma nonneg_not l : Forall nonneg_num l -> existsb negative l = false.
Proof.
  induction 1 as [|x l H _ IH]; [reflexivity|]. cbn. rewrite IH, orb_false_r. destruct x as [r|]; [|reflexivity]. cbn in *. destruct (Rlt_dec r 0); [lra|reflexivity].
Qed.
Lemma printed_nonneg P l : sound_printer P -> Forall nonneg_num l -> Forall nonneg_num (printed P l).
Proof. intros SP H. unfold printed. apply Forall_map. eapply Forall_impl; [|exact H]. intros [r|] Hr; [|exact I]. cbn in *. apply (exp_nonneg P SP), Hr. Qed.
Lemma zip2_map_l {A B C D} (f : B -> C -> D) (g : A -> B) : forall a c, zip2 f (map g a) c = zip2 (fun x y => f (g x) y) a c.
Proof. induction a as [|x a IH]; intros [|y c]; try reflexivity. cbn. f_equal. apply IH. Qed.
Lemma stdev_ok d : sound_data d -> exists s, stdev d = Ok s /\ len s = len (d_obs d) /\ Forall nonneg_num s.
Proof.
  intros (L & Lr & Lf & N). unfold stdev. set (u0 := map (fun _ => Some 0) (d_obs d)). assert (L0 : @List.length num u0 = len (d_obs d)) by apply map_length.
  assert (Q : forall u : list num, Forall nonneg_num (map (nmap sqrt) u)).
  { intros u. apply Forall_map. apply Forall_forall. intros [r|] _; [|exact I]. cbn. apply sqrt_pos. }
  clearbody u0. destruct (d_rel d) as [r|]; destruct (d_floor d) as [g|]; cbn [fits_data] in *.
  - eexists. split; [reflexivity|]. split; [|apply Q]. rewrite map_length.
    match goal with |- len (zip2 _ (zip2 _ _ ?z) _) = _ => assert (K : len z = len (d_obs d)) by (rewrite zip2_length; congruence) end.
    match goal with |- len (zip2 _ ?z _) = _ => assert (K1 : len z = len (d_obs d)) by (rewrite zip2_length by congruence; exact L0) end.
    rewrite zip2_length; [exact K1|]. rewrite K1, map_length. congruence.
  - eexists. split; [reflexivity|]. split; [|apply Q]. rewrite map_length.
    match goal with |- len (zip2 _ _ ?z) = _ => assert (K : len z = len (d_obs d)) by (rewrite zip2_length; congruence) end.
    rewrite zip2_length by congruence. exact L0.
  - eexists. split; [reflexivity|]. split; [|apply Q]. rewrite map_length. rewrite zip2_length; rewrite ?map_length; congruence.
  - destruct N as [N|N]; contradiction.
Qed.
Lemma stdev_floor fld rxs obs fl : finite obs -> len fl = len obs -> Forall nonneg_num fl ->
  stdev {| d_field := fld; d_rxs := rxs; d_obs := obs; d_rel := Some (repeat (Some 0) (len obs)); d_floor := Some fl |} = Ok fl.
Proof.
  intros F L N. unfold stdev. cbn [d_rel d_floor d_obs]. f_equal. revert fl L N. induction F as [|x obs Hx F IH]; intros [|y fl] L N; try discriminate; [reflexivity|].
  injection L as L. inversion N; subst. cbn [len repeat map zip2]. f_equal; [|apply IH; assumption].
  destruct x as [x|]; [|contradiction]. destruct y as [y|]; [|reflexivity]. cbn in *. f_equal. replace (0 + 0 * Rabs x * (0 * Rabs x) + y * y) with (y * y) by ring. apply sqrt_square. assumption.
Qed.
Lemma printed_finite P l : finite l -> finite (printed P l).
Proof. intros F. unfold printed. apply Forall_map. eapply Forall_impl; [|exact F]. intros [r|] H; [discriminate|contradiction]. Qed.
Lemma nD_one locs c : nD (one locs [c]) = len locs.
Proof. unfold nD, one, r_nD. cbn. lia. Qed.
Lemma make_ok fld locs c obs fl : finite obs -> len obs = len locs -> len fl = len locs -> Forall nonneg_num fl -> some_nonzero obs ->
  exists d', make_data fld (one locs [c]) (unless_zero obs) (unless_zero fl) = Ok d' /\ d_field d' = fld /\ d_rxs d' = one locs [c] /\ d_obs d' = obs /\ stdev d' = Ok fl.
Proof.
  intros F Lo Lf Nn Nz. unfold make_data. rewrite nD_one, (unless_some obs Nz), Lo, Nat.eqb_refl. cbn [negb].
  pose proof (unless_default fl) as U. rewrite Lf in U. rewrite U. rewrite Lf, Nat.eqb_refl. cbn [negb]. rewrite nonneg_not by exact Nn.
  eexists. split; [reflexivity|]. cbn [d_field d_rxs d_obs]. repeat (split; [reflexivity|]). rewrite <- Lo. apply stdev_floor; congruence || assumption.
Qed.
Lemma table_length P locs : len (printed_table P locs) = len locs.
Proof. apply map_length. Qed.

Section Mag.
Variables (P : printer) (d : pdata) (locs : list (list num)).
Hypothesis SP : sound_printer P.
Hypothesis SD : sound_data d.
Hypothesis HP : points locs.
Hypothesis HF : finite (d_obs d).
Hypothesis HN : some_nonzero (d_obs d).
Lemma locs_nonempty c : d_rxs d = one locs [c] -> locs <> [].
Proof.
  intros E Z. destruct SD as (L & _). rewrite E, nD_one, Z in L. destruct HN as (x & Hin & _). destruct (d_obs d); [contradiction|discriminate].
Qed.
Lemma obs_len c : d_rxs d = one locs [c] -> len (d_obs d) = len locs.
Proof. intros E. destruct SD as (L & _). rewrite E, nD_one in L. exact L. Qed.
Lemma grav_round : d_rxs d = one locs ["gz"%string] -> exists f d', write_grav P d = Ok f /\ read_grav f = Returns d' /\ d_field d' = None /\ same_printed P d d' ["gz"%string].
Proof.
  intros E. pose proof (obs_len _ E) as Lo. pose proof (locs_nonempty _ E) as Ne. destruct (stdev_ok d SD) as (s & Es & Ls & Ns). rewrite Lo in Ls.
  assert (Lo' : len (map (nmap Ropp) (d_obs d)) = len locs) by (rewrite map_length; exact Lo).
  unfold write_grav. rewrite E. unfold one at 1. cbn [one_receiver bind r_locs]. unfold add_column. rewrite Lo', Nat.eqb_refl. cbn [bind]. rewrite Es. cbn [bind].
  rewrite zip2_length, Ls, Nat.eqb_refl by congruence. cbn [bind]. eexists. pose proof (make_ok None (printed_table P locs) "gz"%string (printed P (d_obs d)) (printed P s)) as MK.
  destruct MK as (d' & MK & F1 & F2 & F3 & F4); rewrite ?printed_length, ?table_length; try assumption; [apply printed_finite; exact HF|apply printed_nonneg; assumption|apply printed_nonzero; assumption|].
  exists d'. split; [reflexivity|]. split; [|split; [exact F1|]].
  - unfold read_grav. cbn [app next tokens lift int_of obind]. rewrite nD_one. rewrite (read_all P locs _ s HP Lo' Ls Ne). cbn [obind].
    destruct (entries_locs P locs _ s Lo' Ls) as (A & B & C). rewrite A, B, C. rewrite (unless_some (printed P (map (nmap Ropp) (d_obs d)))) by (apply printed_nonzero; [exact SP|apply opp_nonzero, HN]).
    cbn [option_map]. rewrite printed_opp by exact SP. rewrite (unless_some (printed P (d_obs d))) in MK by (apply printed_nonzero; assumption). fold (one (printed_table P locs) ["gz"%string]). rewrite MK. reflexivity.
  - exists {| r_locs := locs; r_comps := ["gz"%string] |}, s. split; [exact E|]. split; [exact F2|]. split; [exact F3|]. split; [exact Es|exact F4].
Qed.
Lemma mag_round amp inc dec : d_rxs d = one locs ["tmi"%string] -> d_field d = Some (amp, Some inc, dec) -> -90 <= inc <= 90 ->
  exists f d', write_mag P d = Ok f /\ read_mag f = Returns d' /\ d_field d' = Some (printed2 P amp, printed2 P (Some inc), printed2 P dec) /\ same_printed P d d' ["tmi"%string].
Proof.
  intros E Ef Hi. pose proof (obs_len _ E) as Lo. pose proof (locs_nonempty _ E) as Ne. destruct (stdev_ok d SD) as (s & Es & Ls & Ns). rewrite Lo in Ls.
  unfold write_mag. rewrite E, Ef. unfold one at 1. cbn [one_receiver bind r_locs]. unfold add_column. rewrite Lo, Nat.eqb_refl. cbn [bind]. rewrite Es. cbn [bind].
  rewrite zip2_length, Ls, Nat.eqb_refl by congruence. cbn [bind]. eexists. pose proof (make_ok (Some (printed2 P amp, printed2 P (Some inc), printed2 P dec)) (printed_table P locs) "tmi"%string (printed P (d_obs d)) (printed P s)) as MK.
  destruct MK as (d' & MK & F1 & F2 & F3 & F4); rewrite ?printed_length, ?table_length; try assumption; [apply printed_finite; exact HF|apply printed_nonneg; assumption|apply printed_nonzero; assumption|].
  exists d'. split; [reflexivity|]. split; [|split; [exact F1|]].
  - unfold read_mag. cbn [app next tokens lift int_of obind firstn floats mapM float_of fix2 bind]. rewrite nD_one. rewrite (read_all P locs _ s HP Lo Ls Ne). cbn [obind].
    cbn [nmap option_map check_inclination]. pose proof (fix2_range P SP inc Hi). destruct (Rlt_dec (p_fix2 P inc) (-90)); [lra|]. destruct (Rlt_dec 90 (p_fix2 P inc)); [lra|]. cbn [lift obind].
    destruct (entries_locs P locs _ s Lo Ls) as (A & B & C). rewrite A, B, C. transitivity (lift (Ok d')); [|reflexivity]. rewrite <- MK. reflexivity.
  - exists {| r_locs := locs; r_comps := ["tmi"%string] |}, s. split; [exact E|]. split; [exact F2|]. split; [exact F3|]. split; [exact Es|exact F4].
Qed.
End Mag.
