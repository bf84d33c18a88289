(** Histories of a simulation: every answer is that of the model asked for. *)
From Verif Require Import PfSim SpecPfSim PfFacts PfFacts2 PfFacts3 PfFacts4 PfFacts6 VecDeriv PfSimFacts.
Local Open Scope R_scope.

Lemma map_repeat' {A B} (f : A -> B) a n : map f (repeat a n) = repeat (f a) n.
Proof. induction n as [|n IH]; [reflexivity|]. cbn [repeat map]. f_equal. exact IH. Qed.

Section Hist.
Context {Cmp : Type}.
Variables (e : env Cmp) (eng : engine) (sto : store) (amp : bool) (k : nat) (s : list (list Cmp * list pt)).
Hypothesis OK : env_ok e eng amp k s.
Notation M := (matrix e eng k s).
Notation rowsM := (data_rows e eng amp k s).
Notation sens := (sensitivity e eng amp k s).
Definition usable : Prop := (eng, sto) <> (Geoana, ForwardOnly).
Definition uvec (m : vec) : list (R * R * R) := unit3 (mv M (e_phys e m)) (survey_nD s / 3).

Lemma amp_cases : amp = true \/ amp = false.
Proof. destruct amp; auto. Qed.
Lemma M_mat : is_mat (survey_nD s) (e_nC e) M.
Proof. apply rows_is_mat. apply (proj1 OK). Qed.
Lemma phys_len m : length m = e_nP e -> length (e_phys e m) = e_nC e.
Proof. intros H. apply (proj1 (proj2 OK) m H). Qed.
Lemma J_mat m : length m = e_nP e -> is_mat (e_nC e) (e_nP e) (e_physJ e m).
Proof. intros H. apply (proj1 (proj2 OK) m H). Qed.
Lemma M_mat3 : amp = true -> is_mat (3 * (survey_nD s / 3)) (e_nC e) M /\ survey_nD s = (3 * (survey_nD s / 3))%nat.
Proof.
  intros A. destruct (proj2 (proj2 OK) A) as [n Hn]. assert (Q : survey_nD s = (3 * (survey_nD s / 3))%nat) by (rewrite Hn, div3; reflexivity).
  split; [rewrite <- Q; exact M_mat|exact Q].
Qed.
Lemma d_len m : length (mv M (e_phys e m)) = survey_nD s.
Proof. rewrite mv_length. apply M_mat. Qed.
Lemma data_rows_amp m : amp = true -> rowsM m = rows3 (fun i => over3 (at3 0 (mv M (e_phys e m)) i)) M (survey_nD s / 3).
Proof.
  intros A. unfold data_rows, rows3. rewrite A. cbv zeta. rewrite d_len. apply map_ext_in. intros i Hi. apply in_seq in Hi.
  assert (Hn : nth i (amplitudes (mv M (e_phys e m))) 0 = norm3 (at3 0 (mv M (e_phys e m)) i)).
  { apply (nth_amplitudes _ (survey_nD s / 3)); [rewrite d_len; apply M_mat3; exact A|lia]. }
  rewrite Hn. unfold over3, at3, comb3. rewrite !Nat.add_0_r. reflexivity.
Qed.
Lemma rows_mat m : is_mat (n_data amp s) (e_nC e) (rowsM m).
Proof.
  unfold n_data. assert (B : amp = true \/ amp = false) by (destruct amp; auto). destruct B as [A|A].
  - rewrite data_rows_amp by exact A. rewrite A. apply rows3_mat. apply M_mat3. exact A.
  - unfold data_rows. rewrite A. exact M_mat.
Qed.

Lemma rows_plain m : amp = false -> rowsM m = M.
Proof. intros A. unfold data_rows. rewrite A. reflexivity. Qed.

(** State of the caches. *)
Definition Inv (st : sim Cmp) : Prop :=
  s_engine st = eng /\ s_store st = sto /\ s_amp st = amp /\ s_survey st = s /\ s_M st = k /\
  (match s_G st with
   | Some g => usable /\ gmat e st g = M
   | None => eng = Geoana -> sto = Disk -> s_file st = None
   end) /\
  (forall d, s_ampD st = Some d -> amp = true /\ exists m, s_model st = Some m /\ d = uvec (snd m)) /\
  (forall g, s_gtg st = Some g -> exists m w, s_model st = Some m /\ s_w st = Some w /\ Forall (fun a => 0 <= a) w /\ g = weighted_diagonal (e_nC e) (rowsM (snd m)) w).

Lemma set_model_ok st m : Inv st -> length (snd m) = e_nP e ->
  (forall old, s_model st = Some old -> amp = true -> apart old m) ->
  (forall old, s_model st = Some old -> length (snd old) = e_nP e) ->
  exists st', set_model e st m = (st', Ok tt) /\ Inv st' /\ s_model st' = Some m.
Proof.
  intros I L Ha Hl. pose proof I as (I1 & I2 & I3 & I4 & I5 & I6 & I7 & I8). unfold set_model. rewrite L, Nat.eqb_refl.
  assert (Dn : Inv (with_model (deleted st) (Some m))).
  { unfold deleted. rewrite I3. destruct amp_cases as [A|A]; rewrite A.
    - split; [exact I1|]. split; [exact I2|]. split; [exact I3|]. split; [exact I4|]. split; [exact I5|].
      split; [exact I6|]. split; [intros d H; discriminate H|]. intros g H; discriminate H.
    - split; [exact I1|]. split; [exact I2|]. split; [exact I3|]. split; [exact I4|]. split; [exact I5|].
      split; [exact I6|]. split; [intros d H; destruct (I7 d H) as [F _]; congruence|].
      intros g H. destruct (I8 g H) as (m0 & w & Hm & Hw & P & E). exists m, w. split; [reflexivity|]. split; [exact Hw|]. split; [exact P|].
      rewrite E, !rows_plain by exact A. reflexivity. }
  assert (Kp : (amp = true -> exists old, s_model st = Some old /\ snd old = snd m) -> Inv (with_model st (Some m))).
  { intros Hk.
    split; [exact I1|]. split; [exact I2|]. split; [exact I3|]. split; [exact I4|]. split; [exact I5|].
    split; [exact I6|]. split.
    - intros d H. destruct (I7 d H) as (A & m0 & Hm & E). split; [exact A|]. exists m. split; [reflexivity|]. rewrite E.
      destruct (Hk A) as (old & Ho & Es). rewrite Hm in Ho. injection Ho as ->. rewrite Es. reflexivity.
    - intros g H. destruct (I8 g H) as (m0 & w & Hm & Hw & P & E). exists m, w. split; [reflexivity|]. split; [exact Hw|]. split; [exact P|]. rewrite E.
      destruct amp_cases as [A|A].
      + destruct (Hk A) as (old & Ho & Es). rewrite Hm in Ho. injection Ho as ->. rewrite Es. reflexivity.
      + rewrite !rows_plain by exact A. reflexivity. }
  destruct (s_model st) as [old|] eqn:Em.
  - specialize (Ha old eq_refl). specialize (Hl old eq_refl). destruct (fst old =? fst m)%nat eqn:Eid.
    + eexists. split; [reflexivity|]. split; [|reflexivity]. apply Kp. intros A. exists old. split; [reflexivity|].
      destruct (Ha A) as [H|[H _]]; [exact H|]. apply Nat.eqb_eq in Eid. contradiction.
    + unfold allclose at 1. rewrite Hl, L, Nat.eqb_refl. destruct (forallb _ _) eqn:Eb.
      * eexists. split; [reflexivity|]. split; [|reflexivity]. apply Kp. intros A. exists old. split; [reflexivity|].
        destruct (Ha A) as [H|[_ H]]; [exact H|]. unfold allclose in H. rewrite Hl, L, Nat.eqb_refl, Eb in H. discriminate.
      * eexists. split; [reflexivity|]. split; [exact Dn|reflexivity].
  - eexists. split; [reflexivity|]. split; [exact Dn|reflexivity].
Qed.
Lemma fresh_ok st : Inv st -> fresh e st = M.
Proof. intros (I1 & I2 & I3 & I4 & I5 & _). unfold fresh. rewrite I1, I4, I5. reflexivity. Qed.
Lemma get_G_ok st : Inv st -> usable -> exists st', get_G e st = (st', Ok M) /\ Inv st' /\ s_model st' = s_model st.
Proof.
  intros I U. pose proof (fresh_ok st I) as F. destruct I as (I1 & I2 & I3 & I4 & I5 & I6 & I7 & I8). unfold get_G.
  destruct (s_G st) as [g|] eqn:EG.
  - destruct I6 as [_ I6]. rewrite I6. exists st. split; [reflexivity|]. split; [|reflexivity].
    split; [exact I1|]. split; [exact I2|]. split; [exact I3|]. split; [exact I4|]. split; [exact I5|]. split; [rewrite EG; split; assumption|]. split; assumption.
  - assert (W : forall g f, gmat e (with_G st (Some g) f) g = M -> Inv (with_G st (Some g) f)).
    { intros g f H. split; [exact I1|]. split; [exact I2|]. split; [exact I3|]. split; [exact I4|]. split; [exact I5|]. split; [split; assumption|]. split; assumption. }
    assert (Fw : forall g f, fresh e (with_G st (Some g) f) = M) by (intros; exact F).
    unfold usable in U.
    assert (B : (eng = Geoana \/ eng = Choclo) /\ (sto = Ram \/ sto = Disk \/ sto = ForwardOnly)) by (destruct eng, sto; auto).
    destruct B as [[E1|E1] [E2|[E2|E2]]]; rewrite (eq_trans I1 E1), (eq_trans I2 E2); try (exfalso; apply U; rewrite E1, E2; reflexivity).
    + rewrite F. eexists. split; [reflexivity|]. split; [apply W; reflexivity|reflexivity].
    + rewrite (I6 E1 E2), F. eexists. split; [reflexivity|]. split; [apply W; reflexivity|reflexivity].
    + rewrite F. eexists. split; [reflexivity|]. split; [apply W; reflexivity|reflexivity].
    + cbv zeta. cbn [gmat s_file with_G]. rewrite F. eexists. split; [reflexivity|]. split; [apply W; reflexivity|reflexivity].
    + cbv zeta. cbn [gmat]. rewrite Fw. eexists. split; [reflexivity|]. split; [apply W; cbn [gmat]; apply Fw|reflexivity].
Qed.
Lemma ampDeriv_ok st m : Inv st -> usable -> amp = true -> s_model st = Some m -> length (snd m) = e_nP e ->
  exists st', ampDeriv e st = (st', Ok (uvec (snd m))) /\ Inv st' /\ s_model st' = Some m.
Proof.
  intros I U A Hm Lm. unfold ampDeriv. destruct (s_ampD st) as [d|] eqn:Ed.
  - exists st. pose proof I as (_ & _ & _ & _ & _ & _ & I7 & _). destruct (I7 d Ed) as (_ & m0 & H0 & ->). rewrite Hm in H0. injection H0 as ->.
    split; [reflexivity|]. split; [exact I|exact Hm].
  - destruct (get_G_ok st I U) as (st1 & -> & I' & Hm'). unfold lift; cbn [fst snd]. rewrite Hm in Hm'.
    unfold pure, chi; cbn [fst snd]. rewrite Hm'. unfold matvec. rewrite phys_len, Nat.eqb_refl by exact Lm. cbn [fst snd].
    rewrite (normalized_ok _ (survey_nD s / 3)) by (rewrite d_len; apply M_mat3; exact A). cbn [fst snd].
    eexists. split; [reflexivity|]. split; [|exact Hm'].
    destruct I' as (I1 & I2 & I3 & I4 & I5 & I6 & I7 & I8).
    split; [exact I1|]. split; [exact I2|]. split; [exact I3|]. split; [exact I4|]. split; [exact I5|]. split; [exact I6|]. split; [|exact I8].
    intros d H. injection H as <-. split; [exact A|]. exists m. split; [exact Hm'|reflexivity].
Qed.
Lemma uvec_rows m x : amp = true -> length m = e_nP e -> along3 (uvec m) (map (at3 0 (mv M x)) (seq 0 (survey_nD s / 3))) = Ok (mv (rowsM m) x).
Proof.
  intros A Lm. rewrite data_rows_amp by exact A. unfold uvec, unit3.
  apply (along3_mv (survey_nD s / 3) (e_nC e)). apply M_mat3. exact A.
Qed.

Lemma fields_ok st m : Inv st -> s_model st = Some m -> length (snd m) = e_nP e ->
  exists st', (lift (match s_store st with
        | ForwardOnly => pure st (matvec (e_nC e) (fresh e st) (chi e st))
        | _ => lift (get_G e st) (fun st G => pure st (matvec (e_nC e) G (chi e st)))
        end) (fun st f => pure st (if s_amp st then compute_amplitude f else Ok f))) = (st', Ok (predicted e eng amp k s (snd m))) /\ Inv st' /\ s_model st' = Some m.
Proof.
  intros I Hm Lm.
  assert (Fin : forall st1, Inv st1 -> s_model st1 = Some m -> exists st', pure st1 (if s_amp st1 then compute_amplitude (mv M (e_phys e (snd m))) else Ok (mv M (e_phys e (snd m)))) = (st', Ok (predicted e eng amp k s (snd m))) /\ Inv st' /\ s_model st' = Some m).
  { intros st1 I1 H1. exists st1. split; [|split; [exact I1|exact H1]]. unfold pure. f_equal.
    rewrite (proj1 (proj2 (proj2 I1))). unfold predicted. cbv zeta. destruct amp_cases as [A|A]; rewrite A; [|reflexivity].
    apply (amplitude_ok _ (survey_nD s / 3)). rewrite d_len. apply M_mat3. exact A. }
  assert (S0 : s_store st = sto) by apply I. rewrite S0.
  assert (B : sto = Ram \/ sto = Disk \/ sto = ForwardOnly) by (destruct sto; auto). destruct B as [Es|[Es|Es]]; rewrite Es.
  - destruct (get_G_ok st I) as (st1 & -> & I1 & H1); [unfold usable; rewrite Es; congruence|]. unfold lift at 2; cbn [fst snd]. unfold pure at 1, chi. rewrite H1, Hm.
    unfold matvec. rewrite phys_len, Nat.eqb_refl by exact Lm. unfold lift; cbn [fst snd]. apply Fin; [exact I1|congruence].
  - destruct (get_G_ok st I) as (st1 & -> & I1 & H1); [unfold usable; rewrite Es; congruence|]. unfold lift at 2; cbn [fst snd]. unfold pure at 1, chi. rewrite H1, Hm.
    unfold matvec. rewrite phys_len, Nat.eqb_refl by exact Lm. unfold lift; cbn [fst snd]. apply Fin; [exact I1|congruence].
  - unfold pure at 1, chi. rewrite Hm, (fresh_ok st I). unfold matvec. rewrite phys_len, Nat.eqb_refl by exact Lm. unfold lift; cbn [fst snd]. apply Fin; assumption.
Qed.
Lemma sens_eq m : sens m = map (mtv (e_nP e) (e_physJ e m)) (rowsM m).
Proof. reflexivity. Qed.

Definition ready (st : sim Cmp) (m : mobj) : Prop :=
  Inv st /\ length (snd m) = e_nP e /\ (forall old, s_model st = Some old -> amp = true -> apart old m) /\
  (forall old, s_model st = Some old -> length (snd old) = e_nP e).
Definition after (r : sim Cmp * result out) (m : mobj) (x : result out) : Prop :=
  exists st', r = (st', x) /\ Inv st' /\ s_model st' = Some m.

Lemma step_fields st m : ready st m -> after (step e st (OFields m)) m (Ok (OutV (predicted e eng amp k s (snd m)))).
Proof.
  intros (I & L & Ha & Hl). destruct (set_model_ok st m I L Ha Hl) as (st1 & E1 & I1 & H1).
  destruct (fields_ok st1 m I1 H1 L) as (st2 & E2 & I2 & H2).
  exists st2. split; [|split; assumption]. cbn [step]. unfold fields. rewrite E1. unfold lift at 1; cbn [fst snd]. rewrite E2. reflexivity.
Qed.
Lemma sens_mv m v : length m = e_nP e -> length v = e_nP e -> mv (rowsM m) (mv (e_physJ e m) v) = mv (sens m) v.
Proof. intros L Lv. symmetry. apply (mv_matmul _ _ (n_data amp s) (e_nC e)); [apply rows_mat|apply J_mat; exact L|exact Lv]. Qed.
Lemma step_jvec st m v : ready st m -> usable -> length v = e_nP e -> after (step e st (OJvec m v)) m (Ok (OutV (mv (sens (snd m)) v))).
Proof.
  intros (I & L & Ha & Hl) U Lv. destruct (set_model_ok st m I L Ha Hl) as (st1 & E1 & I1 & H1).
  destruct (get_G_ok st1 I1 U) as (st2 & E2 & I2 & H2). rewrite H1 in H2.
  unfold after. cbn [step]. unfold jvec. rewrite E1. unfold lift at 1; cbn [fst snd].
  unfold chiJ at 1. rewrite H1. unfold matvec at 1. rewrite Lv, Nat.eqb_refl. unfold pure at 1. unfold lift at 1; cbn [fst snd].
  rewrite E2. unfold lift at 1; cbn [fst snd]. unfold matvec at 1. rewrite mv_length, (proj1 (J_mat _ L)), Nat.eqb_refl. unfold pure at 1. unfold lift at 1; cbn [fst snd].
  rewrite (proj1 (proj2 (proj2 I2))). destruct amp_cases as [A|A]; rewrite A.
  - rewrite (group3_ok 0 (survey_nD s / 3)) by (rewrite mv_length, (proj1 M_mat); apply M_mat3; exact A).
    unfold pure at 1. unfold lift at 1; cbn [fst snd].
    destruct (ampDeriv_ok st2 m I2 U A H2 L) as (st3 & E3 & I3 & H3). rewrite E3. unfold lift at 1; cbn [fst snd].
    unfold pure. rewrite uvec_rows by assumption. rewrite <- A, sens_mv by assumption. exists st3. split; [reflexivity|]. split; assumption.
  - unfold pure, outv; cbn [fst snd bind]. rewrite <- A, <- sens_mv by assumption. rewrite rows_plain by exact A. exists st2. split; [reflexivity|]. split; assumption.
Qed.
Lemma step_jtvec st m v : ready st m -> usable -> length v = n_data amp s -> after (step e st (OJtvec m v)) m (Ok (OutV (mtv (e_nP e) (sens (snd m)) v))).
Proof.
  intros (I & L & Ha & Hl) U Lv. destruct (set_model_ok st m I L Ha Hl) as (st1 & E1 & I1 & H1).
  assert (S : mtv (e_nP e) (e_physJ e (snd m)) (mtv (e_nC e) (rowsM (snd m)) v) = mtv (e_nP e) (sens (snd m)) v).
  { apply (mtv_matmul _ _ (n_data amp s)); [apply rows_mat|apply J_mat; exact L|exact Lv]. }
  unfold after. cbn [step]. unfold jtvec. rewrite E1. unfold lift at 1; cbn [fst snd].
  assert (Q : exists st2 u, (if s_amp st1 then lift (ampDeriv e st1) (fun st d => pure st (spread3 d v)) else pure st1 (Ok v)) = (st2, Ok u) /\ Inv st2 /\ s_model st2 = Some m
     /\ length u = survey_nD s /\ mtv (e_nC e) M u = mtv (e_nC e) (rowsM (snd m)) v).
  { rewrite (proj1 (proj2 (proj2 I1))). unfold n_data in Lv. destruct amp_cases as [A|A].
    - rewrite A in Lv |- *. destruct (ampDeriv_ok st1 m I1 U A H1 L) as (st3 & E3 & I3 & H3). rewrite E3. unfold lift; cbn [fst snd].
      destruct (spread3_mtv (survey_nD s / 3) (e_nC e) M (proj1 (M_mat3 A)) (fun i => over3 (at3 0 (mv M (e_phys e (snd m))) i)) v Lv) as (u & Eu & Lu & Du).
      exists st3, u. split; [unfold pure; unfold uvec, unit3; rewrite Eu; reflexivity|]. split; [exact I3|]. split; [exact H3|].
      split; [rewrite Lu; symmetry; apply M_mat3; exact A|]. rewrite <- A, data_rows_amp by exact A. exact Du.
    - rewrite A in Lv |- *. exists st1, v. split; [reflexivity|]. split; [exact I1|]. split; [exact H1|]. split; [exact Lv|].
      rewrite <- A, rows_plain by exact A. reflexivity. }
  destruct Q as (st2 & u & E2 & I2 & H2 & Lu & Du). rewrite E2. unfold lift at 1; cbn [fst snd].
  destruct (get_G_ok st2 I2 U) as (st3 & E3 & I3 & H3). rewrite H2 in H3. rewrite E3. unfold lift at 1; cbn [fst snd].
  unfold tmatvec at 1. rewrite Lu, (proj1 M_mat), Nat.eqb_refl. unfold pure at 1. unfold lift at 1; cbn [fst snd].
  unfold chiJ. rewrite H3. unfold tmatvec. rewrite (mtv_length _ _ _ _ M_mat), (proj1 (J_mat _ L)), Nat.eqb_refl. rewrite Du, S.
  exists st3. split; [reflexivity|]. split; assumption.
Qed.
Lemma step_getJ st m : ready st m -> usable -> amp = false -> after (step e st (OGetJ m)) m (Ok (OutM (sens (snd m)))).
Proof.
  intros (I & L & Ha & Hl) U A. destruct (set_model_ok st m I L Ha Hl) as (st1 & E1 & I1 & H1).
  destruct (get_G_ok st1 I1 U) as (st2 & E2 & I2 & H2). rewrite H1 in H2.
  unfold after. cbn [step]. unfold getJ. rewrite (proj1 (proj2 (proj2 I))), A, E1. unfold lift at 1; cbn [fst snd].
  rewrite E2. unfold lift; cbn [fst snd]. unfold pure, chiJ. rewrite H2. unfold outm; cbn [fst snd bind].
  exists st2. split; [reflexivity|split; assumption].
Qed.
Lemma same_weights_ok a b : same_weights a b = true <-> a = b.
Proof. unfold same_weights. destruct (list_eq_dec Req_EM_T a b); split; congruence. Qed.
Lemma gtg_ok st m w : Inv st -> usable -> s_model st = Some m -> length (snd m) = e_nP e -> length w = n_data amp s ->
  (sto = ForwardOnly -> amp = false /\ choclo_gtg (e_rows e Choclo k) w s (vzero (e_nC e)) = weighted_diagonal (e_nC e) M w) ->
  exists st', gtg_diagonal e st w = (st', Ok (weighted_diagonal (e_nC e) (rowsM (snd m)) w)) /\ Inv st' /\ s_model st' = Some m.
Proof.
  intros I U Hm L Lw Hf. pose proof I as (I1 & I2 & I3 & I4 & I5 & _). unfold gtg_diagonal.
  assert (NA : amp = false -> exists st', lift (get_G e st) (fun st G => pure st (if (length w =? length G)%nat then Ok (einsum (e_nC e) w G) else Err ValueError)) = (st', Ok (weighted_diagonal (e_nC e) (rowsM (snd m)) w)) /\ Inv st' /\ s_model st' = Some m).
  { intros A. destruct (get_G_ok st I U) as (st2 & E2 & I2' & H2). rewrite E2. unfold lift; cbn [fst snd]. unfold n_data in Lw. rewrite A in Lw.
    rewrite Lw, (proj1 M_mat), Nat.eqb_refl. exists st2. unfold pure. rewrite einsum_diag, rows_plain by exact A. split; [reflexivity|]. split; [exact I2'|congruence]. }
  assert (AM : amp = true -> exists st', lift (ampDeriv e st) (fun st d => lift (get_G e st) (fun st G => pure st (do T <- group3 G; amp_gtg (e_nC e) w d T (vzero (e_nC e))))) = (st', Ok (weighted_diagonal (e_nC e) (rowsM (snd m)) w)) /\ Inv st' /\ s_model st' = Some m).
  { intros A. destruct (ampDeriv_ok st m I U A Hm L) as (st3 & E3 & I3' & H3). rewrite E3. unfold lift at 1; cbn [fst snd].
    destruct (get_G_ok st3 I3' U) as (st2 & E2 & I2' & H2). rewrite E2. unfold lift; cbn [fst snd]. unfold n_data in Lw. rewrite A in Lw.
    rewrite (group3_ok [] (survey_nD s / 3)) by (rewrite (proj1 M_mat); apply M_mat3; exact A). cbn [bind].
    unfold uvec, unit3. rewrite (amp_gtg_ok (survey_nD s / 3) (e_nC e) M (proj1 (M_mat3 A))); [|intros i Hi; apply in_seq in Hi; lia|rewrite seq_length; exact Lw|apply vzero_length].
    exists st2. split; [|split; [exact I2'|congruence]]. unfold pure. do 2 f_equal. rewrite data_rows_amp by exact A.
    match goal with |- vadd _ ?x = ?y => change x with y; set (z := y) end.
    assert (Lz : length z = e_nC e) by (apply nth_wdiag; apply (rows3_mat _ _ _ (proj1 (M_mat3 A)))).
    clearbody z. rewrite <- Lz. clear. induction z as [|x z IH]; [reflexivity|]. cbn [length vzero vconst repeat vadd zipw]. f_equal; [ring|exact IH]. }
  assert (B : (eng = Geoana \/ eng = Choclo) /\ (sto = Ram \/ sto = Disk \/ sto = ForwardOnly)) by (destruct eng, sto; auto).
  destruct B as [[E1|E1] [E2|[E2|E2]]]; rewrite (eq_trans I1 E1), (eq_trans I2 E2); try (destruct amp_cases as [A|A]; rewrite (eq_trans I3 A); [apply AM; exact A|apply NA; exact A]).
  - exfalso. apply U. rewrite E1, E2. reflexivity.
  - destruct (Hf E2) as [A Q]. rewrite (eq_trans I3 A), I4, I5, Q. exists st. split; [|split; assumption]. rewrite rows_plain by exact A. reflexivity.
Qed.
Definition weights_of (W : option vec) : vec := match W with Some d => map (fun x => x * x) d | None => repeat 1 (survey_nD s) end.
Lemma weights_nonneg W : Forall (fun a => 0 <= a) (weights_of W).
Proof.
  apply Forall_forall. intros x Hx. destruct W as [d|]; cbn in Hx.
  - apply in_map_iff in Hx. destruct Hx as (y & <- & _). nra.
  - apply repeat_spec in Hx. lra.
Qed.
Lemma diag_final m w : length m = e_nP e -> one_per_column (e_physJ e m) -> Forall (fun a => 0 <= a) w ->
  sqrt_colsum (e_nP e) (weighted_diagonal (e_nC e) (rowsM m) w) (e_physJ e m) = weighted_diagonal (e_nP e) (sens m) w.
Proof.
  intros L H1 P. rewrite sqrt_colsum_ok by (apply wdiag_nonneg; [apply (rows_mat m)|exact P]).
  apply (diag_chain _ (e_nC e) (e_nP e) (J_mat _ L) H1 _ (n_data amp s)). apply rows_mat.
Qed.
Lemma step_diag st m W : ready st m -> usable -> one_per_column (e_physJ e (snd m)) -> length (weights_of W) = n_data amp s ->
  (sto = ForwardOnly -> amp = false /\ choclo_gtg (e_rows e Choclo k) (weights_of W) s (vzero (e_nC e)) = weighted_diagonal (e_nC e) M (weights_of W)) ->
  after (step e st (ODiag m W)) m (Ok (OutV (weighted_diagonal (e_nP e) (sens (snd m)) (weights_of W)))).
Proof.
  intros (I & L & Ha & Hl) U H1 Lw Hf. destruct (set_model_ok st m I L Ha Hl) as (st1 & E1 & I1 & Hm).
  unfold after. cbn [step]. unfold jtjdiag. rewrite E1. unfold lift at 1; cbn [fst snd]. cbv zeta.
  replace (match W with Some d => map sq d | None => vconst (survey_nD (s_survey st1)) 1 end) with (weights_of W)
    by (rewrite (proj1 (proj2 (proj2 (proj2 I1)))); destruct W; reflexivity).
  set (cached := match s_gtg st1, s_w st1 with Some g, Some w' => if same_weights w' (weights_of W) then Some g else None | _, _ => None end).
  assert (Q : exists st2, match cached with Some g => pure st1 (Ok g) | None => lift (gtg_diagonal e st1 (weights_of W)) (fun st g => (with_gtg st (Some g) (Some (weights_of W)), Ok g)) end
     = (st2, Ok (weighted_diagonal (e_nC e) (rowsM (snd m)) (weights_of W))) /\ Inv st2 /\ s_model st2 = Some m).
  { destruct cached as [g|] eqn:Ec; subst cached.
    - destruct (s_gtg st1) as [g'|] eqn:Eg; [|discriminate]. destruct (s_w st1) as [w'|] eqn:Ew; [|discriminate].
      destruct (same_weights w' (weights_of W)) eqn:Es; [|discriminate]. injection Ec as ->. apply same_weights_ok in Es.
      pose proof I1 as (_ & _ & _ & _ & _ & _ & _ & I8). destruct (I8 g Eg) as (m0 & w & H0 & Hw & _ & Eq). rewrite Hm in H0. injection H0 as <-.
      rewrite Ew in Hw. injection Hw as <-. exists st1. split; [unfold pure; rewrite Eq, Es; reflexivity|]. split; assumption.
    - destruct (gtg_ok st1 m (weights_of W) I1 U Hm L Lw Hf) as (st2 & E2 & I2 & H2). rewrite E2. unfold lift; cbn [fst snd].
      eexists. split; [reflexivity|]. split; [|exact H2].
      destruct I2 as (J1 & J2 & J3 & J4 & J5 & J6 & J7 & J8).
      split; [exact J1|]. split; [exact J2|]. split; [exact J3|]. split; [exact J4|]. split; [exact J5|]. split; [exact J6|]. split; [exact J7|].
      intros g H. injection H as <-. exists m, (weights_of W). split; [exact H2|]. split; [reflexivity|]. split; [apply weights_nonneg|reflexivity]. }
  destruct Q as (st2 & E2 & I2 & H2). rewrite E2. unfold lift; cbn [fst snd]. unfold pure, chiJ. rewrite H2.
  rewrite diag_final by (try assumption; apply weights_nonneg). exists st2. split; [reflexivity|]. split; assumption.
Qed.

(** One question, and then all. *)
Lemma fits_model o : fits e eng amp k s sto o -> exists m, model_of o = Some m /\ length (snd m) = e_nP e.
Proof. destruct o; cbn [fits model_of]; try (intros []); intros; eexists; (split; [reflexivity|]); tauto. Qed.
Lemma step_ok st o m : fits e eng amp k s sto o -> model_of o = Some m -> ready st m ->
  exists st', step e st o = (st', expected e eng amp k s o) /\ Inv st' /\ (s_model st' = Some m \/ s_model st' = s_model st).
Proof.
  intros F Hm Rd.
  assert (Done : forall x, after (step e st o) m x -> x = expected e eng amp k s o -> exists st', step e st o = (st', expected e eng amp k s o) /\ Inv st' /\ (s_model st' = Some m \/ s_model st' = s_model st)).
  { intros x (st' & E & I & H) Ex. exists st'. rewrite <- Ex. split; [exact E|]. split; [exact I|]. left. exact H. }
  destruct o as [m'|m' v|m' v|m'|m' W| | | | ]; cbn [fits] in F; try contradiction; cbn [model_of] in Hm; injection Hm as ->.
  - eapply Done; [apply step_fields; exact Rd|reflexivity].
  - destruct F as (U & _ & Lv & _). eapply Done; [apply step_jvec; assumption|reflexivity].
  - destruct F as (U & _ & Lv & _). eapply Done; [apply step_jtvec; assumption|reflexivity].
  - destruct F as (U & _). destruct amp_cases as [A|A].
    + exists st. destruct Rd as (I & _). cbn [step expected]. unfold getJ. rewrite (proj1 (proj2 (proj2 I))), A. split; [reflexivity|]. split; [exact I|right; reflexivity].
    + eapply Done; [apply step_getJ; assumption|]. cbn [expected]. destruct amp; [discriminate|reflexivity].
  - destruct F as (U & _ & _ & H1 & HW & HF).
    assert (Lw : length (weights_of W) = n_data amp s).
    { destruct W as [d|]; cbn [weights_of]; [rewrite map_length; exact HW|]. rewrite repeat_length. unfold n_data. rewrite HW. reflexivity. }
    eapply Done; [apply step_diag; try assumption|reflexivity].
    intros Es. destruct (HF Es) as (A & Hr & Hu). split; [exact A|].
    assert (Ec : eng = Choclo) by (destruct eng; [exfalso; apply U; rewrite Es; reflexivity|reflexivity]).
    assert (Q : exists a, weights_of W = repeat a (survey_nD s)).
    { destruct W as [d|]; [|exists 1; reflexivity]. destruct Hu as (a & ->). exists (a * a). cbn [weights_of]. rewrite map_repeat'. reflexivity. }
    destruct Q as (a & ->). rewrite (c68_gtg_uniform _ (e_nC e) a s (repeat [] (survey_nD s))); [| |apply repeat_length|apply Forall_forall; exact Hr].
    + rewrite choclo_matrix_ok by apply repeat_length. unfold matrix. rewrite Ec. reflexivity.
    + intros c l. rewrite <- Ec. apply (proj1 OK).
Qed.
Lemma run_ok : forall ops st, Inv st -> Forall (fits e eng amp k s sto) ops -> (amp = true -> well_separated ops) ->
  (forall old o b, s_model st = Some old -> In o ops -> model_of o = Some b -> amp = true -> apart old b) ->
  (forall old, s_model st = Some old -> length (snd old) = e_nP e) ->
  run e st ops = map (expected e eng amp k s) ops.
Proof.
  induction ops as [|o ops IH]; intros st I F W Ha Hl; [reflexivity|].
  inversion F as [|? ? F1 F2]; subst. destruct (fits_model o F1) as (m & Hm & Lm).
  destruct (step_ok st o m F1 Hm) as (st' & E & I' & H').
  { split; [exact I|]. split; [exact Lm|]. split; [|exact Hl]. intros old Ho A. apply (Ha old o m Ho); [left; reflexivity|exact Hm|exact A]. }
  cbn [run map]. rewrite E. cbn [fst snd]. f_equal. apply IH; [exact I'|exact F2| | | ].
  - intros A o1 o2 a b H1 H2. apply (W A); right; assumption.
  - intros old o2 b Ho Hi Hb A. destruct H' as [H'|H']; rewrite H' in Ho.
    + injection Ho as <-. apply (W A o o2 m b); [left; reflexivity|right; exact Hi|exact Hm|exact Hb].
    + apply (Ha old o2 b Ho); [right; exact Hi|exact Hb|exact A].
  - intros old Ho. destruct H' as [H'|H']; rewrite H' in Ho; [injection Ho as <-; exact Lm|apply Hl; exact Ho].
Qed.
Lemma history_ok file ops : (eng = Geoana -> sto = Disk -> file = None) -> Forall (fits e eng amp k s sto) ops -> (amp = true -> well_separated ops) ->
  run e (new eng sto amp s k file) ops = map (expected e eng amp k s) ops.
Proof.
  intros Hf F W. apply run_ok; [|exact F|exact W|intros; discriminate|intros; discriminate].
  split; [reflexivity|]. split; [reflexivity|]. split; [reflexivity|]. split; [reflexivity|]. split; [reflexivity|].
  split; [exact Hf|]. split; [intros d H; discriminate H|intros g H; discriminate H].
Qed.
End Hist.
