(** Derivative of the data; forward-only simulations; counterexamples. *)
From Verif Require Import PfSim SpecPfSim PfFacts PfFacts2 PfFacts3 PfFacts4 PfFacts6 VecDeriv PfSimFacts PfSimFacts2.
Local Open Scope R_scope.

Lemma dpl_norm3 f g h a b c (t : R) : derivable_pt_lim f t a -> derivable_pt_lim g t b -> derivable_pt_lim h t c ->
  norm3 (f t, g t, h t) <> 0 -> derivable_pt_lim (fun t => norm3 (f t, g t, h t)) t (dot3 (over3 (f t, g t, h t)) (a, b, c)).
Proof.
  intros F G H N. unfold norm3 in *. set (q := fun t => f t * f t + g t * g t + h t * h t).
  assert (Q : derivable_pt_lim q t (2 * (f t * a + g t * b + h t * c))).
  { apply (dpl_eq _ _ ((a * f t + f t * a) + (b * g t + g t * b) + (c * h t + h t * c))); [ring|].
    apply (dpl_plus (fun t => f t * f t + g t * g t) (fun t => h t * h t)); [apply (dpl_plus (fun t => f t * f t) (fun t => g t * g t))|]; apply dpl_mult; assumption. }
  assert (P : 0 < q t).
  { assert (0 <= q t) by (unfold q; nra). destruct (Req_dec (q t) 0) as [E|E]; [|lra]. exfalso. apply N. unfold q in E. rewrite E. apply sqrt_0. }
  apply (dpl_eq _ _ (/ (2 * sqrt (q t)) * (2 * (f t * a + g t * b + h t * c)))).
  - unfold dot3, over3, norm3. fold (q t). field. apply Rgt_not_eq, sqrt_lt_R0, P.
  - apply (derivable_pt_lim_comp q sqrt t); [exact Q|]. apply derivable_pt_lim_sqrt. exact P.
Qed.
Lemma bcases (b : bool) : b = true \/ b = false.
Proof. destruct b; auto. Qed.
Section Deriv.
Context {Cmp : Type}.
Variables (e : env Cmp) (eng : engine) (amp : bool) (k : nat) (s : list (list Cmp * list pt)).
Hypothesis OK : env_ok e eng amp k s.
Lemma predicted_deriv m : length m = e_nP e -> no_zero_amplitude e eng amp k s m ->
  has_jacobian (e_nP e) (e_nC e) (e_phys e) m (mv (e_physJ e m)) ->
  has_jacobian (e_nP e) (n_data amp s) (predicted e eng amp k s) m (mv (sensitivity e eng amp k s m)).
Proof.
  intros Lm Nz Hj h Lh. specialize (Hj h Lh). pose proof (M_mat e eng amp k s OK) as HM.
  pose proof (vderiv_mv _ _ _ _ _ _ HM Hj) as D.
  rewrite <- (sens_mv e eng amp k s OK m h Lm Lh).
  assert (E0 : vadd m (vscale 0 h) = m).
  { apply list_nth_ext; [rewrite vadd_length; [reflexivity|rewrite vscale_length; congruence]|]. intros i. rewrite nth_add by (rewrite vscale_length; congruence). rewrite nth_scale. ring. }
  destruct (bcases amp) as [A|A].
  - pose proof (M_mat3 e eng amp k s OK A) as [HM3 H3]. rewrite (data_rows_amp e eng amp k s OK m A).
    rewrite (rows3_mv _ _ _ HM3). unfold no_zero_amplitude, predicted, n_data in *. rewrite A in *. cbv zeta in *.
    set (n := (survey_nD s / 3)%nat) in *. set (G := matrix e eng k s) in *.
    destruct D as (D1 & D2 & D3).
    split; [intros t; apply amplitudes_length; rewrite D1; exact H3|]. split; [rewrite map_length, seq_length; reflexivity|].
    intros i Hi. rewrite nth_map_seq by exact Hi.
    apply (dpl_ext (fun t => norm3 (at3 0 (mv G (e_phys e (vadd m (vscale t h)))) i))).
    { intros t. symmetry. apply (nth_amplitudes _ n); [rewrite D1; exact H3|exact Hi]. }
    unfold at3 at 1 3.
    match goal with |- derivable_pt_lim _ _ (dot3 (over3 (at3 0 ?v i)) _) => replace (at3 0 v i) with (at3 0 (mv G (e_phys e (vadd m (vscale 0 h)))) i) by (rewrite E0; reflexivity) end.
    unfold at3. apply (dpl_norm3 (fun t => nth (3 * i) (mv G (e_phys e (vadd m (vscale t h)))) 0) (fun t => nth (3 * i + 1) (mv G (e_phys e (vadd m (vscale t h)))) 0) (fun t => nth (3 * i + 2) (mv G (e_phys e (vadd m (vscale t h)))) 0)); try (apply D3; lia).
    rewrite E0. specialize (Nz eq_refl). rewrite Forall_forall in Nz. apply (Nz (norm3 (at3 0 (mv G (e_phys e m)) i))).
    assert (L0 : length (mv G (e_phys e m)) = (3 * n)%nat) by (rewrite <- H3, mv_length; apply HM).
    rewrite <- (nth_amplitudes _ n) by assumption. apply nth_In. rewrite (amplitudes_length _ n); assumption.
  - rewrite rows_plain by exact A. unfold predicted, n_data. rewrite A. cbv zeta. exact D.
Qed.
Lemma sens_adjoint m v w : length m = e_nP e -> length v = e_nP e -> length w = n_data amp s ->
  dot w (mv (sensitivity e eng amp k s m) v) = dot (mtv (e_nP e) (sensitivity e eng amp k s m) w) v.
Proof.
  intros Lm Lv Lw. apply (mv_mtv_adjoint (n_data amp s)); [|exact Lw|exact Lv].
  apply (matmul_mat _ _ _ (e_nC e)); [apply rows_mat; exact OK|]. apply (J_mat e eng amp k s OK). exact Lm.
Qed.
End Deriv.

(** Forward only: no use of stored results. *)
Section Forward.
Context {Cmp : Type}.
Variable e : env Cmp.
Definition lens (st : sim Cmp) : Prop := forall old, s_model st = Some old -> length (snd old) = e_nP e.
Definition kept (st st' : sim Cmp) : Prop := s_store st' = s_store st /\ (s_model st' = s_model st).
Lemma lift_kept {A B} (r : sim Cmp * result A) (f : sim Cmp -> A -> sim Cmp * result B) (P : sim Cmp -> Prop) :
  P (fst r) -> (forall st a, P st -> P (fst (f st a))) -> P (fst (lift r f)).
Proof. intros H1 H2. unfold lift. destruct (snd r); [apply H2; exact H1|exact H1]. Qed.
Definition good0 (sto : store) (st : sim Cmp) : Prop := s_store st = sto /\ lens st.
Lemma good_set sto st m : good0 sto st -> good0 sto (fst (set_model e st m)).
Proof.
  intros [H1 H2]. unfold set_model. destruct (length (snd m) =? e_nP e)%nat eqn:El; [|split; assumption].
  apply Nat.eqb_eq in El.
  assert (D : s_store (deleted st) = sto) by (unfold deleted; destruct (s_amp st); exact H1).
  assert (A : forall x, s_store x = sto -> good0 sto (with_model x (Some m))) by (intros x Hx; split; [exact Hx|]; intros old Ho; injection Ho as <-; exact El).
  destruct (s_model st) as [old|]; [|apply A; exact D]. destruct (fst old =? fst m)%nat; [apply A; exact H1|].
  destruct (allclose (snd old) (snd m)) as [[]|]; [apply A; exact H1|apply A; exact D|split; assumption].
Qed.
Lemma good_same sto st st' : s_store st' = s_store st -> s_model st' = s_model st -> good0 sto st -> good0 sto st'.
Proof. intros E1 E2 [H1 H2]. split; [congruence|]. intros old Ho. apply H2. congruence. Qed.
Lemma good_G sto st : good0 sto st -> good0 sto (fst (get_G e st)).
Proof.
  intros H. unfold get_G. destruct (s_G st); [exact H|].
  destruct (s_engine st), (s_store st); cbn [fst]; try exact H; try (refine (good_same _ _ _ _ _ H); reflexivity).
  destruct (s_file st) as [F|]; [destruct (shape_ok F _ _)|]; refine (good_same _ _ _ _ _ H); reflexivity.
Qed.
Lemma good_ampD sto st : good0 sto st -> good0 sto (fst (ampDeriv e st)).
Proof.
  intros H. unfold ampDeriv. destruct (s_ampD st); [exact H|].
  apply lift_kept; [apply good_G; exact H|]. intros x a Hx. apply lift_kept; [exact Hx|]. intros y b Hy. apply lift_kept; [exact Hy|].
  intros z c Hz. refine (good_same _ _ _ _ _ Hz); reflexivity.
Qed.
Lemma good_gtg sto st w : good0 sto st -> good0 sto (fst (gtg_diagonal e st w)).
Proof.
  intros H. unfold gtg_diagonal.
  destruct (s_engine st), (s_store st), (s_amp st); try exact H;
    try (apply lift_kept; [apply good_G; exact H|intros x a Hx; exact Hx]);
    (apply lift_kept; [apply good_ampD; exact H|]; intros x a Hx; apply lift_kept; [apply good_G; exact Hx|]; intros y b Hy; exact Hy).
Qed.
Lemma good_step sto st o : good0 sto st -> good0 sto (fst (step e st o)).
Proof.
  intros H. destruct o as [m|m v|m v|m|m W|s'|k'|b|F]; cbn [step]; try exact H.
  - unfold fields, outv; cbn [fst]. apply lift_kept; [apply good_set; exact H|]. intros x a Hx. apply lift_kept; [|intros y b Hy; exact Hy].
    destruct (s_store x); try exact Hx; (apply lift_kept; [apply good_G; exact Hx|intros y b Hy; exact Hy]).
  - unfold jvec, outv; cbn [fst]. apply lift_kept; [apply good_set; exact H|]. intros x a Hx. apply lift_kept; [exact Hx|]. intros y b Hy.
    apply lift_kept; [apply good_G; exact Hy|]. intros z c Hz. apply lift_kept; [exact Hz|]. intros u d Hu. destruct (s_amp u); [|exact Hu].
    apply lift_kept; [exact Hu|]. intros r q Hr. apply lift_kept; [apply good_ampD; exact Hr|intros; assumption].
  - unfold jtvec, outv; cbn [fst]. apply lift_kept; [apply good_set; exact H|]. intros x a Hx. apply lift_kept.
    { destruct (s_amp x); [|exact Hx]. apply lift_kept; [apply good_ampD; exact Hx|intros; assumption]. }
    intros y b Hy. apply lift_kept; [apply good_G; exact Hy|]. intros z c Hz. apply lift_kept; [exact Hz|intros; assumption].
  - unfold getJ, outm; cbn [fst]. destruct (s_amp st); [exact H|]. apply lift_kept; [apply good_set; exact H|]. intros x a Hx.
    apply lift_kept; [apply good_G; exact Hx|intros; assumption].
  - unfold jtjdiag, outv; cbn [fst]. apply lift_kept; [apply good_set; exact H|]. intros x a Hx. cbv zeta. apply lift_kept; [|intros; assumption].
    match goal with |- good0 _ (fst (match ?c with _ => _ end)) => destruct c end; [exact Hx|].
    apply lift_kept; [apply good_gtg; exact Hx|]. intros y b Hy. refine (good_same _ _ _ _ _ Hy); reflexivity.
Qed.
Lemma good_run sto ops : forall st, good0 sto st -> good0 sto (at_end e st ops).
Proof. induction ops as [|o ops IH]; intros st H; [exact H|]. apply IH, good_step, H. Qed.
Lemma set_keeps st m : good0 ForwardOnly st -> length (snd m) = e_nP e -> exists st', set_model e st m = (st', Ok tt) /\ s_model st' = Some m /\
  s_engine st' = s_engine st /\ s_store st' = s_store st /\ s_amp st' = s_amp st /\ s_survey st' = s_survey st /\ s_M st' = s_M st.
Proof.
  intros [_ H2] L. unfold set_model. rewrite L, Nat.eqb_refl.
  assert (D : forall x, x = st \/ x = deleted st -> exists st', (with_model x (Some m), Ok tt) = (st', Ok tt : result unit) /\ s_model st' = Some m /\
    s_engine st' = s_engine st /\ s_store st' = s_store st /\ s_amp st' = s_amp st /\ s_survey st' = s_survey st /\ s_M st' = s_M st).
  { intros x Hx. eexists. split; [reflexivity|]. split; [reflexivity|]. unfold deleted in Hx. destruct Hx as [->|Hx]; [repeat split|]. destruct (s_amp st) eqn:Ea; subst x; repeat split; exact Ea. }
  destruct (s_model st) as [old|] eqn:Em; [|apply D; right; reflexivity]. destruct (fst old =? fst m)%nat; [apply D; left; reflexivity|].
  unfold allclose. rewrite (H2 old Em), L, Nat.eqb_refl. destruct (forallb _ _); [apply D; left; reflexivity|apply D; right; reflexivity].
Qed.
Lemma forward_ok eng amp k s file ops m (st := at_end e (new eng ForwardOnly amp s k file) ops) : length (snd m) = e_nP e ->
  env_ok e (s_engine st) (s_amp st) (s_M st) (s_survey st) ->
  snd (step e st (OFields m)) = expected e (s_engine st) (s_amp st) (s_M st) (s_survey st) (OFields m).
Proof.
  intros L OK. assert (G : good0 ForwardOnly st) by (apply good_run; split; [reflexivity|intros old Ho; discriminate]).
  clearbody st. clear eng amp k s file ops. destruct (set_keeps st m G L) as (st1 & E1 & Hm & K1 & K2 & K3 & K4 & K5).
  cbn [step expected]. unfold fields. rewrite E1. unfold lift at 1; cbn [fst snd]. rewrite K2, (proj1 G).
  unfold pure at 1, chi. rewrite Hm. unfold matvec. rewrite (phys_len e _ _ _ _ OK _ L), Nat.eqb_refl. unfold lift; cbn [fst snd]. unfold pure, outv; cbn [fst snd].
  assert (F : fresh e st1 = matrix e (s_engine st) (s_M st) (s_survey st)) by (unfold fresh; rewrite K1, K4, K5; reflexivity). rewrite F, K3.
  unfold predicted; cbv zeta. destruct (bcases (s_amp st)) as [A|A].
  - pose proof (M_mat3 e _ _ _ _ OK A) as [_ H3]. rewrite A. rewrite (amplitude_ok _ (survey_nD (s_survey st) / 3)).
    + reflexivity.
    + rewrite <- H3, mv_length. apply (M_mat e _ _ _ _ OK).
  - rewrite A. reflexivity.
Qed.
End Forward.
