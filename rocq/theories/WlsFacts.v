From Verif Require Import Py Vec Wls SpecWls.
Local Open Scope R_scope.

Lemma attr_eqb_spec a b : attr_eqb a b = true <-> a = b.
Proof. destruct a as [|[]|[]], b as [|[]|[]]; cbn; split; intros H; try discriminate; reflexivity. Qed.
Lemma put_same s a x : alpha (put s a x) a = x.
Proof. unfold put. cbn. destruct (attr_eqb a a) eqn:E; [reflexivity|]. assert (attr_eqb a a = true) by (apply attr_eqb_spec; reflexivity). congruence. Qed.
Lemma put_other s a x c : c <> a -> alpha (put s a x) c = alpha s c.
Proof. intros H. unfold put. cbn. destruct (attr_eqb a c) eqn:E; [apply attr_eqb_spec in E; congruence|reflexivity]. Qed.
Definition inv (s : wls) : Prop := 0 < base s /\ forall a, 0 <= alpha s a.
Lemma put_inv s a x : inv s -> 0 <= x -> inv (put s a x).
Proof. intros [HB HA] Hx. split; [assumption|]. intros c. unfold put; cbn. destruct (attr_eqb a c); auto. Qed.
Lemma len_sq s a : inv s -> (length_scale s a * base s) ^ 2 = alpha s (A1 a).
Proof. intros [HB HA]. unfold length_scale. replace (sqrt (alpha s (A1 a)) / base s * base s) with (sqrt (alpha s (A1 a))) by (field; lra). apply pow2_sqrt, HA. Qed.
Lemma sq_nonneg x : 0 <= x ^ 2.
Proof. nra. Qed.
Lemma set_alpha_cases s a v : inv s ->
  match set_alpha s a v with
  | Ok s' => exists x, asks (base s) (alpha s) (WAlpha a v) a x /\ s' = put s a x /\ 0 <= x
  | Err _ => forall c x, ~ asks (base s) (alpha s) (WAlpha a v) c x
  end.
Proof.
  intros HI. unfold set_alpha. destruct v as [|x|].
  - destruct a as [|a|a].
    + destruct (Rlt_dec 1 0); [lra|]. exists 1. repeat split; [constructor|lra].
    + intros c x H. inversion H.
    + replace ((length_scale s a * base s) ^ 4) with (((length_scale s a * base s) ^ 2) ^ 2) by ring. rewrite len_sq by assumption.
      destruct (Rlt_dec (alpha s (A1 a) ^ 2) 0) as [h|h]; [pose proof (sq_nonneg (alpha s (A1 a))); lra|].
      exists (alpha s (A1 a) ^ 2). repeat split; [constructor|lra].
  - replace (match a with As | _ => VNum x end) with (VNum x) by (destruct a; reflexivity).
    destruct (Rlt_dec x 0) as [h|h].
    + intros c y H. inversion H; subst. lra.
    + exists x. repeat split; [constructor; lra|lra].
  - replace (match a with As | _ => VOther end) with VOther by (destruct a; reflexivity). intros c y H. inversion H.
Qed.
Lemma set_len_cases s a v : inv s ->
  match set_length_scale s a v with
  | Ok s' => exists x, asks (base s) (alpha s) (WLength a v) (A1 a) x /\ s' = put s (A1 a) x /\ 0 <= x
  | Err _ => forall c x, ~ asks (base s) (alpha s) (WLength a v) c x
  end.
Proof.
  intros HI. unfold set_length_scale. destruct v as [|x|].
  - unfold set_alpha. rewrite Rmult_1_l. destruct (Rlt_dec (base s ^ 2) 0); [pose proof (sq_nonneg (base s)); lra|].
    exists (base s ^ 2). repeat split; [constructor|apply sq_nonneg].
  - unfold set_alpha. destruct (Rlt_dec ((x * base s) ^ 2) 0); [pose proof (sq_nonneg (x * base s)); lra|].
    exists ((x * base s) ^ 2). repeat split; [constructor|apply sq_nonneg].
  - intros c y H. inversion H.
Qed.
Lemma wset_cases s o : inv s ->
  match wset s o with
  | Ok s' => exists a x, asks (base s) (alpha s) o a x /\ s' = put s a x /\ 0 <= x
  | Err _ => forall c x, ~ asks (base s) (alpha s) o c x
  end.
Proof.
  intros HI. destruct o as [a v|a v]; cbn.
  - pose proof (set_alpha_cases s a v HI) as H. destruct (set_alpha s a v); [destruct H as (x & H); exists a, x; exact H|exact H].
  - pose proof (set_len_cases s a v HI) as H. destruct (set_length_scale s a v); [destruct H as (x & H); exists (A1 a), x; exact H|exact H].
Qed.
Lemma asks_fun b al o a x a' x' : asks b al o a x -> asks b al o a' x' -> a = a' /\ x = x'.
Proof. intros H K; inversion H; subst; inversion K; subst; auto. Qed.
Lemma asks_ext b al al2 o a x : (forall c, al c = al2 c) -> asks b al o a x -> asks b al2 o a x.
Proof. intros E H. inversion H; subst; try (constructor; assumption). rewrite E. constructor. Qed.
Lemma history_ext l : forall s al al', inv s -> (forall a, alpha s a = al a) -> constants (base s) al l al' ->
  (forall a, alpha (wrun s l) a = al' a) /\ base (wrun s l) = base s /\ dim (wrun s l) = dim s /\ inv (wrun s l).
Proof.
  induction l as [|o l IH]; intros s al al' HI HE HC.
  - inversion HC; subst. cbn. auto.
  - unfold wrun. cbn [fold_left]. fold (wrun (wstep s o) l). unfold wstep. pose proof (wset_cases s o HI) as W.
    inversion HC as [|? ? ? a x al1 ? HA HX HO HC' E1 E2|? ? ? ? HN HC' E1 E2]; subst.
    + pose proof (asks_ext _ _ (alpha s) _ _ _ (fun c => eq_sym (HE c)) HA) as HA2.
      destruct (wset s o) as [s'|e]; [|exfalso; eapply W; eassumption]. destruct W as (a' & x' & HA' & -> & Hx).
      destruct (asks_fun _ _ _ _ _ _ _ HA' HA2) as [-> ->].
      apply (IH (put s a (al1 a)) al1); [apply put_inv; assumption| |exact HC'].
      intros c. destruct (attr_eqb a c) eqn:Q; [apply attr_eqb_spec in Q; subst c; apply put_same|].
      assert (c <> a) by (intros ->; assert (attr_eqb a a = true) by (apply attr_eqb_spec; reflexivity); congruence). rewrite put_other, HO by assumption. apply HE.
    + destruct (wset s o) as [s'|e]; [destruct W as (a' & x' & HA & _); exfalso; eapply HN, asks_ext; [exact HE|exact HA]|]. eapply IH; eassumption.
Qed.
Lemma c42_history l s al' : inv s -> constants (base s) (alpha s) l al' ->
  (forall a, alpha (wrun s l) a = al' a) /\ base (wrun s l) = base s /\ dim (wrun s l) = dim s /\ inv (wrun s l).
Proof. intros HI. apply history_ext; auto. Qed.
Lemma c42_exists l : forall s, inv s -> exists al', constants (base s) (alpha s) l al'.
Proof.
  induction l as [|o l IH]; intros s HI; [eexists; constructor|]. pose proof (wset_cases s o HI) as W. destruct (wset s o) as [s'|e].
  - destruct W as (a & x & HA & -> & Hx). destruct (IH (put s a x) (put_inv _ _ _ HI Hx)) as [al' C]. exists al'.
    eapply Cs_set; [exact HA|apply put_same|intros c Hc; apply put_other; assumption|exact C].
  - destruct (IH s HI) as [al' C]. exists al'. apply Cs_refused; assumption.
Qed.
Lemma run_inv l : forall s, inv s -> inv (wrun s l) /\ base (wrun s l) = base s /\ dim (wrun s l) = dim s.
Proof. intros s HI. destruct (c42_exists l s HI) as [al C]. destruct (c42_history l s al HI C) as (_ & K2 & K3 & K4). auto. Qed.
Lemma bind_ok {A B} (x : result A) (f : A -> result B) y : (do z <- x; f z) = Ok y -> exists z, x = Ok z /\ f z = Ok y.
Proof. destruct x; cbn; [eauto|discriminate]. Qed.
Lemma set_alpha_inv s a v s' : inv s -> set_alpha s a v = Ok s' -> inv s' /\ base s' = base s /\ dim s' = dim s.
Proof. intros HI E. pose proof (set_alpha_cases s a v HI) as W. rewrite E in W. destruct W as (x & _ & -> & Hx). split; [apply put_inv; assumption|auto]. Qed.
Lemma set_len_inv s a v s' : inv s -> set_length_scale s a v = Ok s' -> inv s' /\ base s' = base s /\ dim s' = dim s.
Proof. intros HI E. pose proof (set_len_cases s a v HI) as W. rewrite E in W. destruct W as (x & _ & -> & Hx). split; [apply put_inv; assumption|auto]. Qed.
Lemma init_axis_inv s a v w s' : inv s -> init_axis s a v w = Ok s' -> inv s' /\ base s' = base s /\ dim s' = dim s.
Proof.
  intros HI. unfold init_axis. destruct (is_none v); cbn; [apply set_len_inv; assumption|]. destruct (is_none w); cbn; [apply set_alpha_inv; assumption|discriminate].
Qed.
Lemma new_inv b d vs vx vy vz vxx vyy vzz s : 0 < b -> wls_new b d vs vx vy vz vxx vyy vzz = Ok s -> inv s /\ base s = b /\ dim s = d.
Proof.
  intros HB E. unfold wls_new in E.
  apply bind_ok in E. destruct E as (s1 & E1 & E). apply set_alpha_inv in E1; [|split; cbn; intros; lra].
  apply bind_ok in E. destruct E as (s2 & E2 & E). apply init_axis_inv in E2; [|tauto].
  apply bind_ok in E. destruct E as (s3 & E3 & E). apply init_axis_inv in E3; [|tauto].
  apply bind_ok in E. destruct E as (s4 & E4 & E). apply init_axis_inv in E4; [|tauto].
  apply bind_ok in E. destruct E as (s5 & E5 & E). apply set_alpha_inv in E5; [|tauto].
  apply bind_ok in E. destruct E as (s6 & E6 & E). apply set_alpha_inv in E6; [|tauto].
  apply set_alpha_inv in E; [|tauto]. cbn [base dim] in *. intuition congruence.
Qed.
Lemma c42_round_trip s a x : 0 < base s -> exists s', set_length_scale s a (VNum x) = Ok s' /\ length_scale s' a = Rabs x /\ alpha s' (A1 a) = (x * base s) ^ 2.
Proof.
  intros HB. unfold set_length_scale, set_alpha. destruct (Rlt_dec ((x * base s) ^ 2) 0); [pose proof (sq_nonneg (x * base s)); lra|].
  eexists. split; [reflexivity|]. unfold length_scale. rewrite put_same. split; [|reflexivity]. cbn [put base].
  replace ((x * base s) ^ 2) with (Rsqr (x * base s)) by (unfold Rsqr; ring). rewrite sqrt_Rsqr_abs, Rabs_mult, (Rabs_right (base s)) by lra. field. lra.
Qed.
Lemma init_axis_ok s a v w s' : inv s -> init_axis s a v w = Ok s' ->
  ((exists x, v = VNum x /\ w = VNone /\ 0 <= x /\ s' = put s (A1 a) x) \/ (exists x, v = VNone /\ w = VNum x /\ s' = put s (A1 a) ((x * base s) ^ 2)) \/ (v = VNone /\ w = VNone /\ s' = put s (A1 a) (base s ^ 2))).
Proof.
  intros HI. unfold init_axis. destruct v as [|x|]; cbn [is_none negb].
  - intros E. pose proof (set_len_cases s a w HI) as W. rewrite E in W. destruct W as (y & HA & -> & Hy). right. inversion HA; subst; [left; eauto|right; auto].
  - destruct (is_none w) eqn:W; cbn [negb]; [|discriminate]. destruct w; try discriminate. intros E. pose proof (set_alpha_cases s (A1 a) (VNum x) HI) as C. rewrite E in C.
    destruct C as (y & HA & -> & Hy). inversion HA; subst. left. eauto.
  - destruct (is_none w); cbn; discriminate.
Qed.
Lemma c42_both b d vs vx vy vz vxx vyy vzz s : wls_new b d vs vx vy vz vxx vyy vzz = Ok s ->
  (fst vx = VNone \/ snd vx = VNone) /\ (fst vy = VNone \/ snd vy = VNone) /\ (fst vz = VNone \/ snd vz = VNone).
Proof.
  assert (K : forall s a v w s', init_axis s a v w = Ok s' -> v = VNone \/ w = VNone).
  { intros s0 a v w s'. unfold init_axis. destruct v, w; cbn; auto; discriminate. }
  unfold wls_new. intros E. repeat (apply bind_ok in E; let s' := fresh "s" in let E' := fresh "E" in destruct E as (s' & E' & E)).
  apply K in E1, E2, E3. auto.
Qed.
Lemma c42_defaults b d : 0 < b -> exists s, wls_new b d (VNum 1) (VNone, VNone) (VNone, VNone) (VNone, VNone) (VNum 0) (VNum 0) (VNum 0) = Ok s /\
  alpha s As = 1 /\ forall a, length_scale s a = 1 /\ alpha s (A1 a) = b ^ 2 /\ alpha s (A2 a) = 0.
Proof.
  intros HB. unfold wls_new, init_axis, set_length_scale, set_alpha. cbn [is_none negb fst snd bind put base].
  destruct (Rlt_dec 1 0); [lra|]. cbn [bind put base]. destruct (Rlt_dec ((1 * b) ^ 2) 0); [pose proof (sq_nonneg (1 * b)); lra|]. cbn [bind put base].
  destruct (Rlt_dec ((1 * b) ^ 2) 0); [lra|]. cbn [bind put base]. destruct (Rlt_dec ((1 * b) ^ 2) 0); [lra|]. cbn [bind put base].
  destruct (Rlt_dec 0 0); [lra|]. cbn [bind put base]. destruct (Rlt_dec 0 0); [lra|]. cbn [bind put base]. destruct (Rlt_dec 0 0); [lra|].
  eexists. split; [reflexivity|]. split; [reflexivity|]. intros a. unfold length_scale.
  assert (E : (1 * b) ^ 2 = Rsqr b) by (unfold Rsqr; ring). assert (E2 : b ^ 2 = Rsqr b) by (unfold Rsqr; ring). rewrite E2.
  destruct a; cbn [alpha put base attr_eqb axis_eqb dim]; rewrite E, sqrt_Rsqr by lra; (split; [field; lra|split; reflexivity]).
Qed.
Lemma c42_multipliers s : Forall2 (fun c a => c = alpha s a) (multipliers s) (terms (dim s)).
Proof. unfold multipliers. induction (terms (dim s)); cbn; constructor; auto. Qed.
Lemma c42_terms d a : In a (terms d) <-> in_dim d a.
Proof.
  unfold terms. rewrite !in_app_iff. destruct (Nat.ltb_spec 1 d), (Nat.ltb_spec 2 d); destruct a as [|[]|[]]; cbn; split; intros H';
    try tauto; try lia; repeat match goal with H : _ \/ _ |- _ => destruct H end; try discriminate; try contradiction; auto 12.
Qed.
Lemma combo_sum mf : forall m acc, (forall c f, In (c, f) mf -> exists x, f m = Ok x) ->
  combo_call mf m acc = Ok (acc + fold_right (fun cf t => fst cf * match snd cf m with Ok x => x | Err _ => 0 end + t) 0 mf).
Proof.
  induction mf as [|[c f] mf IH]; intros m acc H; cbn; [f_equal; ring|].
  destruct (Req_EM_T c 0) as [->|N].
  - rewrite IH by (intros c' f' Hc; eapply H; right; eassumption). f_equal. ring.
  - destruct (H c f) as [x ->]; [left; reflexivity|]. cbn. rewrite IH by (intros c' f' Hc; eapply H; right; eassumption). f_equal. ring.
Qed.
Lemma c42_value s phi m v : (forall a, in_dim (dim s) a -> phi a m = Ok (v a)) -> wls_call s phi m = Ok (total (dim s) (alpha s) v).
Proof.
  intros H. unfold wls_call. rewrite combo_sum.
  - f_equal. rewrite Rplus_0_l. unfold multipliers, total, terms.
    assert (E : forall l, (forall a, In a l -> phi a m = Ok (v a)) -> fold_right (fun cf t => fst cf * match snd cf m with Ok x => x | Err _ => 0 end + t) 0 (combine (map (alpha s) l) (map phi l)) = fold_right (fun a t => alpha s a * v a + t) 0 l).
    { induction l as [|a l IH]; intros HL; cbn; [reflexivity|]. rewrite IH by (intros; apply HL; right; assumption). rewrite (HL a) by (left; reflexivity). reflexivity. }
    fold (terms (dim s)). rewrite E by (intros a Ha; apply H, c42_terms; assumption). unfold terms.
    destruct (dim s) as [|[|[|d]]]; cbn; ring.
  - intros c f Hc. apply in_combine_r in Hc. apply in_map_iff in Hc. destruct Hc as (a & <- & Ha). exists (v a). apply H, c42_terms; assumption.
Qed.
Lemma c42_skip s phi m v : (forall a, in_dim (dim s) a -> alpha s a <> 0 -> phi a m = Ok (v a)) -> wls_call s phi m = Ok (total (dim s) (alpha s) v).
Proof.
  intros H. rewrite <- (c42_value s (fun a m => if Req_EM_T (alpha s a) 0 then Ok (v a) else phi a m) m v).
  - unfold wls_call, multipliers.
    assert (E : forall l acc, combo_call (combine (map (alpha s) l) (map phi l)) m acc = combo_call (combine (map (alpha s) l) (map (fun a m => if Req_EM_T (alpha s a) 0 then Ok (v a) else phi a m) l)) m acc).
    { induction l as [|a l IH]; intros acc; cbn; [reflexivity|].
      destruct (Req_EM_T (alpha s a) 0); [apply IH|]. destruct (phi a m); cbn; [apply IH|reflexivity]. }
    apply E.
  - intros a Ha. destruct (Req_EM_T (alpha s a) 0); auto.
Qed.
