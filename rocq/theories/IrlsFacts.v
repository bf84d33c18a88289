(** Proofs about the IRLS directive. *)
From Coq Require Import Lra.
From Verif Require Import Py Vec Directives Irls SpecDirectives DirectivesFacts.
Local Open Scope R_scope.

(** The regularization while the smooth problem is solved. *)
Definition l2_regs (regs : list (option sreg)) : list (option sreg) :=
  map (option_map (fun r => mkSr (map (fun _ => 2) (s_norms r)) (s_thr r))) regs.
Lemma l2_all_two regs : all_two (l2_regs regs).
Proof.
  intros r H. apply in_map_iff in H as ([x|] & E & Hx); [|discriminate]. cbn in E. injection E as <-. cbn. apply Forall_map. clear. induction (s_norms x); auto.
Qed.
Lemma l2_user regs : length (user_norms regs) = length (l2_regs regs).
Proof. unfold user_norms, l2_regs. rewrite !map_length. reflexivity. Qed.
Lemma set_cf_ok s c s' : set_cf s c = Ok s' -> 0 < c /\ i_cf s' = c /\ i_input s' = i_input s /\ i_count s' = i_count s /\ i_start s' = i_start s /\
  i_beta s' = i_beta s /\ i_stop s' = i_stop s /\ i_regs s' = i_regs s.
Proof. unfold set_cf. destruct (Rlt_dec 0 c); [|discriminate]. intros [= <-]. cbn. auto 10. Qed.
(** The new cooling factor. *)
Definition cf_of (o : iopts) (phi : R) (c : R) : Prop :=
  let ratio := phi / misfit_of o (o_chi_target o) in
  (o_tol o < Rabs (1 - ratio) /\ ratio <> 0 /\ 1 < ratio /\ c = 1 / ((0.75 + 1 / ratio) / 2)) \/
  (o_tol o < Rabs (1 - ratio) /\ ratio <> 0 /\ ratio <= 1 /\ c = 1 / ((2 + 1 / ratio) / 2)) \/
  (Rabs (1 - ratio) <= o_tol o /\ c = 1).
Lemma adjust_ok o s phi s' : adjust o s phi = Ok s' ->
  (i_start s = None /\ s' = s) \/
  (i_start s <> None /\ 0 < i_cf s' /\ cf_of o phi (i_cf s') /\ i_input s' = i_input s /\ i_count s' = i_count s /\ i_start s' = i_start s /\
   i_beta s' = i_beta s /\ i_stop s' = i_stop s /\ i_regs s' = i_regs s).
Proof.
  unfold adjust. destruct (i_start s) as [k|] eqn:Es; [|intros [= <-]; left; auto]. intros H. right. split; [discriminate|]. rewrite <- Es. unfold cf_of.
  destruct (Rlt_dec (o_tol o) (Rabs (1 - phi / misfit_of o (o_chi_target o)))) as [L|L].
  - destruct (Req_EM_T (phi / misfit_of o (o_chi_target o)) 0) as [E|E]; [discriminate|].
    destruct (Rlt_dec 1 (phi / misfit_of o (o_chi_target o))) as [G|G]; apply set_cf_ok in H as (P & -> & H'); (split; [assumption|]); (split; [|exact H']).
    + left. auto.
    + right. left. split; [assumption|]. split; [assumption|]. split; [lra|reflexivity].
  - apply set_cf_ok in H as (P & -> & H'). split; [assumption|]. split; [|exact H']. right. right. split; [lra|reflexivity].
Qed.
Lemma thresholds_ok regs inputs pct regs' : set_thresholds (l2_regs regs) inputs pct = Ok regs' -> inputs = user_norms regs -> length pct = length regs ->
  regs_are (fun t => t) inputs pct regs' /\ (forall p q, In (Some p) regs' -> In q (s_thr p) -> 0 < q).
Proof.
  revert inputs pct regs'; induction regs as [|r regs IH]; intros inputs pct regs' H -> L; destruct pct as [|p pct]; try discriminate.
  - injection H as <-. split; [constructor|intros p q []].
  - cbn in H. destruct r as [r|]; cbn in H.
    + destruct (existsb _ p) eqn:Ex; [discriminate|]. fold (user_norms regs) in H. fold (l2_regs regs) in H.
      destruct (set_thresholds (l2_regs regs) (user_norms regs) pct) as [tl|] eqn:Et; [|discriminate]. cbn [bind] in H. injection H as <-.
      destruct (IH _ _ _ Et eq_refl) as [A B]; [cbn in L; congruence|]. split.
      * cbn. replace p with (map (fun t : R => t) p) at 2 by apply map_id. constructor. exact A.
      * intros q x [[= <-]|Hq] Hx; [|eapply B; eassumption]. cbn in Hx. rewrite <- not_true_iff_false in Ex.
        destruct (Rlt_dec 0 x) as [G|G]; [exact G|]. exfalso. apply Ex, existsb_exists. exists x. split; [assumption|]. destruct (Rlt_dec 0 x); [contradiction|reflexivity].
    + fold (user_norms regs) in H. fold (l2_regs regs) in H. destruct (set_thresholds (l2_regs regs) (user_norms regs) pct) as [tl|] eqn:Et; [|discriminate]. cbn [bind] in H. injection H as <-.
      destruct (IH _ _ _ Et eq_refl) as [A B]; [cbn in L; congruence|]. split; [constructor; exact A|]. intros q x [E|Hq] Hx; [discriminate|eapply B; eassumption].
Qed.
Lemma cool_regs o f inputs pct regs : regs_are f inputs pct regs -> regs_are (fun t => f t / o_irls_cool o) inputs pct (cool o regs).
Proof.
  induction 1; cbn; [constructor|constructor; assumption|]. rewrite map_map. constructor. exact IHregs_are.
Qed.
Lemma regs_are_ext f g inputs pct regs : (forall t, f t = g t) -> regs_are f inputs pct regs -> regs_are g inputs pct regs.
Proof. intros E. induction 1; [constructor|constructor; assumption|]. rewrite (map_ext f g E). constructor. assumption. Qed.
Lemma beta_step_same o s it : i_input (beta_step o s it) = i_input s /\ i_count (beta_step o s it) = i_count s /\ i_start (beta_step o s it) = i_start s /\
  i_stop (beta_step o s it) = i_stop s /\ i_regs (beta_step o s it) = i_regs s /\ i_cf (beta_step o s it) = i_cf s /\ i_fold (beta_step o s it) = i_fold s.
Proof. unfold beta_step. destruct (_ && _); cbn; auto 10. Qed.

(** ** Phases *)
Definition waiting (o : iopts) (regs : list (option sreg)) (cf beta : R) (s : irls) : Prop :=
  i_start s = None /\ i_input s = user_norms regs /\ i_count s = 0%nat /\ i_regs s = l2_regs regs /\ i_cf s = cf /\ i_beta s = beta.
Definition started (o : iopts) (regs : list (option sreg)) (k : nat) (pct : list (list R)) (s : irls) : Prop :=
  i_start s = Some k /\ i_input s = user_norms regs /\ (i_count s <= o_max o)%nat /\
  regs_are (fun t => t / o_irls_cool o ^ i_count s) (user_norms regs) pct (i_regs s).
Lemma init_waiting o s : waiting o (i_regs s) (i_cf s) (i_beta s) (irls_init s).
Proof. repeat split. Qed.
Lemma step_waiting o regs cf beta s it phi phim pct s' : waiting o regs cf beta s -> misfit_of o (o_chi_start o) <= phi ->
  endIter o s it phi phim pct = Ok s' -> waiting o regs cf (if Nat.ltb 0 it && Nat.eqb (it mod o_rate o) 0 then beta / cf else beta) s' /\ i_stop s' = i_stop s.
Proof.
  intros (Hst & Hi & Hc & Hr & Hcf & Hb) Hp H. unfold endIter in H. assert (A : adjust o s phi = Ok s) by (unfold adjust; rewrite Hst; reflexivity).
  rewrite A in H. cbn [bind] in H. rewrite Hst in H. destruct (Rlt_dec phi (misfit_of o (o_chi_start o))); [lra|]. cbn [bind] in H. rewrite Hst in H. injection H as <-.
  destruct (beta_step_same o s it) as (E1 & E2 & E3 & E4 & E5 & E6 & _). split; [|assumption]. unfold waiting. rewrite E1, E2, E3, E5, E6.
  split; [assumption|]. split; [assumption|]. split; [assumption|]. split; [assumption|]. split; [assumption|].
  unfold beta_step. destruct (_ && _); cbn; congruence.
Qed.
Lemma stopping_max o s phi phim : i_count s = o_max o -> fst (stopping o s phi phim) = true.
Proof. intros E. unfold stopping. rewrite E, Nat.eqb_refl. reflexivity. Qed.
Lemma tail_started o regs k pct s2 it phi phim s' : started o regs k pct s2 ->
  (if Nat.eqb ((it - k) mod o_rate o) 0 then
        let '(b, fo) := stopping o s2 phi phim in
        if b then Ok (mkI (i_input s2) (i_count s2) (Some k) fo (i_cf s2) (i_beta s2) true (i_regs s2))
        else Ok (beta_step o (mkI (i_input s2) (S (i_count s2)) (Some k) fo (i_cf s2) (i_beta s2) false (cool o (i_regs s2))) it)
      else Ok (beta_step o s2 it)) = Ok s' ->
  started o regs k pct s' /\ i_cf s' = i_cf s2 /\
  ((Nat.eqb ((it - k) mod o_rate o) 0 = true /\ fst (stopping o s2 phi phim) = true /\ i_stop s' = true /\ i_beta s' = i_beta s2 /\ i_count s' = i_count s2) \/
   (i_stop s' = (if Nat.eqb ((it - k) mod o_rate o) 0 then false else i_stop s2) /\
    i_count s' = (if Nat.eqb ((it - k) mod o_rate o) 0 then S (i_count s2) else i_count s2) /\
    i_beta s' = if Nat.ltb 0 it && Nat.eqb (it mod o_rate o) 0 then i_beta s2 / i_cf s2 else i_beta s2)).
Proof.
  intros (Hst & Hi & Hc & Hr). destruct (Nat.eqb ((it - k) mod o_rate o) 0).
  - destruct (stopping o s2 phi phim) as [b fo] eqn:Es. destruct b.
    + intros [= <-]. split; [split; [reflexivity|split; [assumption|split; assumption]]|]. cbn. split; [reflexivity|]. left. auto.
    + intros [= <-]. match goal with |- started _ _ _ _ (beta_step o ?x it) /\ _ => destruct (beta_step_same o x it) as (E1 & E2 & E3 & E4 & E5 & E6 & _) end.
      cbn [i_input i_count i_start i_stop i_regs i_cf] in E1, E2, E3, E4, E5, E6.
      split; [|split; [exact E6|right]].
      * unfold started. rewrite E1, E2, E3, E5. split; [reflexivity|]. split; [assumption|]. split.
        -- destruct (Nat.eq_dec (i_count s2) (o_max o)) as [E|E]; [|lia]. pose proof (stopping_max o s2 phi phim E) as F. rewrite Es in F. discriminate.
        -- eapply regs_are_ext; [|apply cool_regs; exact Hr]. intros t. cbn [pow]. unfold Rdiv. rewrite Rinv_mult. lra.
      * rewrite E4, E2. split; [reflexivity|]. split; [reflexivity|]. unfold beta_step. destruct (_ && _); reflexivity.
  - intros [= <-]. destruct (beta_step_same o s2 it) as (E1 & E2 & E3 & E4 & E5 & E6 & _). split; [|split; [exact E6|right]].
    + unfold started. rewrite E1, E2, E3, E5. auto.
    + rewrite E4, E2. split; [reflexivity|]. split; [reflexivity|]. unfold beta_step. destruct (_ && _); reflexivity.
Qed.
Lemma step_started o regs k pct s it phi phim pct' s' : started o regs k pct s -> endIter o s it phi phim pct' = Ok s' ->
  started o regs k pct s' /\ 0 < i_cf s' /\ cf_of o phi (i_cf s') /\
  ((Nat.eqb ((it - k) mod o_rate o) 0 = true /\ i_stop s' = true /\ i_beta s' = i_beta s /\ i_count s' = i_count s) \/
   (i_stop s' = (if Nat.eqb ((it - k) mod o_rate o) 0 then false else i_stop s) /\
    i_count s' = (if Nat.eqb ((it - k) mod o_rate o) 0 then S (i_count s) else i_count s) /\
    i_beta s' = if Nat.ltb 0 it && Nat.eqb (it mod o_rate o) 0 then i_beta s / i_cf s' else i_beta s)).
Proof.
  intros Hs H. unfold endIter in H. destruct (adjust o s phi) as [s1|] eqn:Ea; [|discriminate]. cbn [bind] in H.
  pose proof Hs as (Hst & Hi & Hc & Hr). apply adjust_ok in Ea as [[E _]|(_ & Pc & Cf & E1 & E2 & E3 & E4 & E5 & E6)]; [congruence|].
  assert (S1 : started o regs k pct s1) by (unfold started; rewrite E1, E2, E3, E6; auto).
  rewrite Hst in E3. rewrite E3 in H. cbn [bind] in H. rewrite E3 in H. apply (tail_started o regs k pct s1 it phi phim s' S1) in H as (A & B & C).
  rewrite B. split; [exact A|]. split; [assumption|]. split; [assumption|]. rewrite <- E4, <- E5, <- E2. destruct C as [(C1 & _ & C2 & C3 & C4)|C]; auto.
Qed.
Lemma step_start o regs cf beta s it phi phim pct s' : waiting o regs cf beta s -> phi < misfit_of o (o_chi_start o) -> length pct = length regs ->
  endIter o s it phi phim pct = Ok s' -> started o regs it pct s' /\ i_beta s' = beta /\ i_cf s' = 1 /\
    ((0 < o_max o)%nat -> i_count s' = 1%nat /\ i_stop s' = false) /\ (o_max o = 0%nat -> i_stop s' = true).
Proof.
  intros (Hst & Hi & Hc & Hr & Hcf & Hb) Hp L H. unfold endIter in H. assert (A : adjust o s phi = Ok s) by (unfold adjust; rewrite Hst; reflexivity).
  rewrite A in H. cbn [bind] in H. rewrite Hst in H. destruct (Rlt_dec phi (misfit_of o (o_chi_start o))); [|lra].
  unfold start_irls in H. rewrite Hr, Hi in H. destruct (set_thresholds (l2_regs regs) (user_norms regs) pct) as [rg|] eqn:Et; [|discriminate]. cbn [bind i_start] in H.
  destruct (thresholds_ok regs (user_norms regs) pct rg Et eq_refl L) as [T P].
  set (s2 := mkI (user_norms regs) (i_count s) (Some it) (i_fold s) 1 (i_beta s) (i_stop s) rg) in H.
  assert (S2 : started o regs it pct s2).
  { unfold started, s2. cbn. rewrite Hc. split; [reflexivity|]. split; [reflexivity|]. split; [lia|]. eapply regs_are_ext; [|exact T]. intros t; cbn. field. }
  pose proof (tail_started o regs it pct s2 it phi phim s' S2 H) as (B1 & B2 & B3). rewrite Nat.sub_diag in B3.
  assert (M : (0 mod o_rate o = 0)%nat) by (destruct (o_rate o) eqn:Eo; [reflexivity|apply Nat.mod_0_l; lia]). rewrite M, Nat.eqb_refl in B3.
  assert (ST : o_max o <> 0%nat -> fst (stopping o s2 phi phim) = false).
  { intros Hm. unfold stopping, s2. cbn [i_count i_fold]. rewrite Hc. destruct (Nat.eqb_spec 0 (o_max o)); [congruence|]. destruct (Rlt_dec _ _); reflexivity. }
  assert (ST0 : o_max o = 0%nat -> fst (stopping o s2 phi phim) = true).
  { intros Hm. apply stopping_max. unfold s2; cbn. congruence. }
  split; [exact B1|]. split; [|split; [exact B2|split]].
  - destruct B3 as [(_ & _ & _ & -> & _)|(_ & _ & ->)]; [exact Hb|]. unfold s2. cbn [i_beta i_cf]. rewrite Hb. destruct (_ && _); [field|reflexivity].
  - intros Hm. destruct B3 as [(_ & X & _)|(X & Y & _)]; [rewrite ST in X by lia; discriminate|]. unfold s2 in Y. cbn [i_count] in Y. rewrite Hc in Y. auto.
  - intros Hm. cbn [i_start] in H. rewrite Nat.sub_diag, M, Nat.eqb_refl in H. fold s2 in H. destruct (stopping o s2 phi phim) as [b fo]. specialize (ST0 Hm). cbn in ST0. subst b.
    injection H as <-. reflexivity.
Qed.
(** ** Histories *)
Definition ticks (rate it n : nat) : nat := length (filter (fun j => Nat.ltb 0 j && Nat.eqb (j mod rate) 0) (seq it n)).
Lemma run_waiting o regs cf beta : forall obs s it s', cf <> 0 -> waiting o regs cf beta s -> (forall b, In b obs -> misfit_of o (o_chi_start o) <= ob_phi b) ->
  irls_run o s it obs = Ok s' -> waiting o regs cf (beta / cf ^ ticks (o_rate o) it (length obs)) s'.
Proof.
  intros obs. revert beta. induction obs as [|b obs IH]; intros beta s it s' Hcf W Hb H.
  - injection H as <-. unfold ticks. cbn. replace (beta / 1) with beta by field. exact W.
  - cbn [irls_run] in H. destruct (endIter o s it _ _ _) as [s1|] eqn:E; [|discriminate]. cbn [bind] in H.
    apply (step_waiting o regs cf beta) in E as [W1 _]; [|assumption|apply Hb; left; reflexivity].
    apply (IH _ _ _ _ Hcf W1) in H; [|intros x Hx; apply Hb; right; assumption].
    unfold ticks in *. cbn [length seq filter]. destruct (_ && _); cbn [length pow]; [|exact H].
    replace (beta / (cf * cf ^ _)) with (beta / cf / cf ^ length (filter (fun j : nat => (0 <? j)%nat && (j mod o_rate o =? 0)%nat) (seq (S it) (length obs)))); [exact H|].
    field. split; [apply pow_nonzero; assumption|assumption].
Qed.
Lemma ticks_div rate n : (1 <= rate)%nat -> ticks rate 1 n = (n / rate)%nat.
Proof.
  intros Hr. unfold ticks. induction n as [|n IH]; [rewrite Nat.div_0_l by lia; reflexivity|].
  rewrite seq_S, filter_app, app_length, IH. cbn [filter plus]. replace (Nat.ltb 0 (S n)) with true by (symmetry; apply Nat.ltb_lt; lia). cbn [andb].
  pose proof (Nat.div_mod (S n) rate ltac:(lia)) as D1. pose proof (Nat.div_mod n rate ltac:(lia)) as D2.
  pose proof (Nat.mod_upper_bound (S n) rate ltac:(lia)). pose proof (Nat.mod_upper_bound n rate ltac:(lia)).
  destruct (Nat.eqb_spec (S n mod rate) 0); cbn [length]; nia.
Qed.
Lemma run_started o regs k pct : forall obs s it s', started o regs k pct s -> irls_run o s it obs = Ok s' -> started o regs k pct s' /\ (i_count s <= i_count s')%nat.
Proof.
  induction obs as [|b obs IH]; intros s it s' S0 H.
  - injection H as <-. auto.
  - cbn [irls_run] in H. destruct (endIter o s it _ _ _) as [s1|] eqn:E; [|discriminate]. cbn [bind] in H.
    apply (step_started o regs k pct) in E as (S1 & _ & _ & C); [|assumption]. destruct (IH _ _ _ S1 H) as [A B]. split; [exact A|].
    destruct C as [(_ & _ & _ & C)|(_ & C & _)]; [lia|]. destruct (Nat.eqb _ 0); lia.
Qed.
Lemma run_app o : forall a s it b, irls_run o s it (a ++ b) = (do s1 <- irls_run o s it a; irls_run o s1 (it + length a) b).
Proof.
  induction a as [|x a IH]; intros s it b; cbn [app irls_run length]; [cbn [bind]; f_equal; lia|].
  destruct (endIter o s it _ _ _) as [s1|]; [|reflexivity]. cbn [bind]. rewrite IH. replace (S it + length a)%nat with (it + S (length a))%nat by lia. reflexivity.
Qed.
Lemma before_start o s obs s' : (1 <= o_rate o)%nat -> i_cf s <> 0 -> (forall b, In b obs -> INR (o_nD o) * o_chi_start o <= ob_phi b) ->
  irls_run o (irls_init s) 1 obs = Ok s' ->
  i_start s' = None /\ all_two (i_regs s') /\ map (option_map s_thr) (i_regs s') = map (option_map s_thr) (i_regs s) /\
  i_beta s' = i_beta s / i_cf s ^ (length obs / o_rate o).
Proof.
  intros Hr Hc Hb H. pose proof (run_waiting o (i_regs s) (i_cf s) (i_beta s) obs _ 1 s' Hc (init_waiting o s) Hb H) as (A & _ & _ & B & _ & C).
  rewrite ticks_div in C by assumption. rewrite B. split; [assumption|]. split; [apply l2_all_two|]. split; [|assumption].
  unfold l2_regs. rewrite map_map. apply map_ext. intros [r|]; reflexivity.
Qed.
Lemma after_start o s a b c s' : (1 <= o_rate o)%nat -> i_cf s <> 0 -> (forall x, In x a -> INR (o_nD o) * o_chi_start o <= ob_phi x) ->
  ob_phi b < INR (o_nD o) * o_chi_start o -> length (ob_pct b) = length (i_regs s) ->
  irls_run o (irls_init s) 1 (a ++ b :: c) = Ok s' ->
  i_start s' = Some (S (length a)) /\ (i_count s' <= o_max o)%nat /\ ((0 < o_max o)%nat -> (1 <= i_count s')%nat) /\
  regs_are (fun t => t / o_irls_cool o ^ i_count s') (user_norms (i_regs s)) (ob_pct b) (i_regs s').
Proof.
  intros Hr Hc Ha Hb L H. rewrite run_app in H. destruct (irls_run o (irls_init s) 1 a) as [s1|] eqn:E; [|discriminate]. cbn [bind irls_run] in H.
  pose proof (run_waiting o (i_regs s) (i_cf s) (i_beta s) a _ 1 s1 Hc (init_waiting o s) Ha E) as W.
  destruct (endIter o s1 (1 + length a) _ _ _) as [s2|] eqn:E2; [|discriminate]. cbn [bind] in H.
  pose proof (step_start o _ _ _ _ _ _ _ _ _ W Hb L E2) as (S2 & _ & _ & C1 & _).
  destruct (run_started o _ _ _ _ _ _ _ S2 H) as ((A1 & A2 & A3 & A4) & A5). split; [exact A1|]. split; [exact A3|]. split; [|exact A4].
  intros Hm. destruct (C1 Hm) as [C2 _]. lia.
Qed.
(** ** One step after the start *)
Lemma cf_above o phi c : cf_of o phi c -> above_band o phi -> 0 <= o_tol o -> 1 < c < 8 / 3.
Proof.
  unfold cf_of, above_band, misfit_of. set (r := phi / _). intros H Hb Ht. assert (1 < r) by lra.
  assert (0 < 1 / r < 1). { split; [apply Rdiv_lt_0_compat; lra|]. apply Rmult_lt_reg_r with r; [lra|]. unfold Rdiv. rewrite Rmult_assoc, Rinv_l by lra. lra. }
  destruct H as [(_ & _ & _ & ->)|[(_ & _ & L & _)|(L & _)]]; [|lra|].
  - set (y := (0.75 + 1 / r) / 2). assert (Hy : 3 / 8 < y < 1) by (unfold y; lra).
    assert (E : 1 / y * y = 1) by (field; lra). clear - E Hy. clearbody y. generalize dependent (1 / y). intros z E. split; nra.
  - rewrite Rabs_left in L; lra.
Qed.
Lemma cf_below o phi c : cf_of o phi c -> below_band o phi -> 0 <= o_tol o -> 0 < c < 2 / 3.
Proof.
  unfold cf_of, below_band, misfit_of. set (r := phi / _). intros H Hb Ht.
  assert (1 < 1 / r). { apply Rmult_lt_reg_r with r; [lra|]. unfold Rdiv. rewrite Rmult_assoc, Rinv_l by lra. lra. }
  destruct H as [(_ & _ & L & _)|[(_ & _ & L & ->)|(L & _)]]; [lra| |].
  - set (y := (2 + 1 / r) / 2). assert (Hy : 3 / 2 < y) by (unfold y; lra).
    assert (E : 1 / y * y = 1) by (field; lra). clear - E Hy. clearbody y. generalize dependent (1 / y). intros z E. split; nra.
  - rewrite Rabs_right in L; lra.
Qed.
Lemma cf_in o phi c : cf_of o phi c -> in_band o phi -> c = 1.
Proof. unfold cf_of, in_band, misfit_of. intros [(L & _)|[(L & _)|(_ & ->)]] H; lra. Qed.
Lemma beta_moves o regs k pct s it phi phim pct' s' : started o regs k pct s -> endIter o s it phi phim pct' = Ok s' -> 0 < i_beta s -> 0 <= o_tol o ->
  (above_band o phi -> 3 / 8 * i_beta s < i_beta s' <= i_beta s) /\ (below_band o phi -> i_beta s <= i_beta s') /\ (in_band o phi -> i_beta s' = i_beta s) /\
  ((0 < it)%nat -> (it mod o_rate o = 0)%nat -> i_stop s' = false -> (above_band o phi -> i_beta s' < i_beta s) /\ (below_band o phi -> 3 / 2 * i_beta s < i_beta s')).
Proof.
  intros S0 H Hb Ht. destruct (step_started _ _ _ _ _ _ _ _ _ _ S0 H) as (S1 & Pc & Cf & C).
  set (c := i_cf s') in *. assert (E : i_beta s / c * c = i_beta s) by (field; lra).
  assert (Up : above_band o phi -> 3 / 8 * i_beta s < i_beta s / c < i_beta s) by (intros B; pose proof (cf_above o phi c Cf B Ht); split; nra).
  assert (Dn : below_band o phi -> 3 / 2 * i_beta s < i_beta s / c) by (intros B; pose proof (cf_below o phi c Cf B Ht); nra).
  assert (Eq : in_band o phi -> i_beta s / c = i_beta s) by (intros B; rewrite (cf_in o phi c Cf B); field).
  destruct C as [(_ & St & Eb & _)|(_ & _ & Eb)].
  - rewrite Eb, St. split; [intros; lra|]. split; [intros; lra|]. split; [reflexivity|]. discriminate.
  - rewrite Eb. destruct (Nat.ltb 0 it && Nat.eqb (it mod o_rate o) 0) eqn:Ed.
    + split; [intros B; specialize (Up B); lra|]. split; [intros B; specialize (Dn B); lra|]. split; [exact Eq|]. intros _ _ _. split; [intros B; apply Up; exact B|exact Dn].
    + split; [intros; lra|]. split; [intros; lra|]. split; [reflexivity|]. intros I1 I2. exfalso. apply Nat.ltb_lt in I1. rewrite I1, I2 in Ed. discriminate.
Qed.
Lemma count_moves o regs k pct s it phi phim pct' s' : started o regs k pct s -> endIter o s it phi phim pct' = Ok s' ->
  (i_count s' <= S (i_count s))%nat /\ (i_count s = o_max o -> ((it - k) mod o_rate o = 0)%nat -> i_stop s' = true /\ i_count s' = o_max o) /\
  (((it - k) mod o_rate o)%nat <> 0%nat -> i_regs s' = i_regs s /\ i_count s' = i_count s).
Proof.
  intros S0 H. destruct (step_started _ _ _ _ _ _ _ _ _ _ S0 H) as ((Q1 & Q2 & Q3 & Q4) & Pc & Cf & C). split; [|split].
  - destruct C as [(_ & _ & _ & ->)|(_ & -> & _)]; [lia|]. destruct (Nat.eqb _ 0); lia.
  - intros Em M. rewrite M in C. cbn in C. destruct C as [(_ & -> & _ & ->)|(_ & E & _)]; [auto|]. lia.
  - intros M. unfold endIter in H. destruct (adjust o s phi) as [s1|] eqn:Ea; [|discriminate]. cbn [bind] in H.
    pose proof S0 as (Hst & _). apply adjust_ok in Ea as [[E _]|(_ & _ & _ & E1 & E2 & E3 & E4 & E5 & E6)]; [congruence|].
    rewrite Hst in E3. rewrite E3 in H. cbn [bind] in H. rewrite E3 in H. apply Nat.eqb_neq in M. rewrite M in H. injection H as <-.
    destruct (beta_step_same o s1 it) as (F1 & F2 & F3 & F4 & F5 & _). split; congruence.
Qed.
(** ** Findings *)
Lemma exact_fit_raises o s k it phim pct : i_start s = Some k -> o_tol o < 1 -> endIter o s it 0 phim pct = Err ValueError.
Proof.
  intros Hs Ht. unfold endIter, adjust. rewrite Hs. replace (0 / misfit_of o (o_chi_target o)) with 0 by (unfold Rdiv; ring).
  rewrite Rminus_0_r, Rabs_R1. destruct (Rlt_dec (o_tol o) 1); [|contradiction]. destruct (Req_EM_T 0 0); [reflexivity|congruence].
Qed.
Lemma flat_raises o s it phi phim pct : forall regs, waiting o regs (i_cf s) (i_beta s) s -> phi < misfit_of o (o_chi_start o) ->
  forall r p regs' pct', regs = Some r :: regs' -> pct = p :: pct' -> (exists q, In q p /\ q <= 0) -> endIter o s it phi phim pct = Err ValueError.
Proof.
  intros regs (Hst & Hi & Hc & Hr & Hcf & Hb) Hp r p regs' pct' -> -> (q & Hq & Hle). unfold endIter, adjust. rewrite Hst. cbn [bind]. rewrite Hst.
  destruct (Rlt_dec phi (misfit_of o (o_chi_start o))); [|contradiction]. unfold start_irls. rewrite Hr, Hi. cbn [l2_regs user_norms map option_map set_thresholds].
  replace (existsb _ p) with true; [reflexivity|]. symmetry. apply existsb_exists. exists q. split; [assumption|]. destruct (Rlt_dec 0 q); [lra|reflexivity].
Qed.
(** An inversion that never reaches the start misfit, followed by another one. *)
Lemma norms_lost o s obs s' : (1 <= o_rate o)%nat -> i_cf s <> 0 -> (forall b, In b obs -> INR (o_nD o) * o_chi_start o <= ob_phi b) ->
  irls_run o (irls_init s) 1 obs = Ok s' -> forall ns, In (Some ns) (i_input (irls_init s')) -> Forall (fun p => p = 2) ns.
Proof.
  intros Hr Hc Hb H ns Hn. destruct (before_start o s obs s' Hr Hc Hb H) as (_ & T & _). cbn in Hn. apply in_map_iff in Hn as ([r|] & E & Hin); [|discriminate].
  cbn in E. injection E as <-. apply T. assumption.
Qed.
Lemma clears_stop o regs cf beta s it phi phim pct s' : waiting o regs cf beta s -> phi < misfit_of o (o_chi_start o) -> length pct = length regs -> (0 < o_max o)%nat ->
  endIter o s it phi phim pct = Ok s' -> i_stop s' = false.
Proof. intros W P L M H. apply (step_start o regs cf beta) in H as (_ & _ & _ & A & _); try assumption. apply A, M. Qed.
(** Every reachable state is in one of the phases. *)
Lemma run_phase o regs cf : forall obs beta s it s', waiting o regs cf beta s -> (forall b, In b obs -> length (ob_pct b) = length regs) ->
  irls_run o s it obs = Ok s' -> (exists beta', waiting o regs cf beta' s') \/ (exists k pct, started o regs k pct s').
Proof.
  induction obs as [|b obs IH]; intros beta s it s' W L H; [injection H as <-; left; eauto|].
  cbn [irls_run] in H. destruct (endIter o s it _ _ _) as [s1|] eqn:E; [|discriminate]. cbn [bind] in H.
  destruct (Rlt_dec (ob_phi b) (misfit_of o (o_chi_start o))) as [G|G].
  - apply (step_start o regs cf beta) in E as (S1 & _); [|assumption|assumption|apply L; left; reflexivity]. right. exists it, (ob_pct b). eapply run_started; eassumption.
  - apply (step_waiting o regs cf beta) in E as [W1 _]; [|assumption|lra]. eapply IH; [exact W1| |exact H]. intros x Hx. apply L. right. assumption.
Qed.
Lemma reach_started o s0 obs s k : (forall b, In b obs -> length (ob_pct b) = length (i_regs s0)) -> irls_run o (irls_init s0) 1 obs = Ok s -> i_start s = Some k ->
  exists pct, started o (i_regs s0) k pct s.
Proof.
  intros L H Hs. destruct (run_phase o (i_regs s0) (i_cf s0) obs _ _ _ _ (init_waiting o s0) L H) as [(b & W & _)|(k' & pct & S)]; [congruence|].
  exists pct. destruct S as (E & S). rewrite Hs in E. injection E as <-. split; assumption.
Qed.
Lemma reach_beta o s0 obs s k it phi phim pct s' : (forall b, In b obs -> length (ob_pct b) = length (i_regs s0)) -> irls_run o (irls_init s0) 1 obs = Ok s -> i_start s = Some k ->
  endIter o s it phi phim pct = Ok s' -> 0 < i_beta s -> 0 <= o_tol o ->
  (above_band o phi -> 3 / 8 * i_beta s < i_beta s' <= i_beta s) /\ (below_band o phi -> i_beta s <= i_beta s') /\ (in_band o phi -> i_beta s' = i_beta s) /\
  ((0 < it)%nat -> (it mod o_rate o = 0)%nat -> i_stop s' = false -> (above_band o phi -> i_beta s' < i_beta s) /\ (below_band o phi -> 3 / 2 * i_beta s < i_beta s')).
Proof. intros L H Hs E. destruct (reach_started o s0 obs s k L H Hs) as (p & S). eapply beta_moves; eassumption. Qed.
Lemma reach_count o s0 obs s k it phi phim pct s' : (forall b, In b obs -> length (ob_pct b) = length (i_regs s0)) -> irls_run o (irls_init s0) 1 obs = Ok s -> i_start s = Some k ->
  endIter o s it phi phim pct = Ok s' ->
  (i_count s' <= S (i_count s))%nat /\ (i_count s = o_max o -> ((it - k) mod o_rate o = 0)%nat -> i_stop s' = true /\ i_count s' = o_max o) /\
  (((it - k) mod o_rate o)%nat <> 0%nat -> i_regs s' = i_regs s /\ i_count s' = i_count s).
Proof. intros L H Hs E. destruct (reach_started o s0 obs s k L H Hs) as (p & S). eapply count_moves; eassumption. Qed.
Lemma run_flat o s0 a b s r p regs' pct' : (forall x, In x a -> INR (o_nD o) * o_chi_start o <= ob_phi x) -> (1 <= o_rate o)%nat -> i_cf s0 <> 0 ->
  irls_run o (irls_init s0) 1 a = Ok s -> ob_phi b < INR (o_nD o) * o_chi_start o ->
  i_regs s0 = Some r :: regs' -> ob_pct b = p :: pct' -> In 0 p -> irls_run o (irls_init s0) 1 (a ++ [b]) = Err ValueError.
Proof.
  intros Ha Hr Hc H Hb Er Ep Hp. rewrite run_app, H. cbn [bind irls_run].
  pose proof (run_waiting o (i_regs s0) (i_cf s0) (i_beta s0) a _ 1 s Hc (init_waiting o s0) Ha H) as W.
  assert (W' : waiting o (i_regs s0) (i_cf s) (i_beta s) s) by (destruct W as (A & B & C & D & E & F); repeat split; assumption).
  rewrite (flat_raises o s (1 + length a) (ob_phi b) (ob_phim b) (ob_pct b) _ W' Hb r p regs' pct' Er Ep); [reflexivity|]. exists 0. split; [assumption|lra].
Qed.
