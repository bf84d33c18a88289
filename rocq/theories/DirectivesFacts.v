(** Proofs about cooling schedules and target misfits. *)
From Verif Require Import Py Vec Survey SurveyFacts Directives Irls SpecDirectives.
Local Open Scope R_scope.

(** ** BetaSchedule *)
Lemma div_succ k r : (1 <= r)%nat -> (S k / r = if Nat.eqb (S k mod r) 0 then S (k / r) else k / r)%nat.
Proof.
  intros Hr. pose proof (Nat.div_mod k r ltac:(lia)) as H. pose proof (Nat.mod_upper_bound k r ltac:(lia)) as U.
  destruct (Nat.eq_dec (k mod r) (r - 1)) as [E|E].
  - assert (S k = r * S (k / r) + 0)%nat as E1 by nia.
    rewrite <- (Nat.mod_unique (S k) r (S (k / r)) 0) by lia. cbn [Nat.eqb]. symmetry. apply (Nat.div_unique (S k) r (S (k / r)) 0); lia.
  - assert (S k = r * (k / r) + S (k mod r))%nat as E1 by nia.
    rewrite <- (Nat.mod_unique (S k) r (k / r) (S (k mod r))) by lia. cbn [Nat.eqb]. symmetry. apply (Nat.div_unique (S k) r (k / r) (S (k mod r))); lia.
Qed.
Lemma bs_closed b k beta0 : bs_valid b -> bs_run b k beta0 = beta0 / bs_factor b ^ (Nat.min k (bs_maxIter b - 1) / bs_rate b).
Proof.
  intros [Hr Hf]. unfold bs_run. induction k as [|k IH].
  - cbn [seq fold_left Nat.min]. rewrite Nat.div_0_l by lia. cbn. lra.
  - rewrite seq_S, fold_left_app. cbn [fold_left]. rewrite IH. cbn [Nat.add]. unfold bs_endIter. replace (1 + k)%nat with (S k) by lia. change (Nat.ltb 0 (S k)) with true. cbn [andb].
    destruct (Nat.ltb_spec (S k) (bs_maxIter b)) as [L|L]; cbn [andb].
    + rewrite !Nat.min_l by lia. rewrite div_succ by assumption. destruct (Nat.eqb (S k mod bs_rate b) 0); [|reflexivity].
      cbn [pow]. unfold Rdiv. rewrite Rinv_mult. lra.
    + rewrite !Nat.min_r by lia. reflexivity.
Qed.
Lemma multiples_div r m : (1 <= r)%nat -> multiples r m = (m / r)%nat.
Proof.
  intros Hr. unfold multiples. induction m as [|m IH]; [rewrite Nat.div_0_l by lia; reflexivity|].
  rewrite seq_S, filter_app, app_length, IH, div_succ by assumption. cbn [plus filter]. destruct (Nat.eqb (S m mod r) 0); cbn [length]; lia.
Qed.
Lemma bs_counts b k beta0 : bs_valid b -> bs_run b k beta0 = beta0 / bs_factor b ^ multiples (bs_rate b) (Nat.min k (bs_maxIter b - 1)).
Proof. intros H. rewrite bs_closed, multiples_div by apply H || assumption. reflexivity. Qed.
Lemma bs_positive b k beta0 : bs_valid b -> 0 < beta0 -> 0 < bs_run b k beta0.
Proof. intros Hv Hb. rewrite bs_closed by assumption. apply Rdiv_lt_0_compat; [assumption|]. apply pow_lt, Hv. Qed.
Lemma bs_monotone b k beta0 : bs_valid b -> 1 <= bs_factor b -> 0 < beta0 -> bs_run b (S k) beta0 <= bs_run b k beta0.
Proof.
  intros Hv H1 Hb. unfold bs_run. rewrite seq_S, fold_left_app. cbn [fold_left]. fold (bs_run b k beta0). pose proof (bs_positive b k beta0 Hv Hb) as P.
  set (x := bs_run b k beta0) in *. unfold bs_endIter. destruct (_ && _); [|lra].
  unfold Rdiv. rewrite <- (Rmult_1_r x) at 2. apply Rmult_le_compat_l; [lra|]. rewrite <- Rinv_1. apply Rinv_le_contravar; lra.
Qed.

(** ** TargetMisfit *)
(** The directive realises a wish: caches, when filled, agree with it. *)
Definition realises (nD : list nat) (t : tmis) (w : wish) : Prop :=
  tm_chi t = w_chi w /\
  (tm_star t = w_star w \/ (w_star w = None /\ tm_star t = Some (INR (list_sum nD)))) /\
  (tm_target t = w_target w \/ tm_target t = Some (wish_target nD w)).
Lemma total_nat nD : fold_left Nat.add nD 0%nat = list_sum nD.
Proof. apply (list_sum_nat_eq nD). Qed.
Lemma get_target_ok nD t w : realises nD t w ->
  fst (tm_get_target nD t) = wish_target nD w /\ realises nD (snd (tm_get_target nD t)) w.
Proof.
  intros (Hc & Hs & Ht). unfold tm_get_target. destruct (tm_target t) as [x|] eqn:Et.
  - cbn [fst snd]. split; [|split; [assumption|split; [assumption|]]; rewrite Et; destruct Ht; auto].
    destruct Ht as [Ht|Ht]; [|injection Ht as ->; reflexivity]. unfold wish_target. rewrite <- Ht. reflexivity.
  - assert (Hw : w_target w = None) by (destruct Ht; congruence).
    assert (V : tm_chi t * match tm_star t with Some s => s | None => INR (list_sum nD) end = wish_target nD w).
    { unfold wish_target. rewrite Hw, Hc. destruct Hs as [->|[-> ->]]; reflexivity. }
    unfold tm_get_star. rewrite total_nat. destruct (tm_star t) as [s|] eqn:Es; cbn [fst snd tm_chi tm_star].
    + split; [exact V|]. unfold realises. cbn [tm_chi tm_star tm_target]. split; [assumption|]. split; [rewrite Es; assumption|]. right. f_equal. exact V.
    + split; [exact V|]. unfold realises. cbn [tm_chi tm_star tm_target]. split; [assumption|]. split; [right; split; [destruct Hs as [Hs|[Hs _]]; [congruence|assumption]|reflexivity]|].
      right. f_equal. exact V.
Qed.
Lemma endIter_directive nD t p b : snd (tm_endIter nD t p b) = snd (tm_get_target nD t).
Proof. unfold tm_endIter. destruct (tm_get_target nD t) as [x t1]. reflexivity. Qed.
Lemma endIter_flag nD t p b : fst (tm_endIter nD t p b) = if Rlt_dec p (fst (tm_get_target nD t)) then true else b.
Proof. unfold tm_endIter. destruct (tm_get_target nD t) as [x t1]. reflexivity. Qed.
Lemma tm_step_ok nD t w o : realises nD t w -> realises nD (tm_step nD t o) (wish_step w o).
Proof.
  intros H. destruct o as [c|s|x| |p]; cbn [tm_step wish_step].
  - destruct H as (Hc & Hs & Ht). split; [reflexivity|]. split; [exact Hs|left; reflexivity].
  - destruct H as (Hc & Hs & Ht). split; [exact Hc|]. split; [left; reflexivity|left; reflexivity].
  - destruct H as (Hc & Hs & Ht). split; [exact Hc|]. split; [exact Hs|left; reflexivity].
  - apply get_target_ok, H.
  - rewrite endIter_directive. apply get_target_ok, H.
Qed.
Lemma tm_run_ok nD ops : forall t w, realises nD t w -> realises nD (fold_left (tm_step nD) ops t) (fold_left wish_step ops w).
Proof. induction ops as [|o ops IH]; intros t w H; [exact H|]. cbn [fold_left]. apply IH, tm_step_ok, H. Qed.
Lemma tm_init_ok nD target star chi t : tm_init target star chi = Ok t -> realises nD t (mkWish chi star target).
Proof. unfold tm_init. destruct star, target; intros [= <-]; (split; [reflexivity|]); (split; [left; reflexivity|left; reflexivity]). Qed.
Lemma tm_target_history nD target star chi t ops : tm_init target star chi = Ok t ->
  fst (tm_get_target nD (fold_left (tm_step nD) ops t)) = wish_target nD (fold_left wish_step ops (mkWish chi star target)).
Proof. intros H. apply get_target_ok, tm_run_ok, tm_init_ok, H. Qed.
Lemma tm_iter_ok nD t w phis : realises nD t w -> let n := tm_iterations nD t phis in let T := wish_target nD w in
  (n <= length phis)%nat /\ (forall i, (S i < n)%nat -> T <= nth i phis 0) /\
  ((exists p, In p phis /\ p < T) -> (0 < n)%nat /\ nth (n - 1) phis 0 < T) /\ (Forall (fun p => T <= p) phis -> n = length phis).
Proof.
  intros H; cbn zeta. revert t H; induction phis as [|p phis IH]; intros t H; cbn [tm_iterations].
  - cbn. split; [lia|]. split; [intros; lia|]. split; [intros (p & [] & _)|reflexivity].
  - pose proof (endIter_flag nD t p false) as F. pose proof (endIter_directive nD t p false) as D. destruct (tm_endIter nD t p false) as [stop t1]. cbn [fst snd] in F, D.
    destruct (get_target_ok nD t w H) as [V R]. rewrite V in F. rewrite <- D in R. destruct (Rlt_dec p (wish_target nD w)) as [L|L]; subst stop.
    + cbn. split; [lia|]. split; [intros; lia|]. split; [intros _; split; [lia|exact L]|]. intros HF. inversion HF; subst. lra.
    + destruct (IH t1 R) as (A & B & C & D'). cbn [length]. split; [lia|]. split; [|split].
      * intros [|i] Hi; [cbn; lra|]. cbn [nth]. apply B. lia.
      * intros (q & [<-|Hq] & Hlt); [lra|]. destruct C as [C1 C2]; [eauto|]. split; [lia|].
        replace (S (tm_iterations nD t1 phis) - 1)%nat with (S (tm_iterations nD t1 phis - 1)) by lia. exact C2.
      * intros HF. inversion HF; subst. f_equal. apply D'. assumption.
Qed.
Lemma tm_stale : let t := mkTm 1 None None in
  fst (tm_get_target [7%nat] (snd (tm_get_target [3%nat] t))) = 3 /\ fst (tm_get_target [7%nat] t) = 7.
Proof. cbn. lra. Qed.
