From Coq Require Import Reals Lra Lia.
From Verif Require Import Py Vec VecDeriv EmpirFacts Scaling ScalingFacts Vrm SpecVrm VrmFacts VrmFacts2.
Local Open Scope R_scope.

Lemma last_cons_app (x : R) l y : last (x :: l ++ [y]) 0 = y.
Proof. change (x :: l ++ [y]) with ((x :: l) ++ [y]). apply last_last. Qed.
Lemma c91_rate tl tp tc tr lead core rest : shape lead 0 core (0 :: rest) -> timed tl tc tr lead core (0 :: rest) -> increasing (tl ++ tp :: tc ++ tr) ->
  exists eta eta',
    (forall times, times <> [] -> later (tl ++ tp :: tc ++ tr) times -> piece_decay (tl ++ tp :: tc ++ tr) (lead ++ 0 :: core ++ 0 :: rest) FH times = Ok (map eta times) /\ piece_decay (tl ++ tp :: tc ++ tr) (lead ++ 0 :: core ++ 0 :: rest) FDH times = Ok (map eta' times)) /\
    forall t, after (tl ++ tp :: tc ++ tr) t -> derivable_pt_lim eta t (eta' t).
Proof.
  intros SH TM I. destruct (c91_rates tl tp tc tr lead 0 core (0 :: rest) SH TM I) as (M & eta & eta' & (PM & _) & E & D). exists eta, eta'. split; [exact E|]. intros t A. eapply dpl_eq; [|exact (D t A)]. cbn [firstn]. rewrite last_cons_app. unfold Rdiv. ring.
Qed.
Lemma after_last tv t : tv <> [] -> after tv t -> last tv 0 < t.
Proof. intros NE A. apply (proj1 (Forall_forall _ _) A). destruct (exists_last NE) as (l & x & ->). rewrite last_last. apply in_or_app. right. left. reflexivity. Qed.
Lemma c91_abrupt tl tp tc lead core : shape lead 0 core [] -> timed tl tc [] lead core [] -> increasing (tl ++ tp :: tc ++ []) ->
  exists eta eta',
    (forall times, times <> [] -> later (tl ++ tp :: tc ++ []) times -> piece_decay (tl ++ tp :: tc ++ []) (lead ++ 0 :: core ++ []) FH times = Ok (map eta times) /\ piece_decay (tl ++ tp :: tc ++ []) (lead ++ 0 :: core ++ []) FDH times = Ok (map eta' times)) /\
    forall t, after (tl ++ tp :: tc ++ []) t -> exists d, 0 < d /\ derivable_pt_lim eta t (eta' t - d).
Proof.
  intros SH TM I. destruct (c91_rates tl tp tc [] lead 0 core [] SH TM I) as (M & eta & eta' & (PM & _) & E & D). exists eta, eta'. split; [exact E|]. intros t A. eexists. split; [|exact (D t A)].
  destruct (window_ok tl tp tc [] lead 0 core [] t TM I A) as (_ & W2 & _). assert (L := after_last (tp :: tc ++ firstn 1 []) t ltac:(discriminate) W2). destruct SH as (_ & _ & NC & _ & OL & _).
  assert (EL : last (0 :: core ++ firstn 1 []) 0 = last core 0) by (cbn [firstn]; rewrite app_nil_r; destruct core; [congruence|reflexivity]). rewrite EL. unfold ons in OL. assert (P : 0 < last core 0) by (pose proof (Rinv_0_lt_compat 10000000000 ltac:(lra)); lra).
  assert (Q : 0 < last core 0 / M / (t - last (tp :: tc ++ firstn 1 []) 0)). { unfold Rdiv. apply Rmult_lt_0_compat; [apply Rmult_lt_0_compat; [exact P|apply Rinv_0_lt_compat; exact PM]|apply Rinv_0_lt_compat; lra]. }
  replace (0 / M / (t - tp)) with 0 by (unfold Rdiv; ring). lra.
Qed.
Lemma c91_pulse t0 delt times : 0 < delt -> times <> [] -> Forall (fun t => t0 < t) times ->
  exists l, pulse_decay t0 delt FH times = Ok l /\ Forall2 (fun t v => integral (fun s => 1 / (t - s)) (t0 - delt) t0 v) times l.
Proof.
  intros D NE F. unfold pulse_decay. rewrite early_false by assumption. eexists. split; [reflexivity|]. clear NE. induction F as [|t times H F IH]; cbn [map]; constructor; [apply pulse_integral; assumption|exact IH].
Qed.
Lemma c91_pulse_rate t0 delt times : 0 < delt -> times <> [] -> Forall (fun t => t0 < t) times ->
  exists eta eta', (forall t, t0 < t -> derivable_pt_lim eta t (eta' t)) /\ pulse_decay t0 delt FH times = Ok (map eta times) /\ pulse_decay t0 delt FB times = Ok (map (fun t => mu0 * eta t) times) /\ pulse_decay t0 delt FDH times = Ok (map eta' times) /\ pulse_decay t0 delt FDB times = Ok (map (fun t => mu0 * eta' t) times).
Proof.
  intros D NE F. exists (pulse_h t0 delt), (pulse_dh t0 delt). split; [intros t H; apply pulse_rate; assumption|]. unfold pulse_decay. rewrite early_false by assumption. repeat split. f_equal. apply map_ext. intros t. unfold pulse_at, pulse_dh. ring.
Qed.
Lemma c91_pulse_steps t0 delt b times : 0 < delt -> times <> [] -> Forall (fun t => t0 < t) times ->
  let f := if b : bool then FDB else FDH in exists x y, step_decay t0 f times = Ok x /\ step_decay (t0 - delt) f times = Ok y /\ pulse_decay t0 delt f times = Ok (vsub x y).
Proof.
  intros D NE F. cbv zeta. assert (F2 : Forall (fun t => t0 - delt < t) times) by (eapply Forall_impl; [|exact F]; cbv beta; intros; lra). unfold step_decay, pulse_decay. rewrite !early_false by assumption.
  destruct b; cbn [is_rate is_b negb]; (do 2 eexists; split; [reflexivity|]; split; [reflexivity|]; f_equal; clear NE F2; induction F as [|t times H F IH]; [reflexivity|]; cbn [map vsub zipw]; unfold vsub in IH; rewrite IH; f_equal; unfold pulse_at, pulse_dh, step_at; field; lra).
Qed.
Lemma c91_early t0 delt f times : ~ Forall (fun t => t0 < t) times -> pulse_decay t0 delt f times = Err ValueError /\ step_decay t0 f times = Err ValueError.
Proof. intros N. unfold pulse_decay, step_decay. rewrite early_true by exact N. split; [reflexivity|]. destruct (negb _); reflexivity. Qed.
