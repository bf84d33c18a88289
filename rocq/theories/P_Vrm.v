(** C91: decays of viscous remanent magnetization after a waveform. *)
From Coq Require Import Reals Lra Lia.
From Verif Require Import Py Vec Scaling Vrm SpecVrm VrmFacts VrmFacts2 VrmFacts3 VrmFacts4.
Local Open Scope R_scope.

(** A square pulse leaves the integral of 1 / (t - s) over the pulse. *)
Theorem C91_pulse t0 delt times : 0 < delt -> times <> [] -> Forall (fun t => t0 < t) times ->
  exists l, pulse_decay t0 delt FH times = Ok l /\ Forall2 (fun t v => integral (fun s => 1 / (t - s)) (t0 - delt) t0 v) times l.
Proof. exact (c91_pulse t0 delt times). Qed.
Print Assumptions C91_pulse.
Example C91_pulse_case : Forall (fun t => 0 < t) [1; 2; 5] /\ [1; 2; 5] <> [].
Proof. split; [repeat constructor; lra|discriminate]. Qed.
(** Rates are the derivatives of the fields, b is mu0 times h. *)
Theorem C91_pulse_rate t0 delt times : 0 < delt -> times <> [] -> Forall (fun t => t0 < t) times ->
  exists eta eta', (forall t, t0 < t -> derivable_pt_lim eta t (eta' t)) /\ pulse_decay t0 delt FH times = Ok (map eta times) /\ pulse_decay t0 delt FB times = Ok (map (fun t => mu0 * eta t) times) /\ pulse_decay t0 delt FDH times = Ok (map eta' times) /\ pulse_decay t0 delt FDB times = Ok (map (fun t => mu0 * eta' t) times).
Proof. exact (c91_pulse_rate t0 delt times). Qed.
Print Assumptions C91_pulse_rate.
(** The rate after a pulse is a step off at its end less a step off at its beginning. *)
Theorem C91_pulse_steps t0 delt b times : 0 < delt -> times <> [] -> Forall (fun t => t0 < t) times ->
  let f := if b : bool then FDB else FDH in exists x y, step_decay t0 f times = Ok x /\ step_decay (t0 - delt) f times = Ok y /\ pulse_decay t0 delt f times = Ok (vsub x y).
Proof. exact (c91_pulse_steps t0 delt b times). Qed.
Print Assumptions C91_pulse_steps.
(** Times that are not after the switch-off are refused. *)
Theorem C91_early t0 delt f times : ~ Forall (fun t => t0 < t) times -> pulse_decay t0 delt f times = Err ValueError /\ step_decay t0 f times = Err ValueError.
Proof. exact (c91_early t0 delt f times). Qed.
Print Assumptions C91_early.
Example C91_early_case : ~ Forall (fun t => 0 < t) [1; 0].
Proof. intros F. apply Forall_inv_tail, Forall_inv in F. lra. Qed.
(** A sampled waveform leaves the integral of its current, linear between samples and scaled to its
    peak, over 1 / (t - s). *)
Theorem C91_memory tl tp tc tr lead p core rest times : shape lead p core rest -> timed tl tc tr lead core rest -> increasing (tl ++ tp :: tc ++ tr) -> times <> [] -> later (tl ++ tp :: tc ++ tr) times ->
  exists M l, peak (p :: core ++ firstn 1 rest) M /\ piece_decay (tl ++ tp :: tc ++ tr) (lead ++ p :: core ++ rest) FH times = Ok l /\
    Forall2 (fun t v => memory t (tp :: tc ++ firstn 1 tr) (scaled M (p :: core ++ firstn 1 rest)) v) times l.
Proof. exact (c91_memory tl tp tc tr lead p core rest times). Qed.
Print Assumptions C91_memory.
Example C91_memory_case : shape [0] 0 [2; 3] [0; 0] /\ timed [1] [3; 4] [5; 6] [0] [2; 3] [0; 0] /\ increasing ([1] ++ 2 :: [3; 4] ++ [5; 6]) /\ later ([1] ++ 2 :: [3; 4] ++ [5; 6]) [7; 9].
Proof.
  unfold shape, timed, later, after, off, ons. cbn. pose proof (Rinv_0_lt_compat 10000000000 ltac:(lra)). assert (/ 10000000000 < 1) by (rewrite <- Rinv_1; apply Rinv_lt_contravar; lra).
  repeat split; try lra; try discriminate; repeat constructor; try lra.
Qed.
(** More samples on a linear piece change nothing. *)
Theorem C91_refine ta ga tm tb gb t : ta < tm -> tm < tb -> tb < t -> seg_sum seg_h [ta; tb] [ga; gb] t = seg_sum seg_h [ta; tm; tb] [ga; current ta ga tb gb tm; gb] t.
Proof. intros A B C. rewrite !seg_sum_cons. rewrite (seg_refine ta ga tm tb gb t A B C). cbn [seg_sum]. ring. Qed.
Print Assumptions C91_refine.
(** If the current begins and ends at zero, rates are the derivatives of the fields. *)
Theorem C91_rate tl tp tc tr lead core rest : shape lead 0 core (0 :: rest) -> timed tl tc tr lead core (0 :: rest) -> increasing (tl ++ tp :: tc ++ tr) ->
  exists eta eta',
    (forall times, times <> [] -> later (tl ++ tp :: tc ++ tr) times -> piece_decay (tl ++ tp :: tc ++ tr) (lead ++ 0 :: core ++ 0 :: rest) FH times = Ok (map eta times) /\ piece_decay (tl ++ tp :: tc ++ tr) (lead ++ 0 :: core ++ 0 :: rest) FDH times = Ok (map eta' times)) /\
    forall t, after (tl ++ tp :: tc ++ tr) t -> derivable_pt_lim eta t (eta' t).
Proof. exact (c91_rate tl tp tc tr lead core rest). Qed.
Print Assumptions C91_rate.
(** If it ends while on, they are not. *)
Theorem C91_abrupt_refuted tl tp tc lead core : shape lead 0 core [] -> timed tl tc [] lead core [] -> increasing (tl ++ tp :: tc ++ []) ->
  exists eta eta',
    (forall times, times <> [] -> later (tl ++ tp :: tc ++ []) times -> piece_decay (tl ++ tp :: tc ++ []) (lead ++ 0 :: core ++ []) FH times = Ok (map eta times) /\ piece_decay (tl ++ tp :: tc ++ []) (lead ++ 0 :: core ++ []) FDH times = Ok (map eta' times)) /\
    forall t, after (tl ++ tp :: tc ++ []) t -> exists d, 0 < d /\ derivable_pt_lim eta t (eta' t - d).
Proof. exact (c91_abrupt tl tp tc lead core). Qed.
Print Assumptions C91_abrupt_refuted.
Example C91_abrupt_case : shape [] 0 [1; 1] [] /\ timed [] [2; 3] [] [] [1; 1] [] /\ increasing ([] ++ 1 :: [2; 3] ++ []).
Proof.
  unfold shape, timed, off, ons. cbn. pose proof (Rinv_0_lt_compat 10000000000 ltac:(lra)). assert (/ 10000000000 < 1) by (rewrite <- Rinv_1; apply Rinv_lt_contravar; lra).
  repeat split; try lra; try discriminate; repeat constructor; try lra.
Qed.
(** b and db/dt are mu0 times h and dh/dt. *)
Theorem C91_fields tw iw times l : (piece_decay tw iw FH times = Ok l -> piece_decay tw iw FB times = Ok (map (fun x => mu0 * x) l)) /\ (piece_decay tw iw FDH times = Ok l -> piece_decay tw iw FDB times = Ok (map (fun x => mu0 * x) l)).
Proof. exact (c91_fields tw iw times l). Qed.
Print Assumptions C91_fields.
(** A waveform that is on from its first sample leaves no decay at all, or an error. *)
Theorem C91_start_refuted tw core rest f times : length tw = length (core ++ rest) -> core <> [] -> ons (hd 0 core) -> ons (last core 0) -> Forall off rest -> times <> [] -> later tw times ->
  piece_decay tw (core ++ rest) f times = match rest with [] | [_] => Ok (map (fun _ => 0) times) | _ => Err ValueError end.
Proof. exact (c91_start tw core rest f times). Qed.
Print Assumptions C91_start_refuted.
Example C91_start_case : ons (hd 0 [1; 1]) /\ ons (last [1; 1] 0) /\ Forall off [0] /\ later [1; 2; 3] [5].
Proof.
  unfold ons, later, after, off. cbn. pose proof (Rinv_0_lt_compat 10000000000 ltac:(lra)). assert (/ 10000000000 < 1) by (rewrite <- Rinv_1; apply Rinv_lt_contravar; lra).
  repeat split; try lra; repeat constructor; try lra.
Qed.
(** Negative currents after the last positive one do not count. *)
Theorem C91_negative_refuted tl tp tc tr tt lead p core q rest it f times : shape lead p core (q :: rest) -> timed tl tc tr lead core (q :: rest) -> length tt = length it -> Forall off it -> times <> [] -> later (tl ++ tp :: tc ++ tr ++ tt) times ->
  piece_decay (tl ++ tp :: tc ++ tr ++ tt) (lead ++ p :: core ++ (q :: rest) ++ it) f times = piece_decay (tl ++ tp :: tc ++ tr) (lead ++ p :: core ++ q :: rest) f times.
Proof. exact (c91_tail tl tp tc tr tt lead p core q rest it f times). Qed.
Print Assumptions C91_negative_refuted.
Example C91_negative_case : Forall off [-1; -1; 0].
Proof. unfold off. pose proof (Rinv_0_lt_compat 10000000000 ltac:(lra)). repeat constructor; lra. Qed.
(** Without any positive current there is no result. *)
Theorem C91_none_refuted tw iw f times : length tw = length iw -> tw <> [] -> times <> [] -> later tw times -> Forall off iw -> piece_decay tw iw f times = Err IndexError.
Proof. exact (c91_none tw iw f times). Qed.
Print Assumptions C91_none_refuted.
(** Log-uniform relaxation times: the rate after a step lies between that of unlimited times and zero. *)
Theorem C91_log_bound t0 dchi tau1 tau2 t : 0 < dchi -> 0 < tau1 < tau2 -> t0 < t -> dchi / ln (tau2 / tau1) * step_at t0 t < lstep_dh t0 dchi tau1 tau2 t < 0.
Proof. exact (log_bound t0 dchi tau1 tau2 t). Qed.
Print Assumptions C91_log_bound.
(** After a pulse it is the difference of two steps, *)
Theorem C91_log_pulse t0 delt dchi tau1 tau2 t : lpulse_dh t0 delt dchi tau1 tau2 t = lstep_dh t0 dchi tau1 tau2 t - lstep_dh (t0 - delt) dchi tau1 tau2 t.
Proof. exact (log_pulse t0 delt dchi tau1 tau2 t). Qed.
Print Assumptions C91_log_pulse.
(** and the derivative of the field. *)
Theorem C91_log_rate Ei t0 delt chi0 dchi tau1 tau2 t : (forall x, x < 0 -> derivable_pt_lim Ei x (exp x / x)) -> 0 < delt -> 0 < tau1 -> 0 < tau2 -> t0 < t ->
  derivable_pt_lim (lpulse_h Ei t0 delt chi0 dchi tau1 tau2) t (lpulse_dh t0 delt dchi tau1 tau2 t).
Proof. exact (log_rate Ei t0 delt chi0 dchi tau1 tau2 t). Qed.
Print Assumptions C91_log_rate.
(** During the pulse the field is constant although its rate is not zero. *)
Theorem C91_log_on_refuted Ei t0 delt chi0 dchi tau1 tau2 t : 0 < dchi -> 0 < tau1 < tau2 -> t0 - delt < t < t0 -> derivable_pt_lim (lpulse_h Ei t0 delt chi0 dchi tau1 tau2) t 0 /\ lpulse_h Ei t0 delt chi0 dchi tau1 tau2 t = 2 * (chi0 - dchi) /\ 0 < lpulse_dh t0 delt dchi tau1 tau2 t.
Proof. exact (log_on Ei t0 delt chi0 dchi tau1 tau2 t). Qed.
Print Assumptions C91_log_on_refuted.
(** A step off gives rates only, in SI units, exactly for times after it. *)
Theorem C91_step t0 f times :
  step_decay t0 f times =
    Ok (map (fun t => match f with FDB => - (4 * PI / 10000000) | _ => - (1) end / (t - t0)) times)
  /\ (f = FDH \/ f = FDB) /\ times <> [] /\ Forall (fun t => t0 < t) times
  \/ step_decay t0 f times = Err ValueError /\ ~ ((f = FDH \/ f = FDB) /\ times <> [] /\ Forall (fun t => t0 < t) times).
Proof. exact (c91_step t0 f times). Qed.
Print Assumptions C91_step.
(** Times and currents of different numbers are refused. *)
Theorem C91_lengths tw iw f times : length tw <> length iw -> piece_decay tw iw f times = Err ValueError.
Proof. exact (c91_lengths tw iw f times). Qed.
Print Assumptions C91_lengths.
Example C91_lengths_case : length [0; 1; 2] <> length [1; 1].
Proof. discriminate. Qed.
