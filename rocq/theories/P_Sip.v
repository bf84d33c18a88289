(** C89: spectral induced polarization. *)
From Coq Require Import Reals.
From Verif Require Import Py Vec VecDeriv Joint Sip SpecSip SipFacts SipFacts2 SipFacts3 SipFacts4 SipFacts5.
Local Open Scope R_scope.

(** The weights of the code's sum over pulses are those of the mean of the signals after each
    pulse. *)
Theorem C89_stack n T g t : response n T g t = signal n T g t.
Proof. exact (c89_stack n T g t). Qed.
Print Assumptions C89_stack.
(** The times of a survey: increasing, without repetition, exactly those of its receivers. *)
Theorem C89_times s : increasing (unique_times s) /\ forall t, In t (unique_times s) <-> exists r, In r (all_rx s) /\ In t (x_times r).
Proof. exact (c89_times s). Qed.
Print Assumptions C89_times.
(** Data are the readings of the chargeability time by time. *)
Theorem C89_data s m : sip_ok s -> length m = p_n s -> direct s \/ (kept s /\ exists ts, common s ts) ->
  snd (ydpred s yinit m false) = Ok (Some (readings_at s (polarization s m) (unique_times s))).
Proof. exact (c89_data s m). Qed.
Print Assumptions C89_data.
(** Jvec is the derivative of dpred. *)
Theorem C89_jacobian s ts m : sip_ok s -> common s ts -> direct s \/ kept s -> smooth s m -> positive (p_taui s m) -> positive ts -> 0 <= p_T s ->
  (exists d, snd (ydpred s yinit m false) = Ok (Some d)) /\ (forall v, exists j, snd (yJvec s yinit m v false) = Ok j) /\
  has_jacobian (p_n s) (nD s) (fun m => predicted (snd (ydpred s yinit m false))) m (fun v => value (snd (yJvec s yinit m v false))).
Proof.
  exact (fun OK CM KD SM P PT HT => conj (ex_intro _ _ (dpred_value s OK ts CM KD m (proj1 SM))) (conj (fun v => ex_intro _ _ (jvec_value s OK ts CM KD m v (proj1 SM))) (c89_jacobian s OK ts CM KD m SM P PT HT))).
Qed.
Print Assumptions C89_jacobian.
Example C89_jacobian_ex : sip_ok (cell1 true two_rx) /\ common (cell1 true two_rx) [1; 2] /\ kept (cell1 true two_rx) /\ smooth (cell1 true two_rx) [3].
Proof. exact (conj (cell1_ok true two_rx two_rx_ones) (conj (two_common true) (conj (kept_cell1 two_rx) (cell1_smooth true two_rx 3)))). Qed.
(** Two-dimensional simulations: Jtvec is the adjoint of Jvec. *)
Theorem C89_adjoint s ts m v w : sip_ok s -> common s ts -> kept s -> length m = p_n s -> length v = p_n s -> length w = nD s ->
  exists j a, snd (yJvec s yinit m v false) = Ok j /\ snd (yJtvec s yinit m w false) = Ok a /\ dot w j = dot a v.
Proof. exact (fun OK CM D => c89_kept_adjoint s OK ts CM (or_intror D) m v w D). Qed.
Print Assumptions C89_adjoint.
(** Three-dimensional simulations: Jtvec is the adjoint of Jvec for data in another order. *)
Theorem C89_adjoint_order s ts m v w : sip_ok s -> common s ts -> direct s -> length m = p_n s -> length v = p_n s -> length w = nD s ->
  exists j a, snd (yJvec s yinit m v false) = Ok j /\ snd (yJtvec s yinit m w false) = Ok a /\ dot (by_time s ts w) j = dot a v.
Proof. exact (fun OK CM D => c89_direct_adjoint s OK ts CM (or_introl D) m v w D). Qed.
Print Assumptions C89_adjoint_order.
(** Missing: more receivers and more times, where it is wrong (next theorem). *)
Theorem C89_adjoint_partial s ts m v w : sip_ok s -> common s ts -> direct s -> (exists t, ts = [t]) \/ (exists r, all_rx s = [r]) -> length m = p_n s -> length v = p_n s -> length w = nD s ->
  exists j a, snd (yJvec s yinit m v false) = Ok j /\ snd (yJtvec s yinit m w false) = Ok a /\ dot w j = dot a v.
Proof. exact (c89_adjoint_partial s ts m v w). Qed.
Print Assumptions C89_adjoint_partial.
Example C89_adjoint_partial_ex : sip_ok (tau1 false [rx1 1 [1]]) /\ common (tau1 false [rx1 1 [1]]) [1] /\ direct (tau1 false [rx1 1 [1]]).
Proof. exact (conj (tau1_ok false _ one_rx_ones) (conj (tau_common false) (direct_tau1 _))). Qed.
Theorem C89_adjoint_refuted : exists s ts m v w, sip_ok s /\ common s ts /\ direct s /\ length m = p_n s /\ length v = p_n s /\ length w = nD s /\
  exists j a, snd (yJvec s yinit m v false) = Ok j /\ snd (yJtvec s yinit m w false) = Ok a /\ dot w j <> dot a v.
Proof. exact c89_adjoint_refuted. Qed.
Print Assumptions C89_adjoint_refuted.
(** Receivers with times of their own: Jvec does not fit the data and Jtvec fails. *)
Theorem C89_times_refuted : exists s m, sip_ok s /\ direct s /\ length m = p_n s /\
  length (value (snd (yJvec s yinit m m false))) <> length (predicted (snd (ydpred s yinit m false))) /\
  length (predicted (snd (ydpred s yinit m false))) = nD s /\ forall w, length w = nD s -> snd (yJtvec s yinit m w false) = Err KeyError.
Proof. exact c89_mixed_refuted. Qed.
Print Assumptions C89_times_refuted.
(** After any calls: predictions are those of a new object, and so are the products of
    three-dimensional simulations; if the last call was fields with the same model, everything is,
    whether fields are passed or not. *)
Theorem C89_history s h m v w : sip_ok s -> direct s \/ (kept s /\ exists ts, common s ts) -> length m = p_n s ->
  snd (ydpred s (yhistory s h) m false) = snd (ydpred s yinit m false) /\
  (direct s -> snd (yJvec s (yhistory s h) m v false) = snd (yJvec s yinit m v false) /\ snd (yJtvec s (yhistory s h) m w false) = snd (yJtvec s yinit m w false)) /\
  forall g, let st := yhistory s (h ++ [YFields m]) in
    snd (ydpred s st m g) = snd (ydpred s yinit m false) /\ snd (yJvec s st m v g) = snd (yJvec s yinit m v false) /\ snd (yJtvec s st m w g) = snd (yJtvec s yinit m w false).
Proof. exact (fun OK KD => c89_history s OK KD h m v w). Qed.
Print Assumptions C89_history.
(** Passed fields are not looked at: the data are those of the last model. *)
Theorem C89_history_fields_refuted : ~ forall s h m, sip_ok s -> direct s -> length m = p_n s -> In (YFields m) h -> snd (ydpred s (yhistory s h) m true) = snd (ydpred s yinit m false).
Proof. exact c89_fields_refuted. Qed.
Print Assumptions C89_history_fields_refuted.
(** Two-dimensional simulations: Jvec uses the chargeabilities of the last model of fields. *)
Theorem C89_history_jvec_refuted : ~ forall s h m v, sip_ok s -> kept s -> (exists ts, common s ts) -> length m = p_n s -> snd (yJvec s (yhistory s h) m v false) = snd (yJvec s yinit m v false).
Proof. exact c89_jvec_refuted. Qed.
Print Assumptions C89_history_jvec_refuted.
(** Three-dimensional simulations with stored J never give fields. *)
Theorem C89_store_refuted s h m : p_2d s = false -> p_storeJ s = true -> length m = p_n s -> snd (yfields s (yhistory s h) m) = Err AttributeError.
Proof. exact (c89_store3d s h m). Qed.
Print Assumptions C89_store_refuted.
(** getJtJdiag never succeeds. *)
Theorem C89_diagonal_refuted s st m g : exists e, snd (ygetJtJdiag s st m g) = Err e.
Proof. exact (c89_diag s st m g). Qed.
Print Assumptions C89_diagonal_refuted.
(** Apparent chargeabilities: however often fields is called, the projection divides by the DC
    voltage once. *)
Theorem C89_projection P u k : Forall (fun x => x <> 0) (mv P u) ->
  snd (proj_charge true P (Nat.iter (S k) (set_voltage true P u) (None, None))) = Ok (rowscale (map Rinv (mv P u)) P) /\
  snd (proj_charge false P (Nat.iter (S k) (set_voltage false P u) (None, None))) = Ok (rowscale (map Rinv (mv P u)) P).
Proof. exact (c89_projection P u k). Qed.
Print Assumptions C89_projection.
(** But with kept projections dc_voltage is one after the second call. *)
Theorem C89_voltage_refuted P u k : Forall (fun x => x <> 0) (mv P u) -> snd (Nat.iter (S (S k)) (set_voltage true P u) (None, None)) = Some (repeat 1 (length P)).
Proof. exact (c89_voltage P u k). Qed.
Print Assumptions C89_voltage_refuted.
