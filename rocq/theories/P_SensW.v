(** Property C32: sensitivity weights. *)
From Coq Require Import Lra.
From Verif Require Import Py Vec SensW SpecSensW SensWFacts.
Local Open Scope R_scope.

(** Before thresholding, a parameter that is entry i of one regularization (and of no other)
    gets the root of the summed squares of its weighted sensitivities over all simulations,
    divided by the volume of its cell. *)
Theorem C32_raw : forall n l regs1 r regs2 w i j, Forall (sens_len n) l -> (j < n)%nat -> owns r i j ->
  0 < nth (i mod length (r_vol r)) (r_vol r) 0 -> (forall q, In (Some q) (regs1 ++ regs2) -> ~ In j (r_idx q)) ->
  raw_weights n l (regs1 ++ Some r :: regs2) = Ok w -> nth j w 0 = sqrt (diag_at l j) / nth (i mod length (r_vol r)) (r_vol r) 0.
Proof. exact raw_ok. Qed.
Print Assumptions C32_raw.
Example C32_raw_case : Forall (sens_len 2) [WJ [[3; 0]; [4; 1]]; JtJdiag [0; 8]] /\ owns (mkWr [0%nat; 1%nat] [5; 1] []) 0 0 /\
  exists w, raw_weights 2 [WJ [[3; 0]; [4; 1]]; JtJdiag [0; 8]] ([] ++ Some (mkWr [0%nat; 1%nat] [5; 1] []) :: [None]) = Ok w.
Proof.
  split; [repeat constructor|]. split; [|eexists; reflexivity]. split; [reflexivity|]. repeat constructor; cbn; intuition discriminate.
Qed.
(** Maximum normalisation: the largest weight is exactly 1, none is negative, and with the
    amplitude method none is below the threshold (or below 1 if the threshold exceeds it). *)
Theorem C32_maximum : forall meth t w, some_sensitivity w -> usable meth t ->
  exists v, finish_weights meth t NMax w = Ok (Some v) /\ length v = length w /\ greatest v 1 /\ (forall x, In x v -> 0 <= x) /\
    (meth = Amplitude -> forall x, In x v -> Rmin t 1 <= x).
Proof. exact max_range. Qed.
Print Assumptions C32_maximum.
(** Minimum normalisation with a positive threshold: the smallest weight is exactly 1. *)
Theorem C32_minimum : forall meth t w, some_sensitivity w -> 0 < t -> meth <> Percentile ->
  exists v, finish_weights meth t NMin w = Ok (Some v) /\ length v = length w /\ least v 1.
Proof. exact min_range. Qed.
Print Assumptions C32_minimum.
(** A positive threshold makes all weights positive. *)
Theorem C32_positive : forall meth t nm w, some_sensitivity w -> 0 < t -> meth <> Percentile ->
  exists v, finish_weights meth t nm w = Ok (Some v) /\ forall x, In x v -> 0 < x.
Proof. exact all_positive. Qed.
Print Assumptions C32_positive.
(** More sensitive parameters never get smaller weights. *)
Theorem C32_order : forall meth t w nm v i j, some_sensitivity w -> usable meth t -> finish_weights meth t nm w = Ok (Some v) ->
  (i < length w)%nat -> (j < length w)%nat -> nth i w 0 <= nth j w 0 -> nth i v 0 <= nth j v 0.
Proof. exact order_kept. Qed.
Print Assumptions C32_order.
Example C32_case : some_sensitivity [0; 3; 1] /\ usable Amplitude (1 / 100) /\ usable Percentile 25.
Proof.
  split; [|split; split; try lra; try discriminate; intros; lra]. split; [cbn; intros x [<-|[<-|[<-|[]]]]; lra|]. exists 3. split; [cbn; auto|lra].
Qed.
(** Refuted: with the global method the normalised weights go below the threshold value. *)
Theorem C32_global_refuted : exists t w v x, some_sensitivity w /\ 0 < t < 1 /\ finish_weights Global t NMax w = Ok (Some v) /\ In x v /\ x < t.
Proof.
  exists 0.5, [0; 9.5]. assert (S : some_sensitivity [0; 9.5]) by (split; [cbn; intros x [<-|[<-|[]]]; lra|exists 9.5; split; [cbn; auto|lra]]).
  destruct (max_normal Global 0.5 [0; 9.5] S ltac:(split; [lra|discriminate])) as (f & (_ & _ & _ & F) & _ & E). eexists. exists (f 0 / f (vmax [0; 9.5])).
  split; [exact S|]. split; [lra|]. split; [exact E|]. split; [left; reflexivity|]. rewrite !F. cbn. rewrite Rmax_right by lra. lra.
Qed.
Print Assumptions C32_global_refuted.
(** Refuted: minimum normalisation divides by zero when the threshold leaves a zero weight. *)
Theorem C32_zero_minimum_refuted : some_sensitivity [0; 1] /\ finish_weights Amplitude 0 NMin [0; 1] = Ok None.
Proof.
  split; [split; [cbn; intros x [<-|[<-|[]]]; lra|exists 1; split; [cbn; auto|lra]]|].
  unfold finish_weights, threshold, clip_min. cbn [length Nat.eqb bind map]. rewrite Rmult_0_l. destruct (Rlt_dec 0 0) as [G|_]; [lra|]. destruct (Rlt_dec 1 0) as [G|_]; [lra|].
  cbn. rewrite Rmin_left by lra. destruct (Req_EM_T 0 0); [reflexivity|congruence].
Qed.
Print Assumptions C32_zero_minimum_refuted.
(** Refuted: percentile thresholds above 100 are accepted by the setter but raise here. *)
Theorem C32_percentile_refuted : forall t nm w, 100 < t -> finish_weights Percentile t nm w = Err ValueError.
Proof.
  intros t nm w H. unfold finish_weights, threshold, percentile. destruct (Rlt_dec t 0); [lra|]. destruct (Rlt_dec 100 t); [reflexivity|lra].
Qed.
Print Assumptions C32_percentile_refuted.
