(** Property C36: simulations spread over worker processes. *)
From Coq Require Import Lra.
From Verif Require Import Py Vec Meta SpecMeta Multi SpecMulti MultiFacts.
Local Open Scope R_scope.

(** The simulations are partitioned in order into at most [p] non-empty, even chunks. *)
Theorem C36_partition : forall (F : Type) p (l : list (@msim F * mmap)), (0 < p)%nat ->
  concat (split p l) = l /\ (length (split p l) <= p)%nat /\
  forall ck, In ck (split p l) -> (0 < length ck)%nat /\ (length l / p <= length ck <= S (length l / p))%nat.
Proof.
  intros F p l Hp. unfold split. split; [apply concat_chunks, sizes_sum, Hp|]. split.
  - rewrite chunks_count. pose proof (sizes_count p (length l)). lia.
  - intros ck H. apply (in_map (@length _)) in H. rewrite chunks_lengths in H by (apply sizes_sum, Hp). apply sizes_even in H. lia.
Qed.
Print Assumptions C36_partition.
(** Every history of calls, whatever the interleaving of head and workers, gives the answers
    of the serial simulation, each call its own. *)
Theorem C36_schedules : forall (F : Type) n p (sims : list (@msim F)) maps cs o ws, (0 < p)%nat ->
  (forall cl, In cl cs -> all_shaped n (call_model cl) sims maps) ->
  steps (program Stack n p (combine sims maps) cs, started n p (combine sims maps)) (Ret o, ws) -> o = map (serial n sims maps) cs.
Proof. exact @parallel_serial. Qed.
Print Assumptions C36_schedules.
(** ... and every execution ends that way: there is no infinite one, and one that cannot go
    on has answered every call. *)
Theorem C36_terminates : forall (F : Type) kd n p (sims : list (@msim F)) maps cs a,
  steps (program kd n p (combine sims maps) cs, started n p (combine sims maps)) a ->
  Acc (fun b a => step a b) a /\ (stuck a -> exists o ws, a = (Ret o, ws)).
Proof. intros F kd n p sims maps cs a S. split; [apply step_wf|]. intros N. eapply parallel_runs; eassumption. Qed.
Print Assumptions C36_terminates.
(** Sums agree when every simulation has a process of its own. *)
Theorem C36_sum_partial : forall (F : Type) n nD p (sims : list (@msim F)) maps cs o ws, sims <> [] -> (length sims <= p)%nat ->
  (forall cl, In cl cs -> all_shaped n (call_model cl) sims maps /\ call_ok nD cl) -> (forall s, In s sims -> s_nD s = nD) ->
  steps (program Sum n p (combine sims maps) cs, started n p (combine sims maps)) (Ret o, ws) -> o = map (serial_sum n nD sims maps) cs.
Proof. exact @parallel_sum. Qed.
Print Assumptions C36_sum_partial.
Example C36_case : chunk_sizes 3 8 = [3; 3; 2]%nat /\ chunk_sizes 5 2 = [1; 1]%nat /\
  all_shaped 2 [5; 7] sims2 maps2 /\ length (split 2 (combine sims2 maps2)) = 2%nat.
Proof.
  split; [reflexivity|]. split; [reflexivity|]. split; [|reflexivity]. split; [reflexivity|].
  intros q [<-|[<-|[]]]; (split; [split; [reflexivity|repeat constructor]|]); (split; [split; [reflexivity|repeat constructor]|reflexivity]).
Qed.

(** Refuted after an error: when computing the fields fails, the worker has already sent a
    key, so it sends one reply too many; a later call at a good model fails too. *)
Theorem C36_after_error_refuted : forall o ws,
  steps (history Stack 1 [1%nat] [CDpred [0]; CDpred [1]] None [], [start_worker (line 7 0)]) (Ret o, ws) -> o = [Err ValueError; Err ValueError].
Proof.
  intros o ws S. apply steps_eval in S. cbn -[Rmult] in S. eqs. congruence.
Qed.
Print Assumptions C36_after_error_refuted.
Theorem C36_without_error : forall o ws,
  steps (history Stack 1 [1%nat] [CDpred [1]] None [], [start_worker (line 7 0)]) (Ret o, ws) -> o = [Ok [5 * 1]].
Proof. intros o ws S. apply steps_eval in S. cbn -[Rmult] in S. eqs. congruence. Qed.
Print Assumptions C36_without_error.
(** Refuted: after a failing model assignment, a call returns the answer to the call before
    it: the product with [3] is that with [2]. *)
Theorem C36_stale_reply_refuted : forall o ws,
  steps (kept_fields, [start_worker (line 7 0)]) (Ret o, ws) -> o = [Err ValueError; Ok [5 * 1]; Ok [5 * 2]].
Proof. intros o ws S. apply steps_eval in S. cbn -[Rmult] in S. eqs. congruence. Qed.
Print Assumptions C36_stale_reply_refuted.
(** Refuted for sums with fewer processes than simulations: each worker holds a stacking,
    not a summing, simulation.  Two simulations predicting 3 m and 4 m give two data, not
    one. *)
Theorem C36_sum_refuted : let sims := [lin 1 1 [[3]]; lin 1 1 [[4]]] in let maps := [mkMm 1 1 (mv [[1]]) (fun _ => [[1]]); mkMm 1 1 (mv [[1]]) (fun _ => [[1]])] in
  serial_sum 1 1 sims maps (CDpred [1]) = Ok [7] /\
  forall o ws, steps (program Sum 1 1 (combine sims maps) [CDpred [1]], started 1 1 (combine sims maps)) (Ret o, ws) -> o = [Ok [3; 4]].
Proof.
  cbn zeta. split.
  - cbn. unfold set_model. cbn. do 2 f_equal. lra.
  - intros o ws S. apply parallel_any in S. cbn in S. subst o. do 2 f_equal. f_equal; [lra|]. f_equal; lra.
Qed.
Print Assumptions C36_sum_refuted.
