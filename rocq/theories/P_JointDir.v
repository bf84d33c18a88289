(** C80: joint inversions cool every trade-off parameter by its own misfit, stop when all
    misfits have settled and save what they did (_sim_directives.py). *)
From Verif Require Import Py Vec JointDir SpecJointDir JointDirFacts JointDirFacts2 JointDirFacts3.
Local Open Scope R_scope.

(** Over any history of iterations, each trade-off parameter follows the rule with the values
    and the target of its own misfit, and the coupling keeps its multiplier. *)
Theorem C80_schedule : forall g n chi schi lambda bs is, proper g n -> In Schedule (set_dirs g) -> 0 < chi -> lambda <> 0 -> len bs = n -> Forall (shaped n) is ->
  exists s, run g (map Iteration is) (start chi schi (bs ++ [lambda])) = Ok s /\ js_mults s = betas s ++ [lambda] /\ len (betas s) = n /\
    forall k, (k < n)%nat -> scheduled g (nth k (set_nD g) 0 * chi) (nth k bs 0) (values k is) (nth k (betas s) 0).
Proof. exact schedule_run. Qed.
Print Assumptions C80_schedule.
Example C80_schedule_ex : proper (example [Schedule; Save; Stopping] [1; 1]) 2 /\ Forall (shaped 2) [it 1 [5; 3000] [1; 1; 1]; it 2 [9; 1500] [1; 1; 1]].
Proof. split; [apply example_proper; repeat constructor; cbn; intuition discriminate|repeat constructor]. Qed.

(** Without the schedule the multipliers stay. *)
Theorem C80_no_schedule : forall g n chi schi lambda bs is, proper g n -> ~ In Schedule (set_dirs g) -> lambda <> 0 -> len bs = n -> Forall (shaped n) is ->
  exists s, run g (map Iteration is) (start chi schi (bs ++ [lambda])) = Ok s /\ js_mults s = bs ++ [lambda].
Proof. exact no_schedule_run. Qed.
Print Assumptions C80_no_schedule.
Example C80_no_schedule_ex : proper (example [Stopping] [1; 1]) 2 /\ ~ In Schedule (set_dirs (example [Stopping] [1; 1])).
Proof. split; [apply example_proper; repeat constructor; cbn; intuition discriminate|cbn; intuition discriminate]. Qed.

(** The rule is a function, keeps the parameters positive, and a larger misfit never gets a
    larger parameter. *)
Theorem C80_rule : forall g t phi b, 0 < t -> 0 <= set_tol g -> rule g t phi b (cool g phi t b) /\ forall b', rule g t phi b b' -> b' = cool g phi t b.
Proof. exact (fun g t phi b T Tol => conj (cool_rule g t phi b T Tol) (fun b' H => rule_unique g t phi b b' _ H (cool_rule g t phi b T Tol))). Qed.
Print Assumptions C80_rule.
Example C80_rule_ex : cool (example [] [1; 1]) 5 (10 * 1) 1 = 4 / 3 /\ cool (example [] [1; 1]) 3000 (1000 * 1) 1 = / 2.
Proof. exact (conj (cool_near _ _) (cool_far _ _)). Qed.
Theorem C80_positive : forall g t phi b, 0 < b -> 0 < t -> 0 <= phi -> 0 < set_factor g -> 0 < cool g phi t b.
Proof. exact cool_pos. Qed.
Print Assumptions C80_positive.
Example C80_positive_ex : 0 < set_factor (example [] []).
Proof. cbn. lra. Qed.
Theorem C80_monotone : forall g t phi phi' b, 0 <= set_tol g -> 0 < b -> 0 < t -> 0 <= phi -> 1 + set_tol g <= set_factor g -> phi <= phi' -> cool g phi' t b <= cool g phi t b.
Proof. exact cool_monotone. Qed.
Print Assumptions C80_monotone.
Example C80_monotone_ex : 1 + set_tol (example [] []) <= set_factor (example [] []).
Proof. cbn. lra. Qed.
(** A misfit that reached its target relaxes its parameter by at most a third; one that is
    within the tolerance above it lowers the parameter, by at most a third. *)
Theorem C80_reached : forall g t phi b, set_update g = true -> 0 <= set_tol g -> 0 < b -> 0 < t -> 0 <= phi <= t -> b <= cool g phi t b <= 4 / 3 * b.
Proof. exact cool_reached. Qed.
Print Assumptions C80_reached.
Example C80_reached_ex : set_update (example [] []) = true /\ 0 <= set_tol (example [] []).
Proof. cbn. split; [reflexivity|lra]. Qed.
Theorem C80_close : forall g t phi b, set_update g = true -> 0 <= set_tol g -> 0 < b -> 0 < t -> t < phi <= (1 + set_tol g) * t -> 2 / 3 * b <= cool g phi t b < b.
Proof. exact cool_close. Qed.
Print Assumptions C80_close.
Example C80_close_ex : 100 < 105 <= (1 + set_tol (example [] [])) * 100.
Proof. cbn. lra. Qed.

(** The inversion is told to stop exactly when, at some iteration, all misfits were within the
    tolerance of their targets and the model hardly changed. *)
Theorem C80_stop : forall g n chi schi lambda bs is, proper g n -> In Stopping (set_dirs g) -> lambda <> 0 -> len bs = n -> Forall (shaped n) is ->
  exists s, run g (map Iteration is) (start chi schi (bs ++ [lambda])) = Ok s /\ (js_stop s = true <-> Exists (settled g schi) is).
Proof. exact stop_run. Qed.
Print Assumptions C80_stop.
Example C80_stop_ex : proper (example [Stopping] [1; 1]) 2 /\ In Stopping (set_dirs (example [Stopping] [1; 1])).
Proof. split; [apply example_proper; repeat constructor; cbn; intuition discriminate|cbn; auto]. Qed.

(** What is kept in memory for an iteration: the misfits of this iteration, but the parameters
    as they are after it, wherever the saving directive stands. *)
Theorem C80_saved_partial : forall g n chi schi lambda bs is, proper g n -> In Save (set_dirs g) -> lambda <> 0 -> len bs = n -> Forall (shaped n) is ->
  exists s, run g (map Iteration is) (start chi schi (bs ++ [lambda])) = Ok s /\ len (js_saved s) = len is /\ js_saved_d s = map st_d is /\
    forall k, (k < len is)%nat -> exists sk, run g (map Iteration (firstn (S k) is)) (start chi schi (bs ++ [lambda])) = Ok sk /\ js_mults sk = saved_betas s k ++ [lambda].
Proof. exact saved_run. Qed.
Print Assumptions C80_saved_partial.
Example C80_saved_partial_ex : proper (example [Save; Schedule] [1; 1]) 2 /\ In Save (set_dirs (example [Save; Schedule] [1; 1])).
Proof. split; [apply example_proper; repeat constructor; cbn; intuition discriminate|cbn; auto]. Qed.
(** With the saving directive before the schedule, the files hold the parameters the iteration
    was computed with. *)
Theorem C80_file : forall g n chi schi lambda bs is, proper g n -> In Save (set_dirs g) -> set_disk g = true -> lambda <> 0 -> len bs = n -> Forall (shaped n) is ->
  (exists a b c, set_dirs g = a ++ Save :: b ++ Schedule :: c) ->
  exists s, run g (map Iteration is) (start chi schi (bs ++ [lambda])) = Ok s /\ len (js_file s) = len is /\
    forall k, (k < len is)%nat -> snd (nth k (js_file s) ([], [])) = st_d (nth k is (mkStep 0 [] [] [] [])) /\ exists sk, run g (map Iteration (firstn k is)) (start chi schi (bs ++ [lambda])) = Ok sk /\ js_mults sk = fst (nth k (js_file s) ([], [])) ++ [lambda].
Proof. exact file_run. Qed.
Print Assumptions C80_file.
Example C80_file_ex : exists a b c, set_dirs (example [Save; Stopping; Schedule] [1; 1]) = a ++ Save :: b ++ Schedule :: c.
Proof. exists [Measure], [Stopping], []. reflexivity. Qed.
(** So memory and files disagree: the list that was kept is changed in place afterwards. *)
Theorem C80_saved_refuted : exists s, run (example [Save; Schedule] [1; 1]) [Iteration (it 1 [5; 3000] [1; 1; 1])] (start 1 1 [1; 1; 1]) = Ok s /\
  saved_betas s 0 = [4 / 3; / 2] /\ js_file s = [([1; 1], [5; 3000])].
Proof. exact saved_refuted. Qed.
Print Assumptions C80_saved_refuted.

(** A misfit with multiplier zero shifts the values against the targets: here the first
    parameter is cooled for the value of the second misfit, which is far below its target. *)
Theorem C80_zero_misfit_refuted : exists s, run (example [Schedule] [0; 1]) [Iteration (it 1 [5; 20] [1; 1; 1])] (start 1 1 [1; 1; 1]) = Ok s /\ js_mults s = [/ 2; 1; 1].
Proof. exact zero_misfit_refuted. Qed.
Print Assumptions C80_zero_misfit_refuted.
(** With coupling multiplier zero, the last regularization is taken for the coupling term. *)
Theorem C80_zero_coupling_refuted : forall ds r0 r1 r2 i s s', st_r i = [r0; r1; r2] -> js_mults s = [1; 1; 0] -> end_iter (example ds [1; 1]) i s Measure = Ok s' -> js_sim s' = r1 /\ js_phim s' = [r0].
Proof. exact zero_coupling_refuted. Qed.
Print Assumptions C80_zero_coupling_refuted.
Example C80_zero_coupling_refuted_ex : js_mults (start 1 1 [1; 1; 0]) = [1; 1; 0] /\ st_r (it 1 [5; 20] [7; 8; 9]) = [7; 8; 9].
Proof. split; reflexivity. Qed.
(** chifact_target is only read once: setting it after an iteration has no effect. *)
Theorem C80_target_refuted : forall g n chi schi lambda bs i is is' x, proper g n -> (0 < n)%nat -> In Schedule (set_dirs g) -> lambda <> 0 -> len bs = n -> shaped n i -> Forall (shaped n) is -> Forall (shaped n) is' ->
  exists s s', run g (map Iteration (i :: is ++ is')) (start chi schi (bs ++ [lambda])) = Ok s /\ run g (map Iteration (i :: is) ++ SetChi x :: map Iteration is') (start chi schi (bs ++ [lambda])) = Ok s' /\ js_mults s' = js_mults s.
Proof. exact target_ignored. Qed.
Print Assumptions C80_target_refuted.
Example C80_target_refuted_ex : proper (example [Schedule] [1; 1]) 2 /\ shaped 2 (it 1 [5; 3000] [1; 1; 1]).
Proof. split; [apply example_proper; repeat constructor; cbn; intuition discriminate|split; reflexivity]. Qed.
(** The measure has to come first. *)
Theorem C80_validate : forall ds, validate ds = Ok true <-> exists r, ds = Measure :: r.
Proof. exact validate_iff. Qed.
Print Assumptions C80_validate.
Example C80_validate_ex : validate [Schedule; Measure] = Err IndexError.
Proof. reflexivity. Qed.
