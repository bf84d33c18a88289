(** C50: counters. *)
From Coq Require Import String.
From Verif Require Import Py Vec Counter SpecCounter CounterFacts.
From Coq Require Import Lra.
Local Open Scope R_scope.

(** C50: for every program of counted and timed calls, nested, recursive and raising, the
    count of a name is the number of its counted calls that were begun. *)
Theorem C50_counts l name : count_of (exec_all l new_counter) name = List.length (filter (is_counted name) (log_all l)).
Proof. exact (proj1 (c50_general l name)). Qed.
Print Assumptions C50_counts.
(** There is one time per timed call begun. *)
Theorem C50_entries l name : List.length (times_of (exec_all l new_counter) name) = List.length (filter (is_timed name) (log_all l)).
Proof. exact (proj1 (proj2 (c50_general l name))). Qed.
Print Assumptions C50_entries.
(** Without exceptions every call of the program is begun and returns. *)
Theorem C50_quiet l : Forall quiet l -> log_all l = flat_map nodes l.
Proof. exact (c50_quiet l). Qed.
Print Assumptions C50_quiet.
(** If all calls of a name return, then its times add up to the durations of its calls, even
    for recursive calls. *)
Theorem C50_total l name : (forall m, In m (log_all l) -> is_timed name m = true -> returned m = true) ->
  vsum (times_of (exec_all l new_counter) name) = vsum (map (fun m => match m_end m with Some t => t - m_start m | None => 0 end) (filter (is_timed name) (log_all l))).
Proof.
  intros H. rewrite (proj2 (proj2 (c50_general l name))). f_equal. apply map_ext_in. intros m Hm. apply filter_In in Hm. destruct Hm as [H1 H2]. specialize (H m H1 H2). unfold returned, duration in *. destruct (m_end m); [reflexivity|discriminate].
Qed.
Print Assumptions C50_total.
(** Without recursion each returned call has its own duration in the order in which the calls
    began; a call that raised leaves minus its starting time. *)
Theorem C50_intervals l name : Forall (not_recursive name) l ->
  times_of (exec_all l new_counter) name = map (fun m => match m_end m with Some t => t - m_start m | None => - m_start m end) (filter (is_timed name) (log_all l)).
Proof. exact (c50_intervals l name). Qed.
Print Assumptions C50_intervals.
Example C50_session : Forall (not_recursive "Sim.fields") session /\
  times_of (exec_all session new_counter) "Sim.fields" = [3 - 2; 7 - 4; - (10)] /\ times_of (exec_all session new_counter) "Sim.dpred" = [- (10)] /\
  count_of (exec_all session new_counter) "Sim.factor" = 1%nat.
Proof.
  assert (N : Forall (not_recursive "Sim.fields") session) by (repeat constructor; try (intros _ E; try discriminate E); cbn; intuition discriminate).
  split; [exact N|]. rewrite (C50_intervals session "Sim.fields" N). split; [reflexivity|]. split; [|rewrite C50_counts; reflexivity].
  rewrite (C50_intervals session "Sim.dpred"); [reflexivity|]. repeat constructor; try (intros _ E; try discriminate E); cbn; intuition discriminate.
Qed.
(** So a raising call spoils the total of its name by minus the time of day, ... *)
Theorem C50_raising_refuted name t0 t1 ca : times_of (exec_all [Call Timed name t0 t1 [] ca true] new_counter) name = [- t0].
Proof. rewrite C50_intervals; [cbn; unfold is_timed; cbn; rewrite String.eqb_refl; reflexivity|]. repeat constructor. intros _ _ []. Qed.
Print Assumptions C50_raising_refuted.
(** ... and a recursive call closes the interval of the inner call twice and that of the
    outer call never. *)
Theorem C50_recursive_refuted name t0 t1 u0 u1 :
  times_of (exec_all [Call Timed name t0 t1 [Call Timed name u0 u1 [] false false] false false] new_counter) name = [- t0; - u0 + u1 + t1].
Proof. exact (c50_recursive name t0 t1 u0 u1). Qed.
Print Assumptions C50_recursive_refuted.
