(** C13: the BFGS preconditioner. *)
From Verif Require Import Py Vec Bfgs SpecBfgs BfgsFacts.
Local Open Scope R_scope.

(** The matrix stays symmetric and positive definite after any history of iterates
    (first event is iteration 0), for any positive number of stored pairs, when the
    initial matrix [H0] is. *)
Theorem C13_symmetric_positive_definite : forall N nb H0, (0 < nb)%nat ->
  (forall d, length d = N -> length (H0 d) = N) ->
  (forall u v, length u = N -> length v = N -> dot u (H0 v) = dot v (H0 u)) ->
  (forall u, length u = N -> u <> vzero N -> 0 < dot u (H0 u)) ->
  forall evs, Forall (fun e => let '(_, g, xc, xt) := e in length g = N /\ length xc = N /\ length xt = N) evs ->
  (forall e evs', evs = e :: evs' -> fst (fst (fst e)) = 0%nat) ->
  let b := bfgs_run nb evs (bfgs_startup nb N) in
  (forall u v, length u = N -> length v = N -> dot u (bfgs H0 nb b v) = dot v (bfgs H0 nb b u)) /\
  (forall u, length u = N -> u <> vzero N -> 0 < dot u (bfgs H0 nb b u)) /\
  (forall u, length u = N -> length (bfgs H0 nb b u) = N).
Proof. exact bfgs_spd. Qed.
Print Assumptions C13_symmetric_positive_definite.

(** Hence the BFGS search direction is a descent direction at every iteration. *)
Theorem C13_direction_descends : forall N nb H0, (0 < nb)%nat ->
  (forall d, length d = N -> length (H0 d) = N) ->
  (forall u, length u = N -> u <> vzero N -> 0 < dot u (H0 u)) ->
  (forall u v, length u = N -> length v = N -> dot u (H0 v) = dot v (H0 u)) ->
  forall evs, Forall (fun e => let '(_, g, xc, xt) := e in length g = N /\ length xc = N /\ length xt = N) evs ->
  (forall e evs', evs = e :: evs' -> fst (fst (fst e)) = 0%nat) ->
  forall g, length g = N -> g <> vzero N ->
  dot g (bfgs_direction H0 nb (bfgs_run nb evs (bfgs_startup nb N)) g) < 0.
Proof. exact (fun N nb H0 h1 h2 h3 h4 evs h5 h6 => bfgs_descent N nb H0 h1 h2 h4 h3 evs h5 h6). Qed.
Print Assumptions C13_direction_descends.

(** The secant equation for the most recently stored pair holds when exactly one pair
    is stored or more pairs than the memory holds have been stored ... *)
Theorem C13_secant_partial : forall N nb H0, (0 < nb)%nat ->
  (forall d, length d = N -> length (H0 d) = N) ->
  forall evs, Forall (fun e => let '(_, g, xc, xt) := e in length g = N /\ length xc = N /\ length xt = N) evs ->
  (forall e evs', evs = e :: evs' -> fst (fst (fst e)) = 0%nat) ->
  (forall a u v, length u = N -> length v = N -> H0 (vadd u (vscale a v)) = vadd (H0 u) (vscale a (H0 v))) ->
  let b := bfgs_run nb evs (bfgs_startup nb N) in
  forall n, bf_cnt b = S n -> (n = 0 \/ nb <= n)%nat ->
  bfgs H0 nb b (col (bf_Y b) (n mod nb)) = col (bf_S b) (n mod nb).
Proof. exact bfgs_secant_full. Qed.
Print Assumptions C13_secant_partial.

(** ... but fails in between: with 2 pairs stored the latest one is not read. *)
Theorem C13_secant_refuted : exists evs, evs = history idgrad 0 [0] [[2]; [1]; [3]] /\
  let b := bfgs_run 10 evs (bfgs_startup 10 1) in
  bf_cnt b = 2%nat /\ bfgs (fun d => d) 10 b (latest_y 10 b) <> latest_s 10 b.
Proof. exact secant_refuted. Qed.
Print Assumptions C13_secant_refuted.

(** And the stored pairs do not belong together: the gradient difference is the one of
    the *previous* step.  For the objective x^2/2 (Hessian 1) the stored [y] differs
    from the stored [s]. *)
Theorem C13_pair_mismatch_refuted : exists xs,
  let b := bfgs_run 10 (history idgrad 0 [0] xs) (bfgs_startup 10 1) in
  (0 < bf_cnt b)%nat /\ latest_y 10 b <> latest_s 10 b.
Proof. exact pair_mismatch_refuted. Qed.
Print Assumptions C13_pair_mismatch_refuted.

(** As a consequence, on a strictly convex one-dimensional objective (increasing
    derivative [g]) no pair is ever stored while the iterates keep marching the same
    way: the sign test rejects every one of them. *)
Theorem C13_no_pair_while_marching_refuted : forall nb (g : R -> R), (forall a b, a < b -> g a < g b) ->
  forall x xs, marching x xs ->
  bf_cnt (bfgs_run nb (history (fun v => map g v) 0 [x] (map (fun y => [y]) xs)) (bfgs_startup nb 1)) = 0%nat.
Proof. exact same_direction_skipped. Qed.
Print Assumptions C13_no_pair_while_marching_refuted.

Example C13_example : exists evs, evs = history idgrad 0 [0] [[2]; [1]] /\
  Forall (fun e => let '(_, g, xc, xt) := e in length g = 1%nat /\ length xc = 1%nat /\ length xt = 1%nat) evs /\
  bf_cnt (bfgs_run 10 evs (bfgs_startup 10 1)) = 1%nat.
Proof.
  eexists; split; [reflexivity|]. split; [repeat constructor|].
  unfold bfgs_run, history, idgrad, bfgs_startup. cbn [fold_left]. rewrite hook_first. rewrite hook_store by lra. reflexivity.
Qed.
