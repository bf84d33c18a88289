(** C74: directives are called in order, on the objects of the run.  The directive
    registry, [validate] and the bodies of the directives are outside this model. *)
From Verif Require Import Py Lifecyc SpecLifecyc LifecycFacts.

(** For every program that makes directives, problems and inversions and runs them, and
    every way the passes of the minimiser end: a run calls each directive of its list in
    order, once before the first pass, once per accepted step and once at the end (unless
    the objective raised), and no call of a directive fails to find its objects, provided
    no later inversion was made with the same optimizer. *)
Theorem C74_calls : forall h tr w i ds p m0 sched,
  exec w0 h = (tr, w) -> inversion_of w i ds p -> own_opt w i ->
  exists evs w', run w i m0 sched = (evs, w', raises sched) /\ map called evs = calls ds sched.
Proof. exact calls_ok. Qed.
Print Assumptions C74_calls.

(** ... and the directives work on the inversion, the regularization and the misfit of the
    run (or those they were constructed with), provided they were not handed to a later
    inversion and have not been called by another one. *)
Theorem C74_own_objects : forall h tr w i ds p m0 sched evs w' x,
  exec w0 h = (tr, w) -> inversion_of w i ds p ->
  own_opt w i -> own_directives w i -> fresh_directives tr w i ->
  run w i m0 sched = (evs, w', x) -> Forall (works_on w i p) evs.
Proof. exact works_ok. Qed.
Print Assumptions C74_own_objects.

(** Two inversions with their own parts, run alternately. *)
Example C74_example :
  let '(tr, w) := exec w0 (two_inversions ++ [Run 0 5 [Step; Stop]; Run 1 6 [LastStep; Step]]) in
  let '(evs, w', x) := run w 0 7 [Step; LsFail] in
  length tr = 6 /\ map called evs = [(0, Initialize); (0, EndIter); (0, Finish)] /\ x = None /\
  map e_reg evs = [Some (Combo1 (Wls 1)); None; None] /\
  map e_mis evs = [Some (Combo1 (Misfit 1)); None; None].
Proof. vm_compute. auto. Qed.

(** Finding: a directive that has been used by one inversion and is then given to another
    keeps the first one's regularization and misfit: [inversion] is switched, the values
    cached by the [reg] and [dmisfit] getters are not. *)
Theorem C74_reused_directive_refuted : ~ (forall h tr w i ds p m0 sched evs w' x,
  exec w0 h = (tr, w) -> inversion_of w i ds p -> own_opt w i -> own_directives w i ->
  run w i m0 sched = (evs, w', x) -> Forall (works_on w i p) evs).
Proof. exact reused_refuted. Qed.
Print Assumptions C74_reused_directive_refuted.

(** Finding: making a second inversion with the same optimizer redirects the end-of-iteration
    calls of the first one. *)
Theorem C74_shared_optimizer_refuted : ~ (forall h tr w i ds p m0 sched evs w' x,
  exec w0 h = (tr, w) -> inversion_of w i ds p -> own_directives w i -> fresh_directives tr w i ->
  run w i m0 sched = (evs, w', x) -> map called evs = calls ds sched).
Proof. exact shared_opt_refuted. Qed.
Print Assumptions C74_shared_optimizer_refuted.

(** Finding: making a second inversion with the same directive moves the directive; a run of
    the first inversion then changes the second one's objects. *)
Theorem C74_shared_directive_refuted : ~ (forall h tr w i ds p m0 sched evs w' x,
  exec w0 h = (tr, w) -> inversion_of w i ds p -> own_opt w i -> fresh_directives tr w i ->
  run w i m0 sched = (evs, w', x) -> Forall (works_on w i p) evs).
Proof. exact shared_directive_refuted. Qed.
Print Assumptions C74_shared_directive_refuted.

(** The default reference model is the starting model of the first run that used the
    regularization, and nothing later replaces it. *)
Theorem C74_reference_first : forall h tr w i ds p m0 sched evs w' x,
  exec w0 h = (tr, w) -> inversion_of w i ds p -> run w i m0 sched = (evs, w', x) ->
  ref_of w' (p_reg p) = Some (match ref_of w (p_reg p) with Some m => m | None => m0 end).
Proof. exact ref_first. Qed.
Print Assumptions C74_reference_first.

Theorem C74_reference_kept : forall h tr w h' tr' w' r m,
  exec w0 h = (tr, w) -> exec w h' = (tr', w') -> ref_of w r = Some m -> ref_of w' r = Some m.
Proof. exact ref_kept. Qed.
Print Assumptions C74_reference_kept.

(** Finding: so the second run of an inversion from another starting model is still
    regularized towards the first starting model. *)
Theorem C74_reference_refuted : ~ (forall h tr w i ds p m0 sched evs w' x,
  exec w0 h = (tr, w) -> inversion_of w i ds p -> run w i m0 sched = (evs, w', x) ->
  ref_of w' (p_reg p) = Some m0).
Proof. exact reference_refuted. Qed.
Print Assumptions C74_reference_refuted.
