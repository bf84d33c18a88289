(** What a user expects of directives: every run calls every directive of the inversion
    once before the first iteration, once after each step and once at the end, in the
    order of the list, and the directive works on the run's own inversion. *)
From Verif Require Import Py Lifecyc.

(** Number of steps a schedule takes and the exception it ends in, if any. *)
Fixpoint steps (sched : list pass) : nat :=
  match sched with
  | Step :: s => S (steps s)
  | LastStep :: _ => 1
  | _ => 0
  end.
Fixpoint raises (sched : list pass) : option exn :=
  match sched with
  | Step :: s => raises s
  | Raise e :: _ => Some e
  | _ => None
  end.
(** The calls of one run. *)
Definition calls (ds : list nat) (sched : list pass) : list (nat * rule) :=
  map (fun d => (d, Initialize)) ds
  ++ concat (repeat (map (fun d => (d, EndIter)) ds) (steps sched))
  ++ (match raises sched with None => map (fun d => (d, Finish)) ds | Some _ => [] end).
Definition called (e : event) : nat * rule := (e_dir e, e_rule e).

(** The same objective function, up to being wrapped with multiplier one. *)
Fixpoint strip (o : obj) : obj := match o with Combo1 o' => strip o' | _ => o end.

(** What the directive should work on: what it was constructed with, else what the
    problem of the run has. *)
Definition wanted (given : option obj) (of_problem : obj) : obj :=
  match given with Some o => o | None => of_problem end.
Definition sees (x : option obj) (o : obj) : Prop :=
  match x with None => True | Some y => strip y = strip o end.
Definition works_on (w : world) (i : nat) (p : prob) (e : event) : Prop :=
  e_inv e = Some i /\
  exists d, nth_error (w_dirs w) (e_dir e) = Some d /\
            sees (e_reg e) (wanted (fst (d_args d)) (p_reg p)) /\
            sees (e_mis e) (wanted (snd (d_args d)) (p_mis p)).

(** The directives of inversion [i] and its problem. *)
Definition inversion_of (w : world) (i : nat) (ds : list nat) (p : prob) : Prop :=
  exists v l, nth_error (w_invs w) i = Some v /\ nth_error (w_probs w) (i_prob v) = Some p /\
              nth_error (w_lists w) (i_list v) = Some l /\ ds = fst l.
(** No inversion made after [i] uses its optimizer. *)
Definition own_opt (w : world) (i : nat) : Prop :=
  forall j ds p ds' p', i < j -> inversion_of w i ds p -> inversion_of w j ds' p' -> p_opt p <> p_opt p'.
(** No inversion made after [i] was given one of its directives. *)
Definition own_directives (w : world) (i : nat) : Prop :=
  forall j ds p ds' p' d, i < j -> inversion_of w i ds p -> inversion_of w j ds' p' ->
    In d ds -> ~ In d ds'.
(** None of its directives has been called by an earlier run of another inversion. *)
Definition fresh_directives (tr : list event) (w : world) (i : nat) : Prop :=
  forall ds p e, inversion_of w i ds p -> In e tr -> In (e_dir e) ds -> e_inv e = Some i.

(** Example programs.  A directive that reads the regularization and the misfit when it is
    initialised (as UpdateSensitivityWeights, UpdateIRLS, TargetMisfit do). *)
Definition reads_first : rule -> bool * bool :=
  fun r => match r with Initialize => (true, true) | _ => (false, false) end.
Definition two_inversions : list op :=
  [NewDirective None None reads_first; NewProb (Wls 1) (Misfit 1) 0; NewInversion 0 (inl [0]);
   NewDirective None None reads_first; NewProb (Wls 2) (Misfit 2) 1; NewInversion 1 (inl [1])].
(** The same directive object in two successive inversions. *)
Definition reuse_directive : list op :=
  [NewDirective None None reads_first; NewProb (Wls 1) (Misfit 1) 0; NewInversion 0 (inl [0]);
   Run 0 0 [Step]; NewProb (Wls 2) (Misfit 2) 1; NewInversion 1 (inl [0])].
(** Two inversions made before the first is run, with one optimizer. *)
Definition share_opt : list op :=
  [NewDirective None None reads_first; NewProb (Wls 1) (Misfit 1) 0; NewInversion 0 (inl [0]);
   NewDirective None None reads_first; NewProb (Wls 2) (Misfit 2) 0; NewInversion 1 (inl [1])].
(** Two inversions made before the first is run, with one directive. *)
Definition share_directive : list op :=
  [NewDirective None None reads_first; NewProb (Wls 1) (Misfit 1) 0; NewInversion 0 (inl [0]);
   NewProb (Wls 2) (Misfit 2) 1; NewInversion 1 (inl [0])].
