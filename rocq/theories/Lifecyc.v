(** Model of the objects an inversion is assembled from and of the order in which
    directives are called: inversion.py (9-121), directives/_directives.py
    [InversionDirective] (50-249) and [DirectiveList] (252-341), and the parts of
    inverse_problem.py (39-57, 114-136, 193-220) and optimization.py (462-529,
    814-838) that decide which directive is called when, and on which objects.

    Objects are referred to by their creation index.  Warnings, printing, counters,
    BFGS initialisation and preconditioners are not modelled.  [validate] of the
    directives (232-249) is taken to succeed. *)
From Verif Require Import Py.

(** Objective functions, as far as the [isinstance] tests see them: a
    WeightedLeastSquares (itself a ComboObjectiveFunction), another BaseRegularization,
    a BaseDataMisfit, a ComboObjectiveFunction given by the user, and
    [1 * o] / ComboObjectiveFunction(objfcts=[o]) (objective_function.py [__mul__]). *)
Inductive obj := Wls (k : nat) | BaseReg (k : nat) | Misfit (k : nat) | Combo (k : nat) | Combo1 (o : obj).
Definition is_combo (o : obj) : bool :=
  match o with Wls _ => true | Combo _ => true | Combo1 _ => true | BaseReg _ => false | Misfit _ => false end.
Definition is_wls (o : obj) : bool := match o with Wls _ => true | _ => false end.
Definition is_reg (o : obj) : bool := match o with BaseReg _ => true | _ => false end.
Definition is_misfit (o : obj) : bool := match o with Misfit _ => true | _ => false end.

Inductive rule := Initialize | EndIter | Finish.

(** A directive: its inversion, its stored [_reg] and [_dmisfit], and which of
    [self.reg] and [self.dmisfit] the body of each rule reads (the bodies themselves are
    user code here).  [d_args] records the constructor arguments. *)
Record dir := mkDir { d_inv : option nat; d_reg : option obj; d_mis : option obj;
                      d_uses : rule -> bool * bool; d_args : option obj * option obj }.
(** BaseInvProblem: [reg], [dmisfit], [opt]. *)
Record prob := mkProb { p_reg : obj; p_mis : obj; p_opt : nat }.
(** BaseInversion: its DirectiveList and its inverse problem. *)
Record inv := mkInv { i_list : nat; i_prob : nat }.
(** Directive lists are their directives and their inversion; [w_cb] is [opt.callback]
    (the inversion whose [_optCallback] is stored); [w_ref] the reference models, by
    regularization. *)
Record world := mkW { w_dirs : list dir; w_lists : list (list nat * option nat);
                      w_probs : list prob; w_invs : list inv;
                      w_cb : list (nat * nat); w_ref : list (obj * nat) }.
Definition w0 : world := mkW [] [] [] [] [] [].

(** [reg] setter (155-164). *)
Definition set_reg_value (v : option obj) : result (option obj) :=
  match v with
  | None => Ok None
  | Some o => if is_wls o || is_reg o || is_combo o
              then Ok (Some (if is_wls o then Combo1 o else o)) else Err AssertionError
  end.
(** [dmisfit] setter (179-188). *)
Definition set_mis_value (v : option obj) : result (option obj) :=
  match v with
  | None => Ok None
  | Some o => if is_misfit o || is_combo o
              then Ok (Some (if is_combo o then o else Combo1 o)) else Err AssertionError
  end.
(** inverse_problem.py 114-119 and 131-136: the problem's setters. *)
Definition prob_value (o : obj) : obj := if is_combo o then o else Combo1 o.

Fixpoint upd {A} (l : list A) (i : nat) (f : A -> A) : list A :=
  match l, i with
  | [], _ => []
  | x :: l', O => f x :: l'
  | x :: l', S i' => x :: upd l' i' f
  end.
Definition with_dirs (w : world) (ds : list dir) : world :=
  mkW ds (w_lists w) (w_probs w) (w_invs w) (w_cb w) (w_ref w).
Definition take (i : nat) (d : dir) : dir := mkDir (Some i) (d_reg d) (d_mis d) (d_uses d) (d_args d).
(** [DirectiveList.inversion] setter (308-321), for an inversion that has just been made. *)
Definition take_all (ds : list dir) (ids : list nat) (i : nat) : list dir :=
  fold_left (fun acc k => upd acc k (take i)) ids ds.

Definition opt_id_eqb (a b : nat) : bool := Nat.eqb a b.

(** The inverse problem of the directive's inversion (120-129). *)
Definition prob_of (w : world) (d : dir) : result prob :=
  match d_inv d with
  | None => Err AttributeError
  | Some i => match nth_error (w_invs w) i with
              | None => Err AttributeError
              | Some v => match nth_error (w_probs w) (i_prob v) with
                          | None => Err AttributeError | Some p => Ok p end
              end
  end.
(** [reg] getter (142-153): the value and the stored slot afterwards. *)
Definition get_reg (w : world) (d : dir) : result (obj * option obj) :=
  match d_reg d with
  | Some o => Ok (o, Some o)
  | None => do p <- prob_of w d; do v <- set_reg_value (Some (p_reg p));
            match v with Some o => Ok (o, Some o) | None => Err AttributeError end
  end.
(** [dmisfit] getter (166-177). *)
Definition get_mis (w : world) (d : dir) : result (obj * option obj) :=
  match d_mis d with
  | Some o => Ok (o, Some o)
  | None => do p <- prob_of w d; do v <- set_mis_value (Some (p_mis p));
            match v with Some o => Ok (o, Some o) | None => Err AttributeError end
  end.

(** What one call of a directive can be seen to work on: its inversion, and the
    regularization and misfit it read (if it read them). *)
Record event := mkEv { e_dir : nat; e_rule : rule; e_inv : option nat;
                       e_reg : option obj; e_mis : option obj }.

(** [getattr(r, ruleType)()] (333-334) for one directive. *)
Definition call_dir (w : world) (k : nat) (r : rule) : result (event * world) :=
  match nth_error (w_dirs w) k with
  | None => Err AttributeError
  | Some d =>
      do rg <- (if fst (d_uses d r) then do x <- get_reg w d; Ok (Some (fst x), snd x)
                else Ok (None, d_reg d));
      do ms <- (if snd (d_uses d r) then do x <- get_mis w d; Ok (Some (fst x), snd x)
                else Ok (None, d_mis d));
      Ok (mkEv k r (d_inv d) (fst rg) (fst ms),
          with_dirs w (upd (w_dirs w) k (fun _ => mkDir (d_inv d) (snd rg) (snd ms) (d_uses d) (d_args d))))
  end.
(** [DirectiveList.call] (323-334); an exception ends the loop. *)
Fixpoint call_list (w : world) (ks : list nat) (r : rule) : list event * world * option exn :=
  match ks with
  | [] => ([], w, None)
  | k :: ks' => match call_dir w k r with
                | Err e => ([], w, Some e)
                | Ok (ev, w1) => let '(evs, w2, x) := call_list w1 ks' r in (ev :: evs, w2, x)
                end
  end.
Definition dirs_of_inv (w : world) (i : nat) : list nat :=
  match nth_error (w_invs w) i with
  | None => []
  | Some v => match nth_error (w_lists w) (i_list v) with None => [] | Some l => fst l end
  end.
(** [directiveList.call(r)] of inversion [i] (inversion.py 114, 116, 121). *)
Definition call_inv (w : world) (i : nat) (r : rule) : list event * world * option exn :=
  call_list w (dirs_of_inv w i) r.

(** What one pass of the [while True] loop of [minimize] (504-524) can do: the stopping
    criteria hold (507), the line search fails and is not rescued (519), the step is
    taken (522), the step is taken and [stopNextIteration] was set (523), or the
    objective function or the line search raises. *)
Inductive pass := Stop | LsFail | Step | LastStep | Raise (e : exn).

Definition callback_of (w : world) (opt : nat) : option nat :=
  match find (fun kv => Nat.eqb (fst kv) opt) (w_cb w) with Some kv => Some (snd kv) | None => None end.
(** [doEndIteration] (814-838): the callback is called if there is one. *)
Definition end_iteration (w : world) (opt : nat) : list event * world * option exn :=
  match callback_of w opt with None => ([], w, None) | Some j => call_inv w j EndIter end.
(** [minimize] (504-529); the schedule says how each pass ends. An exhausted schedule
    means that the stopping criteria hold. *)
Fixpoint minimize (w : world) (opt : nat) (sched : list pass) : list event * world * option exn :=
  match sched with
  | [] | Stop :: _ | LsFail :: _ => ([], w, None)
  | Raise e :: _ => ([], w, Some e)
  | LastStep :: _ => end_iteration w opt
  | Step :: sched' =>
      let '(evs, w1, x) := end_iteration w opt in
      match x with
      | Some e => (evs, w1, Some e)
      | None => let '(evs', w2, x') := minimize w1 opt sched' in (evs ++ evs', w2, x')
      end
  end.

(** [startup] (193-220): a regularization without a reference model gets the starting
    model.  One slot per regularization object stands for the slots of its terms. *)
Definition obj_eq_dec (a b : obj) : {a = b} + {a <> b}.
Proof. decide equality; apply Nat.eq_dec. Defined.
Definition ref_of (w : world) (o : obj) : option nat :=
  match find (fun kv => if obj_eq_dec (fst kv) o then true else false) (w_ref w) with
  | Some kv => Some (snd kv) | None => None end.
Definition startup (w : world) (p : prob) (m0 : nat) : world :=
  match ref_of w (p_reg p) with
  | Some _ => w
  | None => mkW (w_dirs w) (w_lists w) (w_probs w) (w_invs w) (w_cb w) ((p_reg p, m0) :: w_ref w)
  end.

(** [BaseInversion.run] (102-118). *)
Definition run (w : world) (i m0 : nat) (sched : list pass) : list event * world * option exn :=
  match nth_error (w_invs w) i with
  | None => ([], w, Some AttributeError)
  | Some v =>
  match nth_error (w_probs w) (i_prob v) with
  | None => ([], w, Some AttributeError)
  | Some p =>
      let w1 := startup w p m0 in
      let '(ev1, w2, x1) := call_inv w1 i Initialize in
      match x1 with Some e => (ev1, w2, Some e) | None =>
      let '(ev2, w3, x2) := minimize w2 (p_opt p) sched in
      match x2 with Some e => (ev1 ++ ev2, w3, Some e) | None =>
      let '(ev3, w4, x3) := call_inv w3 i Finish in
      (ev1 ++ ev2 ++ ev3, w4, x3)
      end end
  end end.

(** What a program does with these objects. *)
Inductive op :=
| NewDirective (reg mis : option obj) (uses : rule -> bool * bool)
| NewList (ds : list nat)
| NewProb (reg mis : obj) (opt : nat)
| NewInversion (prob : nat) (dlist : list nat + nat)
| Run (i m0 : nat) (sched : list pass).

Definition new_inversion (w : world) (pid : nat) (dl : list nat + nat) : world :=
  match nth_error (w_probs w) pid with
  | None => w
  | Some p =>
      let lists := match dl with inl ds => w_lists w ++ [(ds, None)] | inr _ => w_lists w end in
      let lid := match dl with inl _ => length (w_lists w) | inr l => l end in
      match nth_error lists lid with
      | None => w
      | Some l =>
          let i := length (w_invs w) in
          mkW (take_all (w_dirs w) (fst l) i) (upd lists lid (fun l => (fst l, Some i)))
              (w_probs w) (w_invs w ++ [mkInv lid pid]) ((p_opt p, i) :: w_cb w) (w_ref w)
      end
  end.

(** One statement of the program: the events it causes and the state afterwards.  A
    statement that names an object that does not exist, or whose constructor raises,
    changes nothing. *)
Definition step (w : world) (o : op) : list event * world :=
  match o with
  | NewDirective rg ms u =>
      match set_mis_value ms, set_reg_value rg with
      | Ok m', Ok r' => ([], with_dirs w (w_dirs w ++ [mkDir None r' m' u (rg, ms)]))
      | _, _ => ([], w)
      end
  | NewList ds =>
      ([], if forallb (fun k => Nat.ltb k (length (w_dirs w))) ds
           then mkW (w_dirs w) (w_lists w ++ [(ds, None)]) (w_probs w) (w_invs w) (w_cb w) (w_ref w) else w)
  | NewProb rg ms o =>
      ([], if (is_wls rg || is_reg rg || is_combo rg) && (is_misfit ms || is_combo ms)
           then mkW (w_dirs w) (w_lists w) (w_probs w ++ [mkProb (prob_value rg) (prob_value ms) o])
                    (w_invs w) (w_cb w) (w_ref w) else w)
  | NewInversion pid dl =>
      ([], match dl with
           | inl ds => if forallb (fun k => Nat.ltb k (length (w_dirs w))) ds
                       then new_inversion w pid dl else w
           | inr _ => new_inversion w pid dl end)
  | Run i m0 sched => let '(evs, w1, _) := run w i m0 sched in (evs, w1)
  end.
Fixpoint exec (w : world) (ops : list op) : list event * world :=
  match ops with
  | [] => ([], w)
  | o :: ops' => let (e1, w1) := step w o in let (e2, w2) := exec w1 ops' in (e1 ++ e2, w2)
  end.
