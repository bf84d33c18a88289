(** Specification vocabulary for counters: what calls were made, without any counter. *)
From Coq Require Import String.
From Verif Require Import Py Vec Counter.
Local Open Scope R_scope.

(** A call that began: decorator, name, clock at its beginning, and at its end if it
    returned. *)
Record made := mkMade { m_kind : kind; m_name : string; m_start : R; m_end : option R }.
Definition log_body (f : call -> list made * bool) (catches : bool) : list call -> list made * bool :=
  fix go l :=
    match l with
    | [] => ([], false)
    | x :: l' => let '(a, r) := f x in if r && negb catches then (a, true) else let '(b, r') := go l' in (a ++ b, r')
    end.
(** The calls made in the order in which they began, and whether this one raised. *)
Fixpoint log (x : call) : list made * bool :=
  match x with
  | Call k name t0 t1 body catches raises =>
      let '(l, r) := log_body log catches body in
      let r' := r || raises in
      (mkMade k name t0 (if r' then None else Some t1) :: l, r')
  end.
Definition log_all (l : list call) : list made := fst (log_body log true l).
Definition is_counted (name : string) (m : made) : bool := match m_kind m with Counted => String.eqb name (m_name m) | Timed => false end.
Definition is_timed (name : string) (m : made) : bool := match m_kind m with Timed => String.eqb name (m_name m) | Counted => false end.
Definition returned (m : made) : bool := match m_end m with Some _ => true | None => false end.
(** Names of the timed calls that occur in a call tree. *)
Fixpoint timed_names (x : call) : list string :=
  match x with Call k name _ _ body _ _ => (match k with Timed => [name] | Counted => [] end) ++ flat_map timed_names body end.
(** No timed call occurs inside a timed call of the same name. *)
Fixpoint not_recursive (name : string) (x : call) : Prop :=
  match x with
  | Call k nm _ _ body _ _ => (k = Timed -> nm = name -> ~ In name (flat_map timed_names body)) /\ fold_right and True (map (not_recursive name) body)
  end.
Definition duration (m : made) : R := match m_end m with Some t => t - m_start m | None => - m_start m end.
(** Calls without exceptions: all calls of the tree are made and return. *)
Fixpoint quiet (x : call) : Prop := match x with Call _ _ _ _ body _ raises => raises = false /\ fold_right and True (map quiet body) end.
Fixpoint nodes (x : call) : list made := match x with Call k name t0 t1 body _ _ => mkMade k name t0 (Some t1) :: flat_map nodes body end.
(** A solver step at clock 1 to 9: two timed field calls, in the second of which a counted call is
    made; an attempt that fails. *)
Definition session : list call :=
  [Call Timed "Inversion.run" 1 9 [Call Timed "Sim.fields" 2 3 [] false false; Call Timed "Sim.fields" 4 7 [Call Counted "Sim.factor" 5 6 [] false false] false false] false false;
   Call Timed "Sim.dpred" 10 11 [Call Timed "Sim.fields" 10 11 [] false true] false false]%string.
