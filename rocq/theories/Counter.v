(** Model of simpeg/utils/counter_utils.py: Counter and the decorators count and timeIt. *)
From Coq Require Import String.
From Verif Require Import Py Vec.
Local Open Scope R_scope.

(** 42-44: _countList and _timeList *)
Record counter := mkCounter { countList : list (string * nat); timeList : list (string * vec) }.
Definition new_counter : counter := mkCounter [] [].
(** 46-57; names are strings *)
Definition cn_count (c : counter) (prop : string) : counter :=
  let old := match dict_get String.eqb prop (countList c) with None => 0%nat | Some n => n end in
  mkCounter (dict_set String.eqb prop (S old) (countList c)) (timeList c).
(** 59-70, at clock reading t *)
Definition cn_tic (c : counter) (prop : string) (t : R) : counter :=
  let old := match dict_get String.eqb prop (timeList c) with None => [] | Some l => l end in
  mkCounter (countList c) (dict_set String.eqb prop (old ++ [- t]) (timeList c)).
(** l[-1] += t *)
Fixpoint add_last (l : vec) (t : R) : result vec :=
  match l with
  | [] => Err IndexError
  | [x] => Ok [x + t]
  | x :: l' => do r <- add_last l' t; Ok (x :: r)
  end.
(** 72-82, at clock reading t *)
Definition cn_toc (c : counter) (prop : string) (t : R) : result counter :=
  match dict_get String.eqb prop (timeList c) with
  | None => Err AssertionError
  | Some l => do l' <- add_last l t; Ok (mkCounter (countList c) (dict_set String.eqb prop l' (timeList c)))
  end.

Inductive kind := Counted | Timed.
(** A call of a decorated method of an object with this counter: the decorator, the name
    under which it is recorded (class and method), the clock readings around the call, the
    decorated calls it makes, whether it catches their exceptions, and whether it raises one
    itself at its end. *)
Inductive call := Call (k : kind) (name : string) (t0 t1 : R) (body : list call) (catches raises : bool).
(** The calls of a body in turn, up to an exception that is not caught. *)
Definition run_body (f : call -> counter -> counter * bool) (catches : bool) : list call -> counter -> counter * bool :=
  fix go l c :=
    match l with
    | [] => (c, false)
    | x :: l' => let '(c', r) := f x c in if r && negb catches then (c', true) else go l' c'
    end.
(** 102-141: the wrapped call; the second component tells whether it raised. The counter is
    looked up once, before the call; it is not exchanged for another one meanwhile. *)
Fixpoint exec (x : call) (c : counter) : counter * bool :=
  match x with
  | Call k name t0 t1 body catches raises =>
      let c1 := match k with Counted => cn_count c name | Timed => cn_tic c name t0 end in
      let '(c2, r) := run_body exec catches body c1 in
      if r || raises then (c2, true)
      else match k with
           | Counted => (c2, false)
           | Timed => match cn_toc c2 name t1 with Ok c3 => (c3, false) | Err _ => (c2, true) end
           end
  end.
(** A program: calls in turn, each in its own try block. *)
Definition exec_all (l : list call) (c : counter) : counter := fst (run_body exec true l c).
(** What the counter says. *)
Definition count_of (c : counter) (name : string) : nat := match dict_get String.eqb name (countList c) with None => 0%nat | Some n => n end.
Definition times_of (c : counter) (name : string) : vec := match dict_get String.eqb name (timeList c) with None => [] | Some l => l end.
