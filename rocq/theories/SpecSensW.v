(** Specification vocabulary for sensitivity weights. *)
From Verif Require Import Py Vec SensW.
Local Open Scope R_scope.
Definition greatest (v : vec) (x : R) : Prop := In x v /\ forall y, In y v -> y <= x.
Definition least (v : vec) (x : R) : Prop := In x v /\ forall y, In y v -> x <= y.
(** Sensitivities: non-negative and not identically zero. *)
Definition some_sensitivity (w : vec) : Prop := (forall x, In x w -> 0 <= x) /\ exists x, In x w /\ 0 < x.
(** Thresholds the method can use. *)
Definition usable (meth : tmeth) (t : R) : Prop := 0 <= t /\ (meth = Percentile -> t <= 100).
(** The sum over the rows of a list of sensitivities of the squares of column j. *)
Fixpoint diag_at (l : list sens) (j : nat) : R :=
  match l with
  | [] => 0
  | JtJdiag d :: l' => nth j d 0 + diag_at l' j
  | WJ M :: l' => vsum (map (fun r => (nth j r 0) ^ 2) M) + diag_at l' j
  end.
Definition sens_len (n : nat) (s : sens) : Prop := match s with JtJdiag d => length d = n | WJ _ => True end.
(** Parameter j is entry i of the given regularization, and of no other: neither elsewhere
    in its own list nor in another one. *)
Definition owns (r : wreg) (i j : nat) : Prop := nth_error (r_idx r) i = Some j /\ NoDup (r_idx r).
