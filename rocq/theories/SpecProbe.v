(** Specification vocabulary for the diagonal of a matrix. *)
From Verif Require Import Py Vec.
Local Open Scope R_scope.

Definition entry (A : mat) (i j : nat) : R := nth j (nth i A []) 0.
(** Sum over the columns with a property, and over the columns other than i. *)
Definition sum_cols (n : nat) (f : nat -> R) : R := vsum (map f (seq 0 n)).
Definition class_sum (A : mat) (n k i : nat) : R := sum_cols n (fun j => if Nat.eqb (j mod k) (i mod k) then entry A i j else 0).
Definition off_diagonal (A : mat) (n i : nat) : R := sum_cols n (fun j => if Nat.eqb j i then 0 else Rabs (entry A i j)).
(** Nothing at distance k or more from the diagonal. *)
Definition banded (A : mat) (n k : nat) : Prop := forall i j, (i < n)%nat -> (j < n)%nat -> (i + k <= j \/ j + k <= i)%nat -> entry A i j = 0.
