(** Specification vocabulary for BFGS. *)
From Verif Require Import Py Vec Bfgs.
Local Open Scope R_scope.

(** What the optimiser feeds its memory while walking through the iterates [x :: xs]
    of an objective with gradient [grad], starting at iteration [i]. *)
Fixpoint history (grad : vec -> vec) (i : nat) (x : vec) (xs : list vec) : list (nat * vec * vec * vec) :=
  match xs with
  | [] => []
  | y :: ys => (i, grad x, x, y) :: history grad (Datatypes.S i) y ys
  end.
(** The most recently stored pair. *)
Definition latest_s (nb : nat) (b : bfgsst) : vec := col (bf_S b) ((bf_cnt b - 1) mod nb).
Definition latest_y (nb : nat) (b : bfgsst) : vec := col (bf_Y b) ((bf_cnt b - 1) mod nb).
(** Strictly decreasing one-dimensional iterates. *)
Fixpoint marching (x : R) (xs : list R) : Prop :=
  match xs with [] => True | y :: ys => y < x /\ marching y ys end.
