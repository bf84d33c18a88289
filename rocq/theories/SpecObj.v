(** Specification vocabulary for objective functions. *)
From Verif Require Import Py Vec ObjFun.
Local Open Scope R_scope.

(** Array value of a gradient in R^n; the symbolic zero is the null vector. *)
Definition arr (n : nat) (z : zvec) : vec := match z with VZero => vzero n | VArr v => v end.

(** [P c] holds of every multiplier met while walking [o]. *)
Inductive multipliers_ok (P : R -> Prop) : obj -> Prop :=
| mo_leaf k np : multipliers_ok P (Leaf k np)
| mo_combo np terms u :
    Forall (fun t => P (fst t) /\ multipliers_ok P (snd t)) terms -> multipliers_ok P (Combo np terms u).
