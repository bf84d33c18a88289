(** Specification vocabulary for initial scalings. *)
From Verif Require Import Py Vec SensW PowerIt Scaling.
Local Open Scope R_scope.

Definition positive (v : vec) : Prop := Forall (fun x => 0 < x) v.
(** Scales that give every misfit, per unit of its ratio, the same largest eigenvalue. *)
Definition balanced (mult chi eigs : vec) : Prop :=
  length mult = length chi /\ length eigs = length chi /\
  exists c, 0 < c /\ forall i, (i < length chi)%nat -> nth i mult 0 * nth i eigs 0 = c * nth i chi 0.
(** Data of an iteration: as many misfits and targets as multipliers; all positive. *)
Definition sensible (n : nat) (i : jin) : Prop := length (j_dms i) = n /\ length (j_targets i) = n /\ positive (j_dms i) /\ positive (j_targets i).
(** For examples: two one-dimensional misfits, one of them of two parameters. *)
Definition diag2 (a b : R) : terms := [(1, fun v => mv [[a; 0]; [0; b]] v)].
(** An update is due: at every [rate]-th iteration, when some misfits are below and some
    above their targets and all multipliers are strictly between the bounds. *)
Definition due (c : jconf) (s : joint) (i : jin) : Prop :=
  (0 < j_iter i)%nat /\ (j_iter i mod rate c = 0)%nat /\
  (exists p, In p (combine (j_dms i) (j_targets i)) /\ fst p < snd p) /\ (exists p, In p (combine (j_dms i) (j_targets i)) /\ snd p < fst p) /\
  Forall (fun x => chimin c < x < chimax c) (jm s).
