(** Vocabulary for surveys built from electrode tables. *)
From Verif Require Import Py Vec Abmn.
From Coq Require Import Permutation.
Local Open Scope R_scope.

Definition distance (x y : vec) : R := sqrt (dot (vsub x y) (vsub x y)).
(** Two places that count as one electrode: in every coordinate within a millimetre plus
    a hundred-thousandth of the coordinate. *)
Definition merged (x y : vec) : Prop := Forall (fun p => Rabs (fst p - snd p) <= / 1000 + / 100000 * Rabs (snd p)) (combine x y).
(** What the survey reports for a row of the tables. *)
Definition second (x y y' : vec) : Prop := (merged x y /\ y' = x) \/ (~ merged x y /\ y' = y).
Definition recorded (q' q : quad) : Prop := qa q' = qa q /\ second (qa q) (qb q) (qb q') /\ qm q' = qm q /\ second (qm q) (qn q) (qn q').
(** Poles are given as twice the same place. *)
Definition clear_poles (q : quad) : Prop := (qa q = qb q \/ ~ merged (qa q) (qb q)) /\ (qm q = qn q \/ ~ merged (qm q) (qn q)).
(** Different pairs (A, B) are a millimetre apart at one of the ends. *)
Definition apart (rows : list quad) : Prop := forall p q, In p rows -> In q rows -> (qa p, qb p) <> (qa q, qb q) ->
  / 1000 <= distance (qa p) (qa q) \/ / 1000 <= distance (qb p) (qb q).
Definition pair_of_source (s : source) : vec * vec := match s with SrcPole _ a => (a, a) | SrcDipole _ a b => (a, b) end.
Definition is_dipole (s : source) : Prop := match s with SrcDipole _ _ _ => True | SrcPole _ _ => False end.
Definition even_tables (d : nat) (l : list vec) : Prop := Forall (fun v => length v = d) l.
(** Concrete tables: two sources used in turn, a pole and a dipole receiver. *)
Definition demo : list quad :=
  [ {| qa := [0]; qb := [1]; qm := [2]; qn := [3] |}; {| qa := [1]; qb := [2]; qm := [3]; qn := [4] |};
    {| qa := [0]; qb := [1]; qm := [3]; qn := [3] |} ].
