(** Specification vocabulary for the effective medium map. *)
From Verif Require Import Py Vec EffMed.
Local Open Scope R_scope.

Definition sensible_emt (c : emt) : Prop := 0 < sig0 c /\ 0 < sig1 c /\ 0 < alpha0 c /\ 0 < alpha1 c /\ (0 < max_iter c)%nat.
Definition fraction (phi : R) : Prop := 0 <= phi <= 1.
Definition low (c : emt) : R := Rmin (sig0 c) (sig1 c).
Definition high (c : emt) : R := Rmax (sig0 c) (sig1 c).
(** Self-consistency: the contributions of the two phases to the field in the effective
    medium s cancel. *)
Definition defect (c : emt) (phi s : R) : R :=
  (1 - phi) * (s - sig0 c) * getR (sig0 c) s (alpha0 c) + phi * (s - sig1 c) * getR (sig1 c) s (alpha1 c).
Definition exact (c : emt) (phi s : R) : Prop := 0 < s /\ defect c phi s = 0.
(** Operations of a history that only use positive values and fractions. *)
Definition good_op (o : emop) : Prop :=
  match o with
  | EmT phi => Forall fraction phi /\ phi <> []
  | EmSig0 x | EmSig1 x | EmTol x => 0 < x
  | EmStart (Some x) => 0 < x
  | EmStart None => True
  end.
Definition spheres (c : emt) : Prop := alpha0 c = 1 /\ alpha1 c = 1.
(** A transform of n fractions. *)
Definition sized (n : nat) (o : emop) : Prop := match o with EmT p => length p = n | _ => True end.
(** Two phases of spheres, 1 and 2 S/m; two phases of plates and needles. *)
Definition twospheres : emt := mkEmt 1 2 1 1 1 50.
Definition shapes : emt := mkEmt 1 2 (1 / 10) 5 (/ 1000) 50.
