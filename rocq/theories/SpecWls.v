(** Specification vocabulary for the multiplier constants. *)
From Verif Require Import Py Vec Wls.
Local Open Scope R_scope.

(** What an accepted assignment asks the constant [a] to be, given the constants before. *)
Inductive asks (b : R) (al : attr -> R) : wop -> attr -> R -> Prop :=
| Ask_num a x : 0 <= x -> asks b al (WAlpha a (VNum x)) a x
| Ask_s : asks b al (WAlpha As VNone) As 1
| Ask_second a : asks b al (WAlpha (A2 a) VNone) (A2 a) (al (A1 a) ^ 2)
| Ask_len a x : asks b al (WLength a (VNum x)) (A1 a) ((x * b) ^ 2)
| Ask_len_default a : asks b al (WLength a VNone) (A1 a) (b ^ 2).
(** The constants after a history: every accepted assignment changes the one it names. *)
Inductive constants (b : R) : (attr -> R) -> list wop -> (attr -> R) -> Prop :=
| Cs_nil al : constants b al [] al
| Cs_set al o l a x al1 al' : asks b al o a x -> al1 a = x -> (forall c, c <> a -> al1 c = al c) -> constants b al1 l al' -> constants b al (o :: l) al'
| Cs_refused al o l al' : (forall a x, ~ asks b al o a x) -> constants b al l al' -> constants b al (o :: l) al'.
(** The constant each term of a d-dimensional regularization is multiplied by, and the
    weighted sum. *)
Definition in_dim (d : nat) (a : attr) : Prop :=
  match a with As => True | A1 AX | A2 AX => True | A1 AY | A2 AY => (2 <= d)%nat | A1 AZ | A2 AZ => (3 <= d)%nat end.
Definition total (d : nat) (al phi : attr -> R) : R :=
  al As * phi As + al (A1 AX) * phi (A1 AX) + al (A2 AX) * phi (A2 AX) +
  (if Nat.leb 2 d then al (A1 AY) * phi (A1 AY) + al (A2 AY) * phi (A2 AY) else 0) +
  (if Nat.leb 3 d then al (A1 AZ) * phi (A1 AZ) + al (A2 AZ) * phi (A2 AZ) else 0).
