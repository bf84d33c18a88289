(** Specification vocabulary for the empirical relations. *)
From Verif Require Import Py Vec VecDeriv PropsM SpecMass Empir.
Local Open Scope R_scope.

(** A parameter for [k] cells: a number, an array of one value per cell, or a mapping of
    the model with a Jacobian at [x]. *)
Definition par_ok (n k : nat) (p : par) (x : vec) : Prop :=
  match p with Scal _ => True | Arr v => length v = k | Mapped f => jac_at n k f x end.
(** The value of a parameter in a cell. *)
Definition val (k : nat) (p : par) (x : vec) (i : nat) : R := nth i (pv k p x) 0.
(** A derivative matrix, or zero, applied to a vector. *)
Definition applied0 (k : nat) (d : option mat) (h : vec) : vec := match d with Some M => mv M h | None => vzero k end.
(** Heads of type float. *)
Definition floats (u : vec) : field := mkField u false.
(** The relations as they are written in the literature, for negative heads [-s], s > 0
    (Haverkamp 1977, van Genuchten 1980). *)
Definition haverkamp_theta_lit (r s a b h : R) : R := r + a * (s - r) / (a + Rpower h b).
Definition haverkamp_k_lit (ks a g h : R) : R := ks * a / (a + Rpower h g).
Definition effective_saturation (a n h : R) : R := Rpower (1 + Rpower (a * h) n) (- (1 - 1 / n)).
Definition van_genuchten_theta_lit (r s a n h : R) : R := r + (s - r) * effective_saturation a n h.
Definition mualem_k_lit (ks a i n h : R) : R :=
  let S := effective_saturation a n h in
  ks * Rpower S i * (1 - Rpower (1 - Rpower S (1 / (1 - 1 / n))) (1 - 1 / n)) ^ 2.
