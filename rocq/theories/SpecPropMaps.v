(** Specification vocabulary for the elementwise maps. *)
From Verif Require Import Py Vec Frechet MapsM PropMaps.
Local Open Scope R_scope.

(** The number a map sends [x] to, in the [i]-th cell. *)
Definition at1 (v : vec) (i : nat) : R := match v with [x] => x | _ => nth i v 0 end.
Definition cellmap (p : pmap) (i : nat) (x : R) : R :=
  match p with
  | PExp => exp x | PRecip => 1 / x | PLog => ln x
  | PLogistic lo up => at1 lo i + (at1 up i - at1 lo i) / (1 + exp (- x))
  | PChi => mu_0 * (1 + x) | PEffSus a => a * x | PMuRel => mu_0 * x | PWeight w => at1 w i * x
  end.
(** Numbers the map is meant for. *)
Definition cell_dom (p : pmap) (x : R) : Prop :=
  match p with PRecip => x <> 0 | PLog => 0 < x | _ => True end.
(** Values it takes on them. *)
Definition cell_range (p : pmap) (i : nat) (u : R) : Prop :=
  match p with
  | PExp => 0 < u | PRecip => u <> 0
  | PLogistic lo up => Rmin (at1 lo i) (at1 up i) < u < Rmax (at1 lo i) (at1 up i)
  | _ => True
  end.
(** Parameters fit a model of [n] cells, and scalings are not zero. *)
Definition fits (n : nat) (v : vec) : Prop := length v = n \/ length v = 1%nat.
Definition params_ok (n : nat) (p : pmap) : Prop :=
  match p with
  | PLogistic lo up => fits n lo /\ fits n up /\ forall i, (i < n)%nat -> at1 lo i <> at1 up i
  | PEffSus a => a <> 0
  | PWeight w => fits n w /\ forall i, (i < n)%nat -> at1 w i <> 0
  | _ => True
  end.
Definition in_dom (p : pmap) (m : vec) : Prop := forall i, (i < length m)%nat -> cell_dom p (nth i m 0).
Definition in_range (p : pmap) (u : vec) : Prop := forall i, (i < length u)%nat -> cell_range p i (nth i u 0).
(** Cell by cell application. *)
Definition cells (p : pmap) (m : vec) : vec := map (fun i => cellmap p i (nth i m 0)) (seq 0 (length m)).
(** [deriv] covers a model of [n] cells: one weight per cell; logarithms of values above
    the tolerance 1e-16. *)
Definition deriv_dom (p : pmap) (m : vec) : Prop :=
  match p with
  | PWeight w => length w = length m
  | PLog => forall i, (i < length m)%nat -> / 10000000000000000 <= nth i m 0
  | _ => True
  end.
