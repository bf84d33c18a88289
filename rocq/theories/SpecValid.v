(** Specification vocabulary for the validators. *)
From Coq Require Import ZArith String.
From Verif Require Import Py Vec Validators.
Local Open Scope R_scope.

(** Order on numbers with infinities. *)
Definition xle (a b : xr) : Prop :=
  match a, b with
  | NaN, _ | _, NaN => False
  | NInf, _ | _, PInf => True
  | Fin x, Fin y => x <= y
  | _, _ => False
  end.
Definition xlt (a b : xr) : Prop := xle a b /\ ~ xle b a.
Definition number (a : xr) : Prop := a <> NaN.
Definition within (x lo hi : xr) (inc_lo inc_hi : bool) : Prop :=
  (if inc_lo then xle lo x else xlt lo x) /\ (if inc_hi then xle x hi else xlt x hi).
Definition as_float (v : pyval) : option xr :=
  match v with VInt z => Some (Fin (IZR z)) | VFloat x => Some x | VOther => None end.

(** The integer a value is read as: itself, or the float rounded towards zero. *)
Definition read_as_int (v : pyval) (z : Z) : Prop :=
  match v with
  | VInt y => y = z
  | VFloat (Fin r) => (0 <= r -> IZR z <= r < IZR z + 1) /\ (r <= 0 -> IZR z - 1 < r <= IZR z)
  | _ => False
  end.

(** Names of an alias group and its canonical name. *)
Definition names (i : sitem) : list string := match i with One s => [s] | Group l => l end.
Definition canonical (i : sitem) : option string := hd_error (names i).
Definition same_name (fold : string -> string) (v : string) (i : sitem) : Prop := exists s, In s (names i) /\ fold s = fold v.
(** No two groups share a name. *)
Definition disjoint_groups (fold : string -> string) (l : list sitem) : Prop :=
  forall i j a b v, nth_error l i = Some a -> nth_error l j = Some b -> same_name fold v a -> same_name fold v b -> i = j.

(** The array, padded with axes of length one, matches a pattern. *)
Inductive matches : list (option nat) -> list nat -> Prop :=
  | m_nil : matches [] []
  | m_any shp s n : matches shp s -> matches (None :: shp) (n :: s)
  | m_eq shp s n : matches shp s -> matches (Some n :: shp) (n :: s).
Definition size (s : list nat) : nat := fold_right Nat.mul 1%nat s.
(** The cell an index refers to (negative from the end). *)
Definition cell_of (n : nat) (z : Z) : Z := if Z.ltb z 0 then (z + Z.of_nat n)%Z else z.
