(** Specification vocabulary for the index-routing maps. *)
From Coq Require Import ZArith String.
From Verif Require Import Py Vec Frechet MapsM MapsIdx.
Local Open Scope R_scope.

(** Entries of [u] at the true positions of a mask, in order. *)
Fixpoint pick (b : list bool) (u : vec) : vec :=
  match b, u with
  | x :: b', y :: u' => if x then y :: pick b' u' else pick b' u'
  | _, _ => []
  end.
(** The vector that holds [on] in the true cells and [off] in the others, in order. *)
Fixpoint merge (b : list bool) (on off : vec) : vec :=
  match b with
  | [] => []
  | true :: b' => hd 0 on :: merge b' (tl on) off
  | false :: b' => hd 0 off :: merge b' on (tl off)
  end.
Fixpoint count (b : list bool) : nat := match b with [] => O | true :: b' => S (count b') | false :: b' => count b' end.
(** The values meant for the inactive cells. *)
Definition inactive_vals (n : nat) (v : inactive) : vec := match v with Scalar x => vconst n x | Array a => a end.
(** The matrix [P] is the derivative of the (affine) map [f] everywhere on models of size [n]. *)
Definition linear_part (n k : nat) (f : vec -> result vec) (P : mat) : Prop :=
  is_mat k n P /\ forall m h, length m = n -> length h = n -> exists a b, f m = Ok a /\ f (vadd m h) = Ok b /\ b = vadd a (mv P h).
(** Wires: lengths are positive and names differ. *)
Definition good_wires (args : list (string * Z)) : Prop :=
  Forall (fun a => (0 < snd a)%Z) args /\ NoDup (map fst args).
