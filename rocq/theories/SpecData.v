(** Specification vocabulary for data uncertainties. *)
From Verif Require Import Py Vec Survey DataM.

(** ** Writing one block *)
Section Blocks.
  Context {A : Type}.
  (** What a write of [v] stores in a block of [n] data: a value of the same size, or
      a single value spread over the block; anything else is refused. *)
  Definition put_value (n : nat) (v : list A) : option (list A) :=
    if Nat.eqb (length v) n then Some v
    else match v with [x] => Some (repeat x n) | _ => None end.

  (** The value block [k] holds after one write. *)
  Definition block_write (k : pkey) (n : nat) (cur : list A) (w : pkey * list A) : list A :=
    if pkey_eqb (fst w) k then match put_value n (snd w) with Some v => v | None => cur end else cur.

End Blocks.

(** ** Uncertainties *)
Local Open Scope R_scope.

(** The i-th entry of an optional uncertainty array; an unset one contributes 0. *)
Definition part (o : option (list R)) (i : nat) : R :=
  match o with Some v => nth i v 0 | None => 0 end.

(** What an accepted assignment of [v] means for [n] data: unset, or an array. *)
Inductive assigns (n : nat) : uval -> option (list R) -> Prop :=
| as_none : assigns n UNone None
| as_scalar x : 0 <= x -> assigns n (UScalar x) (Some (repeat x n))
| as_one x : 0 <= x -> assigns n (UVec [x]) (Some (repeat x n))
| as_vec w : length w = n -> length w <> 1%nat -> Forall (fun x => 0 <= x) w -> assigns n (UVec w) (Some w).

(** Entries are non-negative and there are [n] of them. *)
Definition good_part (n : nat) (o : option (list R)) : Prop :=
  match o with None => True | Some v => length v = n /\ Forall (fun x => 0 <= x) v end.
