(** Model of simpeg/utils/mat_utils.py 27-103, estimate_diagonal. *)
From Verif Require Import Py Vec.
From Coq Require Import ZArith.
Local Open Scope R_scope.

(** The number of vectors: missing, an integer, or a float (which [range] refuses). *)
Inductive karg := KNone | KInt (k : Z) | KFloat.
(** 69-70: the default is np.floor(n / 10.), a float. *)
Definition default_k (k : karg) : karg := match k with KNone => KFloat | _ => k end.
(** 72-93: the vectors. [draw i] is what the generator returns at step i. *)
Inductive approach := Probing | Ones (draw : nat -> vec) | Random (draw : nat -> vec).
Definition pm1 (x : R) : R := if Rlt_dec x 0 then -1 else 1.
(** [v[i:n:k] = 1.0] *)
Definition probe (n k i : nat) : vec :=
  map (fun j => if andb (Nat.leb i j) (Nat.eqb ((j - i) mod k) 0) then 1 else 0) (seq 0 n).
Definition getv (ap : approach) (n k i : nat) : vec :=
  match ap with Probing => probe n k i | Ones d => map pm1 (d i) | Random d => d i end.
(** 95-101: the loop; [matrix_arg] is a function, or the product with the given array. *)
Fixpoint loop (f : vec -> vec) (ap : approach) (n k : nat) (is : list nat) (Mv vv : vec) : vec * vec :=
  match is with
  | [] => (Mv, vv)
  | i :: is' => let v := getv ap n k i in loop f ap n k is' (vadd Mv (vmul (f v) v)) (vadd vv (vmul v v))
  end.
(** 103: the division; an entry that is divided by zero is nan, here None. *)
Fixpoint quotients (a b : vec) : list (option R) :=
  match a, b with
  | x :: a', y :: b' => (if Req_EM_T y 0 then None else Some (x / y)) :: quotients a' b'
  | _, _ => []
  end.
Definition estimate_diagonal (f : vec -> vec) (n : nat) (k : karg) (ap : approach) : result (list (option R)) :=
  match default_k k with
  | KInt k => let (Mv, vv) := loop f ap n (Z.to_nat k) (seq 0 (Z.to_nat k)) (vzero n) (vzero n) in Ok (quotients Mv vv)
  | _ => Err TypeError
  end.
