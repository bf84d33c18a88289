(** Model of simpeg/utils/mat_utils.py 127-240, eigenvalue_by_power_iteration. *)
From Verif Require Import Py Vec.
Local Open Scope R_scope.

(** A combination: multipliers and the products of the terms' second derivatives at the model
    with a vector (deriv2(model, v)); terms whose deriv2 is Zero are left out (187-193,
    which skip them). *)
Notation terms := (list (R * (vec -> vec))).
Definition norm (x : vec) : R := sqrt (dot x x).
(** [x / np.linalg.norm(x)]; nan, here None, for the zero vector *)
Definition normalized (x : vec) : option vec := if Req_EM_T (norm x) 0 then None else Some (vscale (/ norm x) x).
(** 209-220: one product, [x1 = 0.0] then [x1 += mult * aux] *)
Definition product (n : nat) (ts : terms) (x : vec) : vec := fold_left (fun acc t => vadd acc (vscale (fst t) (snd t x))) ts (vzero n).
(** 207-221 *)
Fixpoint iterate (k : nat) (n : nat) (ts : terms) (x : vec) : option vec :=
  match k with
  | O => Some x
  | S k' => match normalized (product n ts x) with Some x' => iterate k' n ts x' | None => None end
  end.
(** 223-238 *)
Definition rayleigh (ts : terms) (x : vec) : R := fold_left (fun acc t => acc + fst t * dot x (snd t x)) ts 0.
(** [x0] is the random vector drawn at 184 *)
Definition eigenvalue (ts : terms) (x0 : vec) (k : nat) : option R :=
  match normalized x0 with
  | Some x => match iterate k (length x0) ts x with Some x' => Some (rayleigh ts x') | None => None end
  | None => None
  end.
