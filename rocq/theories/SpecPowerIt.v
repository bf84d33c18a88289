(** Specification vocabulary for eigenvalue estimates. *)
From Verif Require Import Py Vec PowerIt.
Local Open Scope R_scope.

(** The matrices of the terms; their combination as a bilinear form. *)
Definition matrices (n : nat) (ts : terms) (Ms : list mat) : Prop :=
  Forall2 (fun t M => is_mat n n M /\ forall v, length v = n -> snd t v = mv M v) ts Ms.
Definition form (ts : terms) (Ms : list mat) (x y : vec) : R :=
  fold_right (fun tM acc => fst (fst tM) * dot x (mv (snd tM) y) + acc) 0 (combine ts Ms).
Definition symmetric (n : nat) (ts : terms) (Ms : list mat) : Prop := forall x y, length x = n -> length y = n -> form ts Ms x y = form ts Ms y x.
Definition semidefinite (n : nat) (ts : terms) (Ms : list mat) : Prop := forall x, length x = n -> 0 <= form ts Ms x x.
Definition eigenvector (n : nat) (ts : terms) (Ms : list mat) (lam : R) (e : vec) : Prop :=
  length e = n /\ e <> vzero n /\ forall x, length x = n -> form ts Ms x e = lam * dot x e.
Definition scaled (c : R) (ts : terms) : terms := map (fun t => (c * fst t, snd t)) ts.
(** For examples. *)
Definition two_terms (a b : R) : terms := [(a, fun v => mv [[1; 0]; [0; 0]] v); (b, fun v => mv [[0; 0]; [0; 1]] v)].
Definition two_mats : list mat := [[[1; 0]; [0; 0]]; [[0; 0]; [0; 1]]].
