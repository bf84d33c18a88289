(** Specification vocabulary for composed and summed maps. *)
From Verif Require Import Py Vec Frechet MapsM.
Local Open Scope R_scope.

(** The elementary maps of a composition, leftmost first. *)
Fixpoint leaves (s : smap) : list leaf :=
  match s with Leaf l => [l] | Combo a rest => leaves a ++ flat_map leaves rest end.
(** Function composition, right to left. *)
Fixpoint compose (ls : list leaf) (m : vec) : vec :=
  match ls with [] => m | l :: ls' => lf_tr l (compose ls' m) end.
(** Every elementary map receives a vector of the size it declares. *)
Fixpoint sizes_ok (ls : list leaf) (m : vec) : Prop :=
  match ls with
  | [] => True
  | l :: ls' => sizes_ok ls' m /\ forall n, lf_in l = Some n -> length (compose ls' m) = n
  end.
(** The object [d] stands for the matrix [J] with [n] columns. *)
Definition stands_for (n : nat) (d : dval) (J : mat) : Prop :=
  d = DSp J \/ ((d = DOne \/ d = DId) /\ J = eye n).
(** [deriv] of the elementary map [l] returns the derivative of its transform at [x]
    (as a sparse matrix or symbolic identity); the output is not empty. *)
Definition leaf_correct (l : leaf) (x : vec) : Prop :=
  exists k d J, (0 < k)%nat /\ leaf_deriv l x = Ok d /\ stands_for (length x) d J /\ frechet (length x) k (lf_tr l) x J.
Fixpoint all_correct (ls : list leaf) (m : vec) : Prop :=
  match ls with [] => True | l :: ls' => all_correct ls' m /\ leaf_correct l (compose ls' m) end.
(** Left-to-right product of a non-empty chain of maps, [m1 * m2 * ... * mk]. *)
Definition product (a : smap) (l : list smap) : result smap :=
  fold_left (fun acc b => do s <- acc; smul s b) l (Ok a).
(** Sum of vectors. *)
Fixpoint sum_vecs (x : vec) (l : list vec) : vec := match l with [] => x | y :: l' => sum_vecs (vadd x y) l' end.
(** Sum of matrices. *)
Fixpoint sum_mats (A : mat) (l : list mat) : mat := match l with [] => A | B :: l' => sum_mats (madd A B) l' end.
(** [J] is the derivative of part [b] at [m], and [b.deriv(m, v)] on its own returns [J v]. *)
Definition part_correct (n k : nat) (m : vec) (b : leaf) (J : mat) : Prop :=
  frechet n k (lf_tr b) m J /\ forall v, length v = n -> leaf_deriv_v b m (DV v) = Ok (DV (mv J v)).
(** Neighbours agree on their sizes wherever both are known. *)
Fixpoint compatible (a : smap) (l : list smap) : Prop :=
  match l with
  | [] => True
  | b :: l' => (forall x y, s_in a = Some x -> s_out b = Some y -> x = y) /\ compatible b l'
  end.
