(** C40: weights of the sparse regularization; C53: its norms. *)
From Verif Require Import Py Vec SpecSensW Sparse SpecSparse SparseFacts.
Local Open Scope R_scope.

(** C40: the weights are positive when they are not scaled, when p >= 1, or when the kernel
    is not identically zero. *)
Theorem C40_positive_partial scaled eps norm f : 0 < eps -> length norm = length f -> f <> [] ->
  exists w, get_lp_weights scaled eps norm f = Ok w /\ length w = length f /\
    forall i, (i < length f)%nat -> (scaled = false \/ 1 <= nth i norm 0 \/ exists x, In x f /\ x <> 0) -> 0 < nth i w 0.
Proof. exact (c40_positive scaled eps norm f). Qed.
Print Assumptions C40_positive_partial.
Example C40_positive_ex : (0 : R) < 1 /\ length [0; 1] = length [3; 0] /\ exists x, In x [3; 0] /\ x <> 0.
Proof. split; [lra|]. split; [reflexivity|]. exists 3. split; [left; reflexivity|lra]. Qed.

(** C40, finding: a zero kernel (the starting model equal to the reference) gets zero scaled
    weights for p < 1. *)
Theorem C40_positive_refuted : ~ forall eps norm f w i, 0 < eps -> length norm = length f -> norms_ok norm ->
  get_lp_weights true eps norm f = Ok w -> (i < length f)%nat -> 0 < nth i w 0.
Proof. exact c40_positive_refuted. Qed.
Print Assumptions C40_positive_refuted.

(** C40: for p = 2 the weight is 1, scaled or not. *)
Theorem C40_two scaled eps norm f w i : 0 < eps -> get_lp_weights scaled eps norm f = Ok w -> (i < length f)%nat -> nth i norm 0 = 2 -> nth i w 0 = 1.
Proof. exact (c40_two scaled eps norm f w i). Qed.
Print Assumptions C40_two.

(** C40: for one p < 2 the weight strictly decreases with the amplitude. *)
Theorem C40_decreasing scaled eps norm f w i j : 0 < eps -> get_lp_weights scaled eps norm f = Ok w -> (i < length f)%nat -> (j < length f)%nat ->
  nth i norm 0 = nth j norm 0 -> nth j norm 0 < 2 -> Rabs (nth i f 0) < Rabs (nth j f 0) -> nth j w 0 < nth i w 0.
Proof. exact (c40_decreasing scaled eps norm f w i j). Qed.
Print Assumptions C40_decreasing.
Example C40_decreasing_ex : exists w, get_lp_weights true 1 [1; 1] [1; -2] = Ok w.
Proof. eexists. reflexivity. Qed.

(** C40: without scaling, m^2 times the weight is the term of the Lp approximation ... *)
Theorem C40_unscaled eps norm f w i : get_lp_weights false eps norm f = Ok w -> (i < length f)%nat ->
  (nth i f 0) ^ 2 * nth i w 0 = lp_term eps (nth i norm 0) (nth i f 0).
Proof. exact (c40_unscaled eps norm f w i). Qed.
Print Assumptions C40_unscaled.

(** ... which tends to |m|^p as the threshold tends to zero. *)
Theorem C40_limit p m d : m <> 0 -> 0 < d -> exists e0, 0 < e0 /\ forall eps, 0 < eps < e0 -> Rabs (lp_term eps p m - Rpower (Rabs m) p) < d.
Proof. exact (c40_limit p m d). Qed.
Print Assumptions C40_limit.

(** C40: scaled weights never make an entry of the gradient larger than the largest of the
    unweighted one, and keep that one for p >= 1. *)
Theorem C40_gradient eps norm f w M i : 0 < eps -> norms_ok norm -> amplitude f M -> get_lp_weights true eps norm f = Ok w -> (i < length f)%nat ->
  Rabs (nth i w 0 * nth i f 0) <= M /\ (1 <= nth i norm 0 -> Rabs (nth i f 0) = M -> Rabs (nth i w 0 * nth i f 0) = M).
Proof. exact (c40_gradient eps norm f w M i). Qed.
Print Assumptions C40_gradient.
Example C40_gradient_ex : norms_ok [0; 3 / 2] /\ amplitude [1; -2] 2.
Proof.
  split; [intros [|[|i]] Hi; cbn in *; try lra; lia|]. split; [right; left; rewrite Rabs_left; lra|].
  intros y [<-|[<-|[]]]; [rewrite Rabs_right|rewrite Rabs_left]; lra.
Qed.

(** C53: after any number of assignments of [norms], those that raise included, every term
    has the norm of the last assignment that was accepted (2 if there was none). *)
Theorem C53_history sz l vals : Forall (lt 0) sz ->
  let s0 := mkSp sz (map (fun n => vconst n 2) sz) None in
  last_accepted s0 (repeat NNone (length sz)) l vals -> have (assign_all s0 l) vals.
Proof. exact (c53_history sz l vals). Qed.
Print Assumptions C53_history.
Example C53_history_ex : let s0 := mkSp [2%nat] (map (fun n => vconst n 2) [2%nat]) None in
  last_accepted s0 (repeat NNone 1) [Some [NScalar 1]; Some [NScalar 3]] [NScalar 1].
Proof.
  cbn. apply (LA_skip _ _ [Some [NScalar 1]] (Some [NScalar 3])).
  - intros H. inversion H; subst. cbn in *. lra.
  - apply (LA_take _ _ [] (Some [NScalar 1])). repeat constructor; cbn; lra.
Qed.

(** C53: an assignment raises exactly when it has the wrong length or a value outside [0, 2],
    and then changes nothing. *)
Theorem C53_raises sz l v : Forall (lt 0) sz ->
  let s := assign_all (mkSp sz (map (fun n => vconst n 2) sz) None) l in
  (accepted s v <-> snd (set_norms s v) = None) /\ (~ accepted s v -> fst (set_norms s v) = s).
Proof. exact (c53_raises sz l v). Qed.
Print Assumptions C53_raises.

(** C53, finding: after the norm of one term was set on its own, a rejected assignment
    of [norms] undoes that setting. *)
Theorem C53_atomic_refuted : ~ forall sz norms k v values, Forall (lt 0) sz ->
  let s := fst (set_term (fst (sparse_new sz norms)) k v) in
  snd (set_term (fst (sparse_new sz norms)) k v) = None -> ~ accepted s values -> term_norms (fst (set_norms s values)) = term_norms s.
Proof. exact c53_refuted. Qed.
Print Assumptions C53_atomic_refuted.
