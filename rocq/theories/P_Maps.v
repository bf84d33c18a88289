(** C20, C21: products and sums of maps. *)
From Verif Require Import Py Vec VecDeriv Frechet MapsM SpecMaps MapsFacts.
Local Open Scope R_scope.

(** C20 *)
Theorem C20_shape : forall a l s, product a l = Ok s -> s_out s = s_out a /\ s_in s = s_in (last l a).
Proof. exact product_shape. Qed.
Print Assumptions C20_shape.
Theorem C20_incompatible_raises : forall a l, (exists s, product a l = Ok s) <-> compatible a l.
Proof. exact product_raises. Qed.
Print Assumptions C20_incompatible_raises.
Theorem C20_application : forall a l s m y, product a l = Ok s ->
  let ls := leaves a ++ flat_map leaves l in
  (apply s m = Ok y <-> sizes_ok ls m /\ y = compose ls m) /\ (~ sizes_ok ls m -> apply s m = Err ValueError).
Proof. exact product_apply. Qed.
Print Assumptions C20_application.
(** Provided every elementary map returns its own derivative as a sparse matrix or
    symbolic identity. *)
Theorem C20_chain_rule_partial : forall a l s m, product a l = Ok s ->
  let ls := leaves a ++ flat_map leaves l in
  (0 < length m)%nat -> sizes_ok ls m -> all_correct ls m ->
  exists d J, deriv s m None = Ok d /\ stands_for (length m) d J /\
    frechet (length m) (length (compose ls m)) (compose ls) m J /\
    forall v, length v = length m -> deriv s m (Some v) = Ok (DV (mv J v)).
Proof. exact product_deriv. Qed.
Print Assumptions C20_chain_rule_partial.
(** Dense arrays multiply elementwise: the composed derivative is not that of the
    composed map, and [deriv(m, v)] is two-dimensional. *)
Theorem C20_dense_product_refuted : let A := [[1; 1]; [0; 1]] in let B := [[1; 0]; [1; 1]] in
  exists s, smul (Leaf (lin_dense A)) (Leaf (lin_dense B)) = Ok s /\
  forall m, length m = 2%nat -> apply s m = Ok (mv [[2; 1]; [1; 1]] m) /\ deriv s m None = Ok (DDn [[1; 0]; [0; 1]]) /\
    forall v, length v = 2%nat -> exists D, deriv s m (Some v) = Ok (DDn D).
Proof. exact dense_product_refuted. Qed.
Print Assumptions C20_dense_product_refuted.
(** A scaling map of unspecified size can be applied but not differentiated. *)
Theorem C20_wildcard_deriv_refuted : forall c m v s,
  smul (Leaf (scal_leaf c)) (Leaf (mkLeaf None None (fun x => x) Same)) = Ok s ->
  apply s m = Ok (vscale c m) /\ deriv s m None = Err ValueError /\ deriv s m (Some v) = Err ValueError.
Proof. exact wildcard_deriv_refuted. Qed.
Print Assumptions C20_wildcard_deriv_refuted.
(** A map of unspecified size between two incompatible ones hides the clash. *)
Theorem C20_wildcard_shape_refuted : forall X Y : leaf,
  lf_in X = Some 3%nat -> lf_out Y = Some 4%nat -> (forall m, length (lf_tr Y m) = 4%nat) ->
  exists s, product (Leaf X) [Leaf (mkLeaf None None (map exp) (ByRow (map exp))); Leaf Y] = Ok s /\ forall m, apply s m = Err ValueError.
Proof. exact wildcard_shape_refuted. Qed.
Print Assumptions C20_wildcard_shape_refuted.
Definition ex_exp : leaf := mkLeaf None None (map exp) (ByMat (fun m => diagm (map exp m))).
Definition ex_lin : leaf := mkLeaf (Some 2%nat) (Some 1%nat) (mv [[3]; [5]]) (ByMat (fun _ => [[3]; [5]])).
Example C20_example : exists s, product (Leaf ex_exp) [Leaf ex_lin] = Ok s /\ s_in s = Some 1%nat /\
  sizes_ok [ex_exp; ex_lin] [1] /\ all_correct [ex_exp; ex_lin] [1] /\
  deriv s [1] (Some [1]) = Ok (DV (mv (diagm (map exp [3 * 1 + 0; 5 * 1 + 0])) [3 * 1 + 0; 5 * 1 + 0])).
Proof.
  eexists. split; [reflexivity|]. split; [reflexivity|]. split; [|split].
  - cbn. repeat split; congruence.
  - split; [split; [exact I|]|].
    + exists 2%nat, (DSp [[3]; [5]]), [[3]; [5]]. split; [lia|]. split; [reflexivity|]. split; [left; reflexivity|].
      apply frechet_linear; [|reflexivity]. split; [reflexivity|]. repeat constructor.
    + exists 2%nat, (DSp (diagm (map exp (mv [[3]; [5]] [1])))), (diagm (map exp (mv [[3]; [5]] [1]))).
      split; [lia|]. split; [reflexivity|]. split; [left; reflexivity|]. apply (frechet_elementwise exp (map exp (mv [[3]; [5]] [1])));
        [|reflexivity]. intros i Hi. rewrite map_nth_lt by assumption. apply derivable_pt_lim_exp.
  - reflexivity.
Qed.
Example C20_refuted_example : lf_in (lin_dense [[1; 2; 3]]) = Some 3%nat /\ lf_out (lin_dense [[1]; [2]; [3]; [4]]) = Some 4%nat.
Proof. split; reflexivity. Qed.

(** C21 *)
Theorem C21_value : forall a l m, sum_init a l = Ok tt -> (forall n, lf_in a = Some n -> length m = n) ->
  (forall b, In b (a :: l) -> length (lf_tr b m) = length (lf_tr a m)) ->
  sum_apply a l m = Ok (sum_vecs (lf_tr a m) (map (fun b => lf_tr b m) l)).
Proof. exact sum_value. Qed.
Print Assumptions C21_value.
(** The first part is not the plain identity map: the derivative of the sum, applied to
    [v], and [v] left as it was. *)
Theorem C21_deriv_partial : forall n k m a l J Js v, is_same a = false -> length v = n -> part_correct n k m a J ->
  Forall2 (part_correct n k m) l Js ->
  sum_deriv_v a l m v = Ok (DV (mv (sum_mats J Js) v), v) /\
  frechet n k (fun y => sum_vecs (lf_tr a y) (map (fun b => lf_tr b y) l)) m (sum_mats J Js).
Proof. exact sum_dv_correct. Qed.
Print Assumptions C21_deriv_partial.
(** Parts whose [deriv] of a sparse matrix is a sparse matrix. *)
Theorem C21_matrix_partial : forall n k m a l J Js, (0 < k)%nat -> length m = n -> lf_in (last l a) = Some n ->
  is_mat k n J -> Forall (is_mat k n) Js ->
  leaf_deriv_v a m (DSp (eye n)) = Ok (DSp J) -> Forall2 (fun b K => leaf_deriv_v b m (DSp (eye n)) = Ok (DSp K)) l Js ->
  sum_deriv a l m = Ok (DSp (sum_mats J Js)).
Proof. exact sum_dm_ok. Qed.
Print Assumptions C21_matrix_partial.
(** The identity three times: four times [v] instead of three, and the caller's [v] is overwritten. *)
Theorem C21_alias_refuted : forall np m v,
  sum_deriv_v (id_leaf np) [id_leaf np; id_leaf np] m v = Ok (DV (vscale 4 v), vscale 4 v).
Proof. exact sum_alias. Qed.
Print Assumptions C21_alias_refuted.
(** With the identity first, the caller's array always ends up holding the result. *)
Theorem C21_argument_overwritten_refuted : forall a l m v d v', is_same a = true -> sum_deriv_v a l m v = Ok (d, v') -> d = DV v'.
Proof. exact sum_alias_gen. Qed.
Print Assumptions C21_argument_overwritten_refuted.
(** A sum of two diagonal maps (weights, logistic) returns a 1-D array for the derivative matrix. *)
Theorem C21_row_refuted : forall (d : vec -> vec) n m, (0 < n)%nat -> length (d m) = n ->
  let b := mkLeaf (Some n) (Some n) (fun x => vmul (d m) x) (ByRow d) in
  sum_deriv b [b] m = Ok (DV (vadd (d m) (d m))).
Proof. exact sum_row_refuted. Qed.
Print Assumptions C21_row_refuted.
Example C21_example : let a := mkLeaf (Some 2%nat) (Some 2%nat) (mv [[3; 0]; [0; 5]]) (ByMat (fun _ => [[3; 0]; [0; 5]])) in
  let b := id_leaf (Some 2%nat) in
  sum_init a [b; b] = Ok tt /\ part_correct 2 2 [1; 1] a [[3; 0]; [0; 5]] /\ part_correct 2 2 [1; 1] b (eye 2).
Proof.
  cbv zeta. split; [reflexivity|]. split; split.
  - apply frechet_linear; [|reflexivity]. split; [reflexivity|]. repeat constructor.
  - intros v Lv. unfold leaf_deriv_v. cbn [lf_dk dmul ncol length]. rewrite Lv. reflexivity.
  - apply frechet_id. reflexivity.
  - intros v Lv. unfold leaf_deriv_v. cbn [lf_dk id_leaf]. rewrite mv_eye by assumption. reflexivity.
Qed.
