(** C52: estimates of the largest eigenvalue. *)
From Verif Require Import Py Vec PowerIt SpecPowerIt PowerItFacts.
From Coq Require Import Lra.
Local Open Scope R_scope.

(** C52: the estimate lies within any bounds of the combined quadratic form on unit
    vectors, after any number of iterations from any start. *)
Theorem C52_bounds n ts Ms lo hi x0 k lam : matrices n ts Ms -> length x0 = n ->
  (forall x, length x = n -> lo * dot x x <= form ts Ms x x <= hi * dot x x) ->
  eigenvalue ts x0 k = Some lam -> lo <= lam <= hi.
Proof. intros HM. exact (c52_bounds n ts Ms HM lo hi x0 k lam). Qed.
Print Assumptions C52_bounds.
Example C52_bounds_ex : matrices 2 (two_terms 3 5) two_mats /\ forall x, length x = 2%nat -> 3 * dot x x <= form (two_terms 3 5) two_mats x x <= 5 * dot x x.
Proof.
  split; [repeat constructor|]. intros [|x [|y [|]]] L; try discriminate. unfold form, two_terms, two_mats. cbn.
  pose proof (Rle_0_sqr x). pose proof (Rle_0_sqr y). unfold Rsqr in *. nra.
Qed.
(** Exact from an eigenvector. *)
Theorem C52_eigenvector n ts Ms lam x0 k : matrices n ts Ms -> eigenvector n ts Ms lam x0 -> lam <> 0 -> eigenvalue ts x0 k = Some lam.
Proof. intros HM. exact (c52_eigen n ts Ms HM lam x0 k). Qed.
Print Assumptions C52_eigenvector.
Example C52_eigenvector_ex : eigenvector 2 (two_terms 3 5) two_mats 5 [0; 2].
Proof.
  split; [reflexivity|]. split; [intros H; injection H as H; lra|]. intros [|x [|y [|]]] L; try discriminate. unfold form, two_terms, two_mats. cbn. ring.
Qed.
(** More iterations never decrease the estimate of a symmetric semidefinite combination. *)
Theorem C52_monotone n ts Ms x0 k l1 l2 : matrices n ts Ms -> symmetric n ts Ms -> semidefinite n ts Ms -> length x0 = n ->
  eigenvalue ts x0 k = Some l1 -> eigenvalue ts x0 (S k) = Some l2 -> l1 <= l2.
Proof. intros HM HS HP. exact (c52_monotone n ts Ms HM HS HP x0 k l1 l2). Qed.
Print Assumptions C52_monotone.
Example C52_monotone_ex : symmetric 2 (two_terms 3 5) two_mats /\ semidefinite 2 (two_terms 3 5) two_mats.
Proof.
  split; [intros [|x [|y [|]]] [|x' [|y' [|]]] L L'; try discriminate|intros [|x [|y [|]]] L; try discriminate]; unfold form, two_terms, two_mats; cbn; [ring|].
  pose proof (Rle_0_sqr x). pose proof (Rle_0_sqr y). unfold Rsqr in *. nra.
Qed.
(** ... and it converges to the largest eigenvalue [lam] from every start that is not
    orthogonal to an eigenvector of [lam]. *)
Theorem C52_converges n ts Ms lam e x0 : matrices n ts Ms -> symmetric n ts Ms -> semidefinite n ts Ms ->
  0 < lam -> eigenvector n ts Ms lam e -> (forall x, length x = n -> form ts Ms x x <= lam * dot x x) ->
  length x0 = n -> dot e x0 <> 0 ->
  exists l, (forall k, eigenvalue ts x0 k = Some (l k)) /\ Un_cv l lam.
Proof. intros HM HS HP. exact (c52_converges n ts Ms HM HS HP lam e x0). Qed.
Print Assumptions C52_converges.
Example C52_converges_ex : (forall x, length x = 2%nat -> form (two_terms 3 5) two_mats x x <= 5 * dot x x) /\ dot [0; 2] [1; 1] <> 0.
Proof. split; [intros x L; apply C52_bounds_ex; assumption|cbn; lra]. Qed.
(** It scales with the multipliers. *)
Theorem C52_scaled n c ts Ms x0 k lam : matrices n ts Ms -> length x0 = n -> 0 < c ->
  eigenvalue ts x0 k = Some lam -> eigenvalue (scaled c ts) x0 k = Some (c * lam).
Proof. exact (c52_scaled n c ts Ms x0 k lam). Qed.
Print Assumptions C52_scaled.
(** Finding: for an indefinite second derivative the estimate need not approach the largest
    eigenvalue in absolute value: for diag(1, -1) from (3, 4) it is -7/25 for ever. *)
Theorem C52_indefinite_refuted : exists n ts Ms x0 mu, matrices n ts Ms /\ symmetric n ts Ms /\ length x0 = n /\ Rabs mu < 1 /\
  (exists e, eigenvector n ts Ms 1 e /\ dot e x0 <> 0) /\ forall k, eigenvalue ts x0 k = Some mu.
Proof. exact c52_indefinite_witness. Qed.
Print Assumptions C52_indefinite_refuted.
