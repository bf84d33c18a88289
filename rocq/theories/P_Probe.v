(** C43: estimates of the diagonal of a matrix. *)
From Verif Require Import Py Vec Probe SpecProbe ProbeFacts.
From Coq Require Import ZArith.
Local Open Scope R_scope.

(** C43: with probing entry i is the sum of A[i,j] over the columns j congruent to i
    modulo k, for every square matrix, given as an array or as a function. *)
Theorem C43_class n A f k i : is_mat n n A -> (forall v, length v = n -> f v = mv A v) -> (0 < k)%Z -> (i < n)%nat ->
  exists d, estimate_diagonal f n (KInt k) Probing = Ok d /\ length d = n /\ nth i d None = Some (class_sum A n (Z.to_nat k) i).
Proof. intros HA Hf. exact (c43_class n A f HA Hf k i). Qed.
Print Assumptions C43_class.
Example C43_class_ex : class_sum [[1; 2; 3]; [4; 5; 6]; [7; 8; 9]] 3 2 0 = 4.
Proof. unfold class_sum, sum_cols, entry. cbn. ring. Qed.
(** Exact when nothing lies at distance k or more from the diagonal, and for k >= n. *)
Theorem C43_banded n A f k i : is_mat n n A -> (forall v, length v = n -> f v = mv A v) -> (0 < k)%Z -> (i < n)%nat ->
  banded A n (Z.to_nat k) ->
  exists d, estimate_diagonal f n (KInt k) Probing = Ok d /\ length d = n /\ nth i d None = Some (entry A i i).
Proof. intros HA Hf. exact (c43_banded n A f HA Hf k i). Qed.
Print Assumptions C43_banded.
Example C43_banded_ex : banded [[1; 2; 0]; [4; 5; 6]; [0; 8; 9]] 3 2.
Proof. intros [|[|[|i]]] [|[|[|j]]] Hi Hj H; try lia; reflexivity. Qed.
Theorem C43_full n A f k i : is_mat n n A -> (forall v, length v = n -> f v = mv A v) -> (Z.of_nat n <= k)%Z -> (i < n)%nat ->
  exists d, estimate_diagonal f n (KInt k) Probing = Ok d /\ length d = n /\ nth i d None = Some (entry A i i).
Proof. intros HA Hf. exact (c43_full n A f HA Hf k i). Qed.
Print Assumptions C43_full.
(** With random vectors, whatever is drawn: exact on rows without other entries, and for
    vectors of ones and minus ones never off by more than the other entries of the row. *)
Theorem C43_diagonal n A f ap k i : is_mat n n A -> (forall v, length v = n -> f v = mv A v) ->
  (forall l, (l < Z.to_nat k)%nat -> length (getv ap n (Z.to_nat k) l) = n) -> (i < n)%nat ->
  (forall j, (j < n)%nat -> j <> i -> entry A i j = 0) -> (exists l, (l < Z.to_nat k)%nat /\ nth i (getv ap n (Z.to_nat k) l) 0 <> 0) ->
  exists d, estimate_diagonal f n (KInt k) ap = Ok d /\ length d = n /\ nth i d None = Some (entry A i i).
Proof. intros HA Hf. exact (c43_diagonal n A f HA Hf ap k i). Qed.
Print Assumptions C43_diagonal.
Theorem C43_ones n A f draw k i : is_mat n n A -> (forall v, length v = n -> f v = mv A v) ->
  (forall l, (l < Z.to_nat k)%nat -> length (draw l) = n) -> (i < n)%nat -> (0 < k)%Z ->
  exists d x, estimate_diagonal f n (KInt k) (Ones draw) = Ok d /\ length d = n /\ nth i d None = Some x /\
    Rabs (x - entry A i i) <= off_diagonal A n i.
Proof. intros HA Hf. exact (c43_ones n A f HA Hf draw k i). Qed.
Print Assumptions C43_ones.
Example C43_ones_ex : is_mat 2 2 [[1; 2]; [3; 4]] /\ (forall l, (l < Z.to_nat 3)%nat -> length [-(1); INR l] = 2%nat).
Proof. split; [split; [reflexivity|repeat constructor]|reflexivity]. Qed.
(** C43, finding: without k every call raises, the default being a float. *)
Theorem C43_default_refuted f n ap : estimate_diagonal f n KNone ap = Err TypeError.
Proof. exact (c43_default f n ap). Qed.
Print Assumptions C43_default_refuted.
