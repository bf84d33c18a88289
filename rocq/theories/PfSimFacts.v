(** Algebra of amplitude data and of the diagonal. *)
From Verif Require Import PfSim SpecPfSim PfFacts PfFacts2 PfFacts3 PfFacts4 PfFacts6 VecDeriv.
Local Open Scope R_scope.

Definition at3 {A} (d : A) (v : list A) (i : nat) : A * A * A := (nth (3 * i) v d, nth (3 * i + 1) v d, nth (3 * i + 2) v d).
Lemma seq_S n : seq 0 (S n) = 0%nat :: map S (seq 0 n).
Proof. cbn [seq]. f_equal. symmetry. apply seq_shift. Qed.
Lemma at3_cons {A} (d a b c : A) v i : at3 d (a :: b :: c :: v) (S i) = at3 d v i.
Proof.
  unfold at3. replace (3 * S i)%nat with (S (S (S (3 * i)))) by lia.
  cbn [Nat.add nth]. reflexivity.
Qed.
Lemma group3_ok {A} (d : A) n : forall v, length v = (3 * n)%nat -> group3 v = Ok (map (at3 d v) (seq 0 n)).
Proof.
  induction n as [|n IH]; intros v L.
  - destruct v; [reflexivity|cbn in L; lia].
  - destruct v as [|a [|b [|c v]]]; cbn in L; try lia.
    rewrite seq_S. cbn [group3 map]. rewrite (IH v) by lia. cbn [bind]. f_equal. f_equal.
    rewrite map_map. apply map_ext. intros i. symmetry. apply at3_cons.
Qed.
Lemma cmb_map_l {A B C} (f : A -> B) : forall (l : list A) (k : list C), combine (map f l) k = map (fun p => (f (fst p), snd p)) (combine l k).
Proof. induction l as [|a l IH]; intros [|c k]; try reflexivity. cbn [map combine fst snd]. f_equal. apply IH. Qed.
Lemma dot_nil_r0 (u : vec) : dot u [] = 0.
Proof. destruct u; reflexivity. Qed.
Lemma nth_nil0 {A} i (d : A) : nth i [] d = d.
Proof. destruct i; reflexivity. Qed.
Lemma div3 n : (3 * n / 3)%nat = n.
Proof. rewrite Nat.mul_comm. apply Nat.div_mul. lia. Qed.
Lemma norm_at3 v i : norm3 (at3 0 v i) = sqrt (nth (3 * i) v 0 * nth (3 * i) v 0 + nth (3 * i + 1) v 0 * nth (3 * i + 1) v 0 + nth (3 * i + 2) v 0 * nth (3 * i + 2) v 0).
Proof. reflexivity. Qed.
Lemma amplitude_ok v n : length v = (3 * n)%nat -> compute_amplitude v = Ok (amplitudes v).
Proof.
  intros L. unfold compute_amplitude, amplitudes. rewrite (group3_ok 0 n) by exact L. cbn [bind].
  rewrite L, div3, map_map. reflexivity.
Qed.
Lemma amplitudes_length v n : length v = (3 * n)%nat -> length (amplitudes v) = n.
Proof. intros L. unfold amplitudes. rewrite map_length, seq_length, L. apply div3. Qed.
Lemma nth_map_seq {A} (f : nat -> A) n i d : (i < n)%nat -> nth i (map f (seq 0 n)) d = f i.
Proof.
  intros H. rewrite (nth_indep _ d (f 0%nat)) by (rewrite map_length, seq_length; exact H).
  rewrite map_nth. rewrite seq_nth by exact H. reflexivity.
Qed.
Lemma nth_amplitudes v n i : length v = (3 * n)%nat -> (i < n)%nat -> nth i (amplitudes v) 0 = norm3 (at3 0 v i).
Proof. intros L H. unfold amplitudes. rewrite L, div3. rewrite nth_map_seq by exact H. reflexivity. Qed.
(** The unit vectors. *)
Definition unit3 (v : vec) (n : nat) : list (R * R * R) := map (fun i => over3 (at3 0 v i)) (seq 0 n).
Lemma normalized_ok v n : length v = (3 * n)%nat -> normalized_fields v = Ok (unit3 v n).
Proof. intros L. unfold normalized_fields. rewrite (group3_ok 0 n) by exact L. cbn [bind]. rewrite map_map. reflexivity. Qed.
Lemma along3_map {A} (f g : A -> R * R * R) l : along3 (map f l) (map g l) = Ok (map (fun i => dot3 (f i) (g i)) l).
Proof. induction l as [|a l IH]; [reflexivity|]. cbn [map along3]. rewrite IH. reflexivity. Qed.
Lemma spread3_dot {A} (f : A -> R * R * R) : forall l v, length v = length l ->
  exists u, spread3 (map f l) v = Ok u /\ length u = (3 * length l)%nat /\
    forall x, dot u x = dot (map (fun ij => dot3 (f (snd ij)) (at3 0 x (fst ij))) (combine (seq 0 (length l)) l)) v.
Proof.
  induction l as [|a l IH]; intros [|y v] L; cbn in L; try lia.
  - exists []. split; [reflexivity|]. split; [reflexivity|]. intros; reflexivity.
  - destruct (IH v ltac:(lia)) as (u & E & Lu & D). cbn [map spread3]. destruct (f a) as [[p q] r] eqn:Ef.
    rewrite E. cbn [bind]. eexists. split; [reflexivity|]. split; [cbn [length]; lia|]. intros x.
    assert (Hx : exists x0 x1 x2 x', dot (p * y :: q * y :: r * y :: u) x = p * y * x0 + (q * y * x1 + (r * y * x2 + dot u x')) /\
       at3 0 x 0%nat = (x0, x1, x2) /\ (forall i, at3 0 x (S i) = at3 0 x' i)).
    { destruct x as [|x0 [|x1 [|x2 x']]].
      - exists 0, 0, 0, []. split; [cbn [dot]; rewrite dot_nil_r0; ring|]. split; [reflexivity|]. intros i. unfold at3. rewrite !nth_nil0. reflexivity.
      - exists x0, 0, 0, []. split; [cbn [dot]; rewrite dot_nil_r0; ring|]. split; [reflexivity|]. intros i. unfold at3.
        rewrite !nth_nil0. rewrite !nth_overflow by (cbn [length]; lia). reflexivity.
      - exists x0, x1, 0, []. split; [cbn [dot]; rewrite dot_nil_r0; ring|]. split; [reflexivity|]. intros i. unfold at3.
        rewrite !nth_nil0. rewrite !nth_overflow by (cbn [length]; lia). reflexivity.
      - exists x0, x1, x2, x'. split; [reflexivity|]. split; [reflexivity|]. intros i. apply at3_cons. }
    destruct Hx as (x0 & x1 & x2 & x' & E1 & E2 & H3). rewrite E1.
    cbn [length]. rewrite seq_S. cbn [combine map dot fst snd]. rewrite Ef, E2.
    rewrite cmb_map_l, map_map. cbn [dot3]. rewrite D.
    match goal with |- _ = _ + ?t => replace t with (dot (map (fun ij => dot3 (f (snd ij)) (at3 0 x' (fst ij))) (combine (seq 0 (length l)) l)) v) end.
    + ring.
    + f_equal. apply map_ext. intros [i b]. cbn [fst snd]. rewrite H3. reflexivity.
Qed.

Definition comb3 (c : R * R * R) (g : vec * vec * vec) : vec :=
  let '(x, y, z) := c in let '(gx, gy, gz) := g in vadd (vadd (vscale x gx) (vscale y gy)) (vscale z gz).
Definition rows3 (D : nat -> R * R * R) (G : mat) (n : nat) : mat := map (fun i => comb3 (D i) (at3 [] G i)) (seq 0 n).
Lemma nth_mv0 (G : mat) x j : nth j (mv G x) 0 = dot (nth j G []) x.
Proof. revert j; induction G as [|r G IH]; intros [|j]; try reflexivity. apply IH. Qed.
Lemma row_len N nC (G : mat) j : is_mat N nC G -> (j < N)%nat -> length (nth j G []) = nC.
Proof. intros [L H] Hj. rewrite Forall_forall in H. apply H, nth_In. lia. Qed.
Section Rows3.
  Variables (n nC : nat) (G : mat).
  Hypothesis HG : is_mat (3 * n) nC G.
  Lemma comb3_length c i : (i < n)%nat -> length (comb3 c (at3 [] G i)) = nC.
  Proof.
    intros Hi. destruct c as [[x y] z]. unfold comb3, at3.
    assert (A : forall j, (j < 3 * n)%nat -> length (nth j G []) = nC) by (intros; eapply row_len; eauto).
    rewrite !vadd_length; rewrite ?vscale_length, ?vadd_length, ?vscale_length; rewrite ?A by lia; try reflexivity.
    all: rewrite ?vscale_length, ?A by lia; reflexivity.
  Qed.
  Lemma comb3_dot c i x : (i < n)%nat -> dot (comb3 c (at3 [] G i)) x = dot3 c (at3 0 (mv G x) i).
  Proof.
    intros Hi. destruct c as [[p q] r]. unfold comb3, at3, dot3. rewrite !nth_mv0.
    assert (A : forall j, (j < 3 * n)%nat -> length (nth j G []) = nC) by (intros; eapply row_len; eauto).
    assert (B : length (vscale p (nth (3 * i) G [])) = length (vscale q (nth (3 * i + 1) G []))) by (rewrite !vscale_length, !A by lia; reflexivity).
    rewrite dot_vadd_l; [|rewrite vadd_length by exact B; rewrite !vscale_length, !A by lia; reflexivity].
    rewrite dot_vadd_l by exact B. rewrite !dot_vscale_l. ring.
  Qed.
  Lemma rows3_mat D : is_mat n nC (rows3 D G n).
  Proof.
    split; [unfold rows3; rewrite map_length, seq_length; reflexivity|]. apply Forall_forall. intros r Hr.
    apply in_map_iff in Hr. destruct Hr as (i & <- & Hi). apply in_seq in Hi. apply comb3_length. lia.
  Qed.
  Lemma rows3_mv D x : mv (rows3 D G n) x = map (fun i => dot3 (D i) (at3 0 (mv G x) i)) (seq 0 n).
  Proof.
    unfold mv at 1, rows3. rewrite map_map. apply map_ext_in. intros i Hi. apply in_seq in Hi. apply comb3_dot. lia.
  Qed.
  Lemma along3_mv D x : along3 (map D (seq 0 n)) (map (at3 0 (mv G x)) (seq 0 n)) = Ok (mv (rows3 D G n) x).
  Proof. rewrite along3_map, rows3_mv. reflexivity. Qed.
  Lemma spread3_mtv D v : length v = n -> exists u, spread3 (map D (seq 0 n)) v = Ok u /\ length u = (3 * n)%nat /\ mtv nC G u = mtv nC (rows3 D G n) v.
  Proof.
    intros L. destruct (spread3_dot D (seq 0 n) v) as (u & E & Lu & Du); [rewrite seq_length; exact L|].
    rewrite seq_length in Lu, Du. exists u. split; [exact E|]. split; [exact Lu|].
    apply dot_ext; [rewrite (mtv_length _ _ _ _ HG), (mtv_length _ _ _ _ (rows3_mat D)); reflexivity|]. intros x Lx.
    rewrite (mtv_length _ _ _ _ HG) in Lx.
    rewrite <- (mv_mtv_adjoint _ _ _ _ _ HG) by assumption. rewrite Du.
    rewrite <- (mv_mtv_adjoint _ _ _ _ _ (rows3_mat D)) by assumption. rewrite dot_comm. f_equal.
    rewrite rows3_mv. rewrite <- (map_id (seq 0 n)) at 1 2. rewrite combine_map2, map_map. reflexivity.
  Qed.
  Lemma vadd_zero_r0 (a : vec) k : length a = k -> vadd a (vzero k) = a.
  Proof. intros <-. induction a as [|x a IH]; [reflexivity|]. cbn [length vzero vconst repeat vadd zipw]. f_equal; [ring|exact IH]. Qed.
  Lemma vadd_assoc0 : forall a b c : vec, vadd (vadd a b) c = vadd a (vadd b c).
  Proof. induction a as [|x a IH]; intros [|y b] [|z c]; try reflexivity. cbn [vadd zipw]. f_equal; [ring|apply IH]. Qed.
  Lemma square_row a (row : vec) : vscale a (vmul row row) = map (fun g => a * (g * g)) row.
  Proof. induction row as [|x row IH]; [reflexivity|]. cbn [vmul zipw vscale map]. f_equal. exact IH. Qed.
  Lemma amp_gtg_ok (f : nat -> R * R * R) : forall l w acc, (forall i, In i l -> (i < n)%nat) -> length w = length l -> length acc = nC ->
    amp_gtg nC w (map f l) (map (at3 [] G) l) acc = Ok (vadd acc (weighted_diagonal nC (map (fun i => comb3 (f i) (at3 [] G i)) l) w)).
  Proof.
    induction l as [|i l IH]; intros [|a w] acc Hl L La; cbn in L; try lia.
    - cbn [map amp_gtg weighted_diagonal]. rewrite vadd_zero_r0 by exact La. reflexivity.
    - cbn [map amp_gtg weighted_diagonal]. destruct (f i) as [[x y] z] eqn:Ef. destruct (at3 [] G i) as [[gx gy] gz] eqn:Eg.
      cbv zeta. cbn [comb3]. rewrite IH; [|intros; apply Hl; right; assumption|lia|].
      + rewrite square_row, vadd_assoc0. reflexivity.
      + assert (Q : length (comb3 (x, y, z) (gx, gy, gz)) = nC) by (rewrite <- Eg; apply comb3_length, Hl; left; reflexivity). cbn [comb3] in Q.
        rewrite square_row. rewrite vadd_length; [exact La|]. rewrite map_length. rewrite Q. exact La.
  Qed.
End Rows3.

(** Products of the two factors. *)
Lemma mv_matmul (A B : mat) N n k v : is_mat N n A -> is_mat n k B -> length v = k -> mv (map (mtv k B) A) v = mv A (mv B v).
Proof.
  intros [_ HA] HB L. unfold mv at 1 2. rewrite map_map. apply map_ext_in. intros r Hr. rewrite Forall_forall in HA.
  rewrite <- (mv_mtv_adjoint n k B r v HB (HA _ Hr) L). reflexivity.
Qed.
Lemma matmul_mat (A B : mat) N n k : is_mat N n A -> is_mat n k B -> is_mat N k (map (mtv k B) A).
Proof.
  intros [LA _] HB. split; [rewrite map_length; exact LA|]. apply Forall_forall. intros r Hr. apply in_map_iff in Hr.
  destruct Hr as (x & <- & _). exact (mtv_length n k B x HB).
Qed.
Lemma mtv_matmul (A B : mat) N n k v : is_mat N n A -> is_mat n k B -> length v = N -> mtv k B (mtv n A v) = mtv k (map (mtv k B) A) v.
Proof.
  intros HA HB L. pose proof (matmul_mat A B N n k HA HB) as HC.
  apply dot_ext; [rewrite (mtv_length n k B _ HB), (mtv_length N k _ _ HC); reflexivity|]. intros x Lx. rewrite (mtv_length n k B _ HB) in Lx.
  rewrite <- (mv_mtv_adjoint n k B _ x HB) by (try exact Lx; apply (mtv_length N n A v HA)).
  rewrite <- (mv_mtv_adjoint N n A v _ HA L) by (rewrite mv_length; apply HB).
  rewrite <- (mv_mtv_adjoint N k _ v x HC L Lx). rewrite (mv_matmul A B N n k x HA HB Lx). reflexivity.
Qed.

(** The diagonal when a parameter feeds at most one cell. *)
Lemma einsum_diag nC : forall w (G : mat), einsum nC w G = weighted_diagonal nC G w.
Proof.
  induction w as [|a w IH]; intros [|r G]; try reflexivity. cbn [einsum weighted_diagonal]. rewrite IH. f_equal.
  apply map_ext. intros g. ring.
Qed.
Lemma wdiag_nonneg n : forall (G : mat) w, Forall (fun r => length r = n) G -> Forall (fun a => 0 <= a) w -> length (weighted_diagonal n G w) = n /\ Forall (fun a => 0 <= a) (weighted_diagonal n G w).
Proof.
  induction G as [|r G IH]; intros w HG Hw.
  - cbn [weighted_diagonal]. split; [apply vzero_length|]. apply Forall_forall. intros x Hx. apply repeat_spec in Hx. lra.
  - destruct w as [|a w]; cbn [weighted_diagonal].
    + split; [apply vzero_length|]. apply Forall_forall. intros x Hx. apply repeat_spec in Hx. lra.
    + inversion HG as [|? ? Hr HG']; subst. inversion Hw as [|? ? Ha Hw']; subst. destruct (IH w HG' Hw') as [L P].
      split; [rewrite vadd_length; rewrite map_length; congruence|].
      apply Forall_forall. intros z Hz. destruct (In_nth _ _ 0 Hz) as (q & _ & <-). rewrite nth_add by (rewrite map_length; congruence).
      rewrite (nth_map0 (fun g => a * (g * g))) by ring.
      assert (0 <= nth q (weighted_diagonal (length r) G w) 0).
      { destruct (Nat.lt_ge_cases q (length (weighted_diagonal (length r) G w))) as [Hq|Hq].
        - rewrite Forall_forall in P. apply P, nth_In, Hq.
        - rewrite nth_overflow by exact Hq. lra. }
      nra.
Qed.
Lemma sqrt_colsum_ok n : forall g (J : mat), Forall (fun a => 0 <= a) g -> sqrt_colsum n g J = weighted_diagonal n J g.
Proof.
  intros g J H. revert J; induction H as [|a g Ha Hg IH]; intros [|r J]; try reflexivity.
  cbn [sqrt_colsum weighted_diagonal]. rewrite IH. f_equal. apply map_ext. intros x.
  replace (sqrt a * x * (sqrt a * x)) with (sqrt a * sqrt a * (x * x)) by ring. rewrite sqrt_sqrt by exact Ha. reflexivity.
Qed.
Definition at_most_one (b : vec) : Prop := forall i j, nth i b 0 <> 0 -> nth j b 0 <> 0 -> i = j.
Lemma zeros_dot (b : vec) : (forall i, nth i b 0 = 0) -> forall a, dot b a = 0.
Proof.
  induction b as [|x b IH]; intros H [|y a]; try reflexivity. cbn [dot].
  rewrite IH by (intros i; exact (H (S i))). rewrite (H 0%nat : x = 0). ring.
Qed.
Lemma one_square : forall b a : vec, at_most_one b -> dot b a * dot b a = dot (map (fun x => x * x) b) (map (fun x => x * x) a).
Proof.
  induction b as [|x b IH]; intros [|y a] H; cbn [map dot]; try ring.
  assert (H' : at_most_one b) by (intros i j Hi Hj; apply (Nat.succ_inj i j), (H (S i) (S j) Hi Hj)).
  specialize (IH a H'). destruct (Req_EM_T x 0) as [->|Nx].
  - rewrite <- IH. ring.
  - assert (Z : forall i, nth i b 0 = 0).
    { intros i. destruct (Req_EM_T (nth i b 0) 0) as [E|E]; [exact E|]. specialize (H 0%nat (S i) Nx E). discriminate. }
    rewrite <- IH. rewrite (zeros_dot b Z). ring.
Qed.
Lemma diag_chain (J : mat) n k : is_mat n k J -> one_per_column J -> forall (A : mat) N w, is_mat N n A ->
  weighted_diagonal k J (weighted_diagonal n A w) = weighted_diagonal k (map (mtv k J) A) w.
Proof.
  intros HJ H1 A N w HA. pose proof (matmul_mat A J N n k HA HJ) as HC. destruct HJ as [LJ FJ].
  destruct (nth_wdiag k J FJ (weighted_diagonal n A w)) as [L1 N1].
  destruct (nth_wdiag k _ (proj2 HC) w) as [L2 N2].
  apply list_nth_ext; [congruence|]. intros c. rewrite N1, N2. clear N1 N2 L1 L2 HC.
  set (b := map (fun r => nth c r 0) J).
  replace (map (fun r => nth c r 0 * nth c r 0) J) with (map (fun x => x * x) b) by (unfold b; rewrite map_map; reflexivity).
  rewrite map_map.
  assert (Ho : at_most_one b).
  { intros i j Hi Hj. unfold b in Hi, Hj.
    assert (Q : forall i, nth i (map (fun r : vec => nth c r 0) J) 0 = nth c (nth i J []) 0).
    { clear. induction J as [|r J IH]; intros [|q]; cbn [map nth]; try (destruct c; reflexivity); try reflexivity; apply IH. }
    apply (H1 c i j); rewrite <- Q; assumption. }
  assert (Lb : length b = n) by (unfold b; rewrite map_length; exact LJ).
  destruct HA as [_ FA]. clear N. revert w. induction FA as [|a A Ha FA IH]; intros w.
  - cbn [weighted_diagonal map dot]. rewrite dot_comm. apply dot_zero_l.
  - destruct w as [|x w].
    + cbn [weighted_diagonal map dot]. rewrite dot_comm. apply dot_zero_l.
    + cbn [weighted_diagonal map dot]. rewrite <- IH. rewrite (nth_mtv k J FJ). fold b.
      rewrite (one_square b a Ho).
      destruct (nth_wdiag n A FA w) as [LD _].
      rewrite dot_vadd_r by (rewrite ?map_length; congruence).
      replace (map (fun g => x * (g * g)) a) with (vscale x (map (fun x => x * x) a)) by (unfold vscale; rewrite map_map; reflexivity).
      rewrite dot_vscale_r. ring.
Qed.
