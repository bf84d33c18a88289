From Verif Require Import Py Vec VecDeriv Probe SpecProbe.
From Coq Require Import ZArith.
Local Open Scope R_scope.

Lemma vsum_ext {A} (f g : A -> R) l : (forall x, In x l -> f x = g x) -> vsum (map f l) = vsum (map g l).
Proof. intros H. f_equal. apply map_ext_in. assumption. Qed.
Lemma vsum_zero {A} (f : A -> R) l : (forall x, In x l -> f x = 0) -> vsum (map f l) = 0.
Proof. induction l as [|x l IH]; intros H; cbn; [reflexivity|]. rewrite IH by (intros; apply H; right; assumption). rewrite H by (left; reflexivity). ring. Qed.
Lemma vsum_single (f : nat -> R) l i : NoDup l -> In i l -> (forall j, In j l -> j <> i -> f j = 0) -> vsum (map f l) = f i.
Proof.
  induction l as [|x l IH]; intros ND HI H; [destruct HI|]. inversion ND; subst. cbn. destruct HI as [->|HI].
  - rewrite vsum_zero; [ring|]. intros j Hj. apply H; [right; assumption|]. intros ->. contradiction.
  - rewrite IH; [|assumption|assumption|intros; apply H; [right|]; assumption]. rewrite (H x); [ring|left; reflexivity|intros ->; contradiction].
Qed.
Lemma loop_nth f ap n k is : (forall i, In i is -> length (getv ap n k i) = n) -> (forall v, length v = n -> length (f v) = n) ->
  forall Mv vv, length Mv = n -> length vv = n ->
  let r := loop f ap n k is Mv vv in
  length (fst r) = n /\ length (snd r) = n /\ forall i, (i < n)%nat ->
    nth i (fst r) 0 = nth i Mv 0 + vsum (map (fun l => nth i (f (getv ap n k l)) 0 * nth i (getv ap n k l) 0) is) /\
    nth i (snd r) 0 = nth i vv 0 + vsum (map (fun l => nth i (getv ap n k l) 0 * nth i (getv ap n k l) 0) is).
Proof.
  induction is as [|l is IH]; intros HG HF Mv vv L1 L2; cbn [loop fst snd map vsum].
  - split; [assumption|]. split; [assumption|]. intros; split; ring.
  - assert (Lv : length (getv ap n k l) = n) by (apply HG; left; reflexivity). pose proof (HF _ Lv) as Lf.
    assert (LA : length (vmul (f (getv ap n k l)) (getv ap n k l)) = n) by (rewrite vmul_length; congruence).
    assert (LB : length (vmul (getv ap n k l) (getv ap n k l)) = n) by (rewrite vmul_length; congruence).
    destruct (IH (fun i Hi => HG i (or_intror Hi)) HF (vadd Mv (vmul (f (getv ap n k l)) (getv ap n k l))) (vadd vv (vmul (getv ap n k l) (getv ap n k l))))
      as (K1 & K2 & K3); [rewrite vadd_length; congruence|rewrite vadd_length; congruence|].
    split; [exact K1|]. split; [exact K2|]. intros i Hi. destruct (K3 i Hi) as [E1 E2]. cbv zeta in E1, E2. rewrite E1, E2.
    rewrite !nth_vadd, !nth_vmul by congruence. split; ring.
Qed.
Lemma quotients_nth a : forall b i, length a = length b -> (i < length a)%nat -> nth i b 0 <> 0 -> nth i (quotients a b) None = Some (nth i a 0 / nth i b 0).
Proof.
  induction a as [|x a IH]; intros [|y b] i L Hi H; cbn in *; try lia. destruct i as [|i]; [destruct (Req_EM_T y 0); [contradiction|reflexivity]|].
  apply IH; [lia|lia|assumption].
Qed.
Lemma quotients_length a : forall b, length a = length b -> length (quotients a b) = length a.
Proof. induction a as [|x a IH]; intros [|y b] L; cbn in *; try lia. rewrite IH; lia. Qed.
Lemma probe_length n k i : length (probe n k i) = n.
Proof. unfold probe. rewrite map_length, seq_length. reflexivity. Qed.
Lemma probe_nth n k l j : (0 < k)%nat -> (l < k)%nat -> (j < n)%nat -> nth j (probe n k l) 0 = if Nat.eqb (j mod k) l then 1 else 0.
Proof.
  intros Hk Hl Hj. unfold probe.
  rewrite (nth_indep _ 0 ((fun j => if andb (Nat.leb l j) (Nat.eqb ((j - l) mod k) 0) then 1 else 0) 0%nat)) by (rewrite map_length, seq_length; assumption).
  rewrite (map_nth (fun j => if andb (Nat.leb l j) (Nat.eqb ((j - l) mod k) 0) then 1 else 0)). rewrite seq_nth by assumption. cbn [plus].
  assert (E : andb (Nat.leb l j) (Nat.eqb ((j - l) mod k) 0) = Nat.eqb (j mod k) l); [|rewrite E; reflexivity].
  apply Bool.eq_iff_eq_true. rewrite andb_true_iff, Nat.leb_le, !Nat.eqb_eq. split.
  - intros [H1 H2]. apply Nat.mod_divide in H2; [|lia]. destruct H2 as [q Hq]. replace j with (l + q * k)%nat by lia. rewrite Nat.mod_add by lia. apply Nat.mod_small. assumption.
  - intros H. pose proof (Nat.div_mod j k ltac:(lia)) as D. split; [nia|]. replace (j - l)%nat with ((j / k) * k)%nat by nia. apply Nat.mod_mul. lia.
Qed.
Lemma dot_as_sum n : forall r v, length r = n -> length v = n -> dot r v = vsum (map (fun j => nth j r 0 * nth j v 0) (seq 0 n)).
Proof.
  induction n as [|n IH]; intros [|x r] [|y v] L1 L2; cbn in L1, L2; try lia; [reflexivity|]. cbn [dot seq map vsum nth]. f_equal.
  rewrite <- seq_shift, map_map. cbn [nth]. apply IH; lia.
Qed.
Lemma mat_row n A i : is_mat n n A -> (i < n)%nat -> length (nth i A []) = n.
Proof. intros [L H] Hi. rewrite Forall_forall in H. apply H, nth_In. lia. Qed.
Section Square.
  Context (n : nat) (A : mat) (f : vec -> vec) (HA : is_mat n n A) (Hf : forall v, length v = n -> f v = mv A v).
  Lemma f_length v : length v = n -> length (f v) = n.
  Proof. intros L. rewrite Hf by assumption. rewrite mv_length. apply HA. Qed.
  Lemma f_nth v i : length v = n -> (i < n)%nat -> nth i (f v) 0 = sum_cols n (fun j => entry A i j * nth j v 0).
  Proof.
    intros L Hi. rewrite Hf by assumption. rewrite nth_mv by (destruct HA; lia). unfold sum_cols, entry. apply dot_as_sum; [apply mat_row|]; assumption.
  Qed.
  Lemma c43_class k i : (0 < k)%Z -> (i < n)%nat ->
    exists d, estimate_diagonal f n (KInt k) Probing = Ok d /\ length d = n /\ nth i d None = Some (class_sum A n (Z.to_nat k) i).
  Proof.
    intros Hk Hi. unfold estimate_diagonal. cbn [default_k]. set (k' := Z.to_nat k). assert (Hk' : (0 < k')%nat) by lia.
    pose proof (loop_nth f Probing n k' (seq 0 k') (fun i _ => probe_length n k' i) f_length (vzero n) (vzero n) (vzero_length n) (vzero_length n)) as L.
    destruct (loop f Probing n k' (seq 0 k') (vzero n) (vzero n)) as [Mv vv]. cbn [fst snd] in L. destruct L as (L1 & L2 & L3). destruct (L3 i Hi) as [E1 E2].
    eexists. split; [reflexivity|]. split; [rewrite quotients_length; congruence|].
    assert (Him : (i mod k' < k')%nat) by (apply Nat.mod_upper_bound; lia).
    assert (S2 : nth i vv 0 = 1).
    { rewrite E2, nth_zero. rewrite (vsum_single _ _ (i mod k')); [|apply seq_NoDup|apply in_seq; lia|].
      - cbn [getv]. rewrite probe_nth by assumption. rewrite Nat.eqb_refl. ring.
      - intros l Hl Hne. apply in_seq in Hl. cbn [getv]. rewrite probe_nth by (assumption || lia). destruct (Nat.eqb_spec (i mod k') l); [congruence|ring]. }
    rewrite quotients_nth by (try congruence; rewrite S2; lra). rewrite S2, E1, nth_zero. f_equal.
    rewrite (vsum_single _ _ (i mod k')); [|apply seq_NoDup|apply in_seq; lia|].
    - cbn [getv]. rewrite (probe_nth n k' (i mod k') i) by assumption. rewrite Nat.eqb_refl. rewrite f_nth by (try assumption; apply probe_length).
      unfold class_sum, sum_cols. rewrite (vsum_ext _ (fun j => if Nat.eqb (j mod k') (i mod k') then entry A i j else 0)).
      + field.
      + intros j Hj. apply in_seq in Hj. rewrite probe_nth by (assumption || lia). destruct (Nat.eqb (j mod k') (i mod k')); ring.
    - intros l Hl Hne. apply in_seq in Hl. cbn [getv]. rewrite (probe_nth n k' l i) by (assumption || lia). destruct (Nat.eqb_spec (i mod k') l); [congruence|ring].
  Qed.
  Lemma class_exact k i : (0 < k)%nat -> (i < n)%nat -> banded A n k -> class_sum A n k i = entry A i i.
  Proof.
    intros Hk Hi HB. unfold class_sum, sum_cols. rewrite (vsum_single _ _ i); [rewrite Nat.eqb_refl; reflexivity|apply seq_NoDup|apply in_seq; lia|].
    intros j Hj Hne. apply in_seq in Hj. destruct (Nat.eqb_spec (j mod k) (i mod k)) as [E|]; [|reflexivity].
    apply HB; [assumption|lia|]. pose proof (Nat.div_mod i k ltac:(lia)). pose proof (Nat.div_mod j k ltac:(lia)).
    destruct (Nat.lt_trichotomy i j) as [H1|[H1|H1]]; [left|congruence|right].
    - assert (i / k < j / k)%nat by nia. nia.
    - assert (j / k < i / k)%nat by nia. nia.
  Qed.
  Lemma c43_banded k i : (0 < k)%Z -> (i < n)%nat -> banded A n (Z.to_nat k) ->
    exists d, estimate_diagonal f n (KInt k) Probing = Ok d /\ length d = n /\ nth i d None = Some (entry A i i).
  Proof. intros Hk Hi HB. destruct (c43_class k i Hk Hi) as (d & E & L & N). exists d. rewrite <- (class_exact (Z.to_nat k)) by (assumption || lia). auto. Qed.
  Lemma c43_full k i : (Z.of_nat n <= k)%Z -> (i < n)%nat ->
    exists d, estimate_diagonal f n (KInt k) Probing = Ok d /\ length d = n /\ nth i d None = Some (entry A i i).
  Proof. intros Hk Hi. apply c43_banded; [lia|assumption|]. intros a b Ha Hb H. lia. Qed.
  (** random vectors *)
  Lemma rand_entry ap k i : (forall l, (l < Z.to_nat k)%nat -> length (getv ap n (Z.to_nat k) l) = n) -> (i < n)%nat ->
    let v := getv ap n (Z.to_nat k) in
    let s := sum_cols (Z.to_nat k) (fun l => nth i (v l) 0 * nth i (v l) 0) in
    s <> 0 -> exists d, estimate_diagonal f n (KInt k) ap = Ok d /\ length d = n /\
      nth i d None = Some (sum_cols (Z.to_nat k) (fun l => sum_cols n (fun j => entry A i j * nth j (v l) 0) * nth i (v l) 0) / s).
  Proof.
    intros HL Hi v s Hs. unfold estimate_diagonal. cbn [default_k].
    pose proof (loop_nth f ap n (Z.to_nat k) (seq 0 (Z.to_nat k))) as L. specialize (L ltac:(intros l Hl; apply in_seq in Hl; apply HL; lia) f_length (vzero n) (vzero n) (vzero_length n) (vzero_length n)).
    destruct (loop f ap n (Z.to_nat k) (seq 0 (Z.to_nat k)) (vzero n) (vzero n)) as [Mv vv]. cbn [fst snd] in L. destruct L as (L1 & L2 & L3). destruct (L3 i Hi) as [E1 E2].
    eexists. split; [reflexivity|]. split; [rewrite quotients_length; congruence|]. rewrite nth_zero, Rplus_0_l in E1, E2.
    rewrite quotients_nth; [|congruence|congruence|rewrite E2; exact Hs]. rewrite E1, E2. f_equal. fold v. unfold Rdiv. f_equal.
    apply vsum_ext. intros l Hl. apply in_seq in Hl. f_equal. apply f_nth; [apply HL; lia|assumption].
  Qed.
  Lemma c43_diagonal ap k i : (forall l, (l < Z.to_nat k)%nat -> length (getv ap n (Z.to_nat k) l) = n) -> (i < n)%nat ->
    (forall j, (j < n)%nat -> j <> i -> entry A i j = 0) -> (exists l, (l < Z.to_nat k)%nat /\ nth i (getv ap n (Z.to_nat k) l) 0 <> 0) ->
    exists d, estimate_diagonal f n (KInt k) ap = Ok d /\ length d = n /\ nth i d None = Some (entry A i i).
  Proof.
    intros HL Hi HD (l & Hl & Hne). pose proof (rand_entry ap k i HL Hi) as R. cbv zeta in R.
    assert (P : forall L, (forall x, In x L -> 0 <= nth i (getv ap n (Z.to_nat k) x) 0 * nth i (getv ap n (Z.to_nat k) x) 0) -> In l L -> 0 < vsum (map (fun l => nth i (getv ap n (Z.to_nat k) l) 0 * nth i (getv ap n (Z.to_nat k) l) 0) L)).
    { assert (N : forall L, 0 <= vsum (map (fun l => nth i (getv ap n (Z.to_nat k) l) 0 * nth i (getv ap n (Z.to_nat k) l) 0) L)).
      { induction L as [|x L IH]; cbn; [lra|]. pose proof (Rle_0_sqr (nth i (getv ap n (Z.to_nat k) x) 0)). unfold Rsqr in *. lra. }
      induction L as [|x L IH]; intros HP HI; [destruct HI|]. cbn. destruct HI as [->|HI].
      - pose proof (Rsqr_pos_lt _ Hne). unfold Rsqr in *. pose proof (N L). lra.
      - pose proof (IH (fun y Hy => HP y (or_intror Hy)) HI). pose proof (HP x (or_introl eq_refl)). lra. }
    assert (PS : 0 < sum_cols (Z.to_nat k) (fun l => nth i (getv ap n (Z.to_nat k) l) 0 * nth i (getv ap n (Z.to_nat k) l) 0)).
    { apply P; [intros; apply Rle_0_sqr|apply in_seq; lia]. }
    destruct R as (d & E & L & N); [lra|]. exists d. split; [assumption|]. split; [assumption|]. rewrite N. f_equal.
    set (S := sum_cols (Z.to_nat k) (fun l => nth i (getv ap n (Z.to_nat k) l) 0 * nth i (getv ap n (Z.to_nat k) l) 0)) in *.
    assert (EQ : sum_cols (Z.to_nat k) (fun l => sum_cols n (fun j => entry A i j * nth j (getv ap n (Z.to_nat k) l) 0) * nth i (getv ap n (Z.to_nat k) l) 0) = entry A i i * S); [|rewrite EQ; field; lra].
    unfold S, sum_cols at 1 3. generalize (seq 0 (Z.to_nat k)) as Q. clear - HD Hi. induction Q as [|q Q IH]; cbn; [ring|].
    rewrite IH. unfold sum_cols. rewrite (vsum_single _ _ i); [ring|apply seq_NoDup|apply in_seq; lia|]. intros j Hj Hne. apply in_seq in Hj. rewrite HD by (assumption || lia). ring.
  Qed.
  (** vectors of ones and minus ones *)
  Lemma pm1_sq x : pm1 x * pm1 x = 1.
  Proof. unfold pm1. destruct (Rlt_dec x 0); ring. Qed.
  Lemma pm1_abs x : Rabs (pm1 x) = 1.
  Proof. unfold pm1. destruct (Rlt_dec x 0); [rewrite Rabs_left; lra|rewrite Rabs_right; lra]. Qed.
  Lemma vsum_abs {B} (g : B -> R) l : Rabs (vsum (map g l)) <= vsum (map (fun x => Rabs (g x)) l).
  Proof. induction l as [|x l IH]; cbn; [rewrite Rabs_R0; lra|]. pose proof (Rabs_triang (g x) (vsum (map g l))). lra. Qed.
  Lemma vsum_const {B} (c : R) (l : list B) : vsum (map (fun _ => c) l) = INR (length l) * c.
  Proof. induction l as [|x l IH]; [cbn; ring|]. cbn [map vsum length]. rewrite IH, S_INR. ring. Qed.
  Lemma vsum_le {B} (g h : B -> R) l : (forall x, In x l -> g x <= h x) -> vsum (map g l) <= vsum (map h l).
  Proof. induction l as [|x l IH]; intros H; cbn; [lra|]. pose proof (H x (or_introl eq_refl)). pose proof (IH (fun y Hy => H y (or_intror Hy))). lra. Qed.
  Lemma vsum_minus {B} (g h : B -> R) l : vsum (map g l) - vsum (map h l) = vsum (map (fun x => g x - h x) l).
  Proof. induction l as [|x l IH]; cbn; [ring|]. rewrite <- IH. ring. Qed.
  Lemma vsum_split (g : nat -> R) L i : NoDup L -> In i L -> vsum (map g L) = g i + vsum (map (fun j => if Nat.eqb j i then 0 else g j) L).
  Proof.
    induction L as [|x L IH]; intros ND HI; [destruct HI|]. inversion ND; subst. cbn. destruct HI as [->|HI].
    - rewrite Nat.eqb_refl. rewrite (vsum_ext g (fun j => if Nat.eqb j i then 0 else g j) L); [ring|]. intros j Hj. destruct (Nat.eqb_spec j i); [subst; contradiction|reflexivity].
    - rewrite IH by assumption. destruct (Nat.eqb_spec x i); [subst; contradiction|ring].
  Qed.
  Lemma c43_ones draw k i : (forall l, (l < Z.to_nat k)%nat -> length (draw l) = n) -> (i < n)%nat -> (0 < k)%Z ->
    exists d x, estimate_diagonal f n (KInt k) (Ones draw) = Ok d /\ length d = n /\ nth i d None = Some x /\ Rabs (x - entry A i i) <= off_diagonal A n i.
  Proof.
    intros HL Hi Hk. assert (HL' : forall l, (l < Z.to_nat k)%nat -> length (getv (Ones draw) n (Z.to_nat k) l) = n) by (intros l Hl; cbn; rewrite map_length; apply HL; assumption).
    assert (NV : forall l j, (l < Z.to_nat k)%nat -> (j < n)%nat -> nth j (getv (Ones draw) n (Z.to_nat k) l) 0 = pm1 (nth j (draw l) 0)).
    { intros l j Hl Hj. cbn [getv]. apply map_nth_lt. rewrite HL; assumption. }
    pose proof (rand_entry (Ones draw) k i HL' Hi) as R. cbv zeta in R.
    assert (ES : sum_cols (Z.to_nat k) (fun l => nth i (getv (Ones draw) n (Z.to_nat k) l) 0 * nth i (getv (Ones draw) n (Z.to_nat k) l) 0) = INR (Z.to_nat k)).
    { unfold sum_cols. rewrite (vsum_ext _ (fun _ => 1)); [rewrite vsum_const, seq_length; ring|]. intros l Hl. apply in_seq in Hl. rewrite NV by (assumption || lia). apply pm1_sq. }
    assert (PK : 0 < INR (Z.to_nat k)) by (apply lt_0_INR; lia).
    rewrite ES in R. destruct R as (d & E & L & N); [lra|]. exists d. eexists. split; [exact E|]. split; [exact L|]. split; [exact N|].
    match goal with |- Rabs (?X / _ - _) <= _ => set (T := X) end.
    replace (T / INR (Z.to_nat k) - entry A i i) with ((T - INR (Z.to_nat k) * entry A i i) / INR (Z.to_nat k)) by (field; lra).
    unfold Rdiv. rewrite Rabs_mult, (Rabs_right (/ INR (Z.to_nat k))) by (apply Rle_ge, Rlt_le, Rinv_0_lt_compat; lra).
    assert (B : Rabs (T - INR (Z.to_nat k) * entry A i i) <= INR (Z.to_nat k) * off_diagonal A n i).
    { unfold T, sum_cols at 1. rewrite <- (seq_length (Z.to_nat k) 0) at 2. rewrite <- (vsum_const (entry A i i) (seq 0 (Z.to_nat k))).
      rewrite vsum_minus. eapply Rle_trans; [apply vsum_abs|]. rewrite <- (seq_length (Z.to_nat k) 0) at 2. rewrite <- (vsum_const (off_diagonal A n i) (seq 0 (Z.to_nat k))).
      apply vsum_le. intros l Hl. apply in_seq in Hl. unfold sum_cols. rewrite (vsum_split _ _ i) by (try apply seq_NoDup; apply in_seq; lia).
      rewrite NV by (assumption || lia). rewrite Rmult_plus_distr_r, Rmult_assoc, pm1_sq, Rmult_1_r.
      match goal with |- Rabs (?a + ?b - ?a) <= _ => replace (a + b - a) with b by ring end.
      rewrite Rabs_mult, pm1_abs, Rmult_1_r. eapply Rle_trans; [apply vsum_abs|]. apply vsum_le. intros j Hj. apply in_seq in Hj.
      destruct (Nat.eqb j i); [rewrite Rabs_R0; lra|]. rewrite NV by lia. rewrite Rabs_mult, pm1_abs. lra. }
    apply (Rmult_le_reg_r (INR (Z.to_nat k))); [assumption|]. rewrite Rmult_assoc, Rinv_l by lra. lra.
  Qed.
End Square.
Lemma c43_default f n ap : estimate_diagonal f n KNone ap = Err TypeError.
Proof. reflexivity. Qed.
