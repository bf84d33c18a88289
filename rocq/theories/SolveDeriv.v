(** Derivative of the solution of a linear system that depends on a parameter. Pure mathematics. *)
From Verif Require Import Py Vec VecDeriv Frechet RichardsFacts.
From Coq Require Import Lra Lia.
Local Open Scope R_scope.

(** [f] is linear from vectors of length [n] to vectors of length [k]. *)
Definition lin_map (n k : nat) (f : vec -> vec) : Prop :=
  (forall a, length a = n -> length (f a) = k) /\
  (forall a b, length a = n -> length b = n -> f (vadd a b) = vadd (f a) (f b)) /\
  (forall c a, length a = n -> f (vscale c a) = vscale c (f a)).

Lemma lin_sub n k f a b : lin_map n k f -> length a = n -> length b = n -> f (vsub a b) = vsub (f a) (f b).
Proof. intros (_ & A & C) La Lb. rewrite !vsub_as_add. rewrite A by (rewrite ?vscale_length; auto). rewrite C by auto. reflexivity. Qed.
Lemma lin_opp n k f a : lin_map n k f -> length a = n -> f (vopp a) = vopp (f a).
Proof. intros (_ & A & C) La. rewrite !vopp_scale. auto. Qed.
Lemma lin_zero n k f : lin_map n k f -> f (vzero n) = vzero k.
Proof. intros (L & A & C). rewrite <- (vscale_vzero 0 n) at 1. rewrite C by apply vzero_length. rewrite vscale_0. rewrite L by apply vzero_length. reflexivity. Qed.

(** ** The derivative in terms of a norm *)
Lemma vderiv_norm n f f' : vderiv n f 0 f' <-> ((forall t, length (f t) = n) /\ length f' = n /\
  forall eps, 0 < eps -> exists d, 0 < d /\ forall h, Rabs h < d -> norm1 (vsub (vsub (f h) (f 0)) (vscale h f')) <= eps * Rabs h).
Proof.
  split; intros (L & L' & D); (split; [exact L|]; split; [exact L'|]).
  - intros eps He.
    assert (He' : 0 < eps / (INR n + 1)). { apply Rdiv_lt_0_compat; [exact He|]. pose proof (pos_INR n). lra. }
    destruct (finite_min (fun i d => forall h, Rabs h < d -> Rabs (nth i (f h) 0 - nth i (f 0) 0 - h * nth i f' 0) <= eps / (INR n + 1) * Rabs h) n) as (d & Hd & H).
    + intros i d d' Q Hd h Hh. apply Q. lra.
    + intros i Hi. destruct (D i Hi _ He') as [d Hd]. exists d. split; [apply cond_pos|]. intros h Hh.
      destruct (Req_dec h 0) as [->|N]. { rewrite Rabs_R0. replace (_ - _ - _) with 0 by ring. rewrite Rabs_R0. lra. }
      specialize (Hd h N Hh). rewrite Rplus_0_l in Hd.
      replace (nth i (f h) 0 - nth i (f 0) 0 - h * nth i f' 0) with (((nth i (f h) 0 - nth i (f 0) 0) / h - nth i f' 0) * h) by (field; exact N).
      rewrite Rabs_mult. apply Rmult_le_compat_r; [apply Rabs_pos|lra].
    + exists d. split; [exact Hd|]. intros h Hh.
      assert (Lv : length (vsub (vsub (f h) (f 0)) (vscale h f')) = n) by (rewrite vsub_length; rewrite ?vsub_length, ?vscale_length; rewrite ?L; auto).
      eapply Rle_trans; [apply (norm1_components (eps / (INR n + 1) * Rabs h) _ n Lv)|].
      * intros i Hi. rewrite nth_vsub by (rewrite ?vsub_length, ?vscale_length; rewrite ?L; auto). rewrite nth_vsub by (rewrite ?L; auto). rewrite nth_vscale. apply H; assumption.
      * pose proof (pos_INR n). pose proof (Rabs_pos h). rewrite <- Rmult_assoc. apply Rmult_le_compat_r; [assumption|].
        replace (INR n * (eps / (INR n + 1))) with (eps * (INR n / (INR n + 1))) by (field; lra).
        rewrite <- (Rmult_1_r eps) at 2. apply Rmult_le_compat_l; [lra|]. apply Rmult_le_reg_r with (INR n + 1); [lra|]. unfold Rdiv. rewrite Rmult_assoc, Rinv_l by lra. lra.
  - intros i Hi eps He. destruct (D (eps / 2) ltac:(lra)) as (d & Hd & H). exists (mkposreal d Hd). intros h N Hh. cbn in Hh. rewrite Rplus_0_l.
    specialize (H h Hh). pose proof (norm1_nth (vsub (vsub (f h) (f 0)) (vscale h f')) i) as Q.
    rewrite nth_vsub in Q by (rewrite ?vsub_length, ?vscale_length; rewrite ?L; auto). rewrite nth_vsub in Q by (rewrite ?L; auto). rewrite nth_vscale in Q.
    replace ((nth i (f h) 0 - nth i (f 0) 0) / h - nth i f' 0) with ((nth i (f h) 0 - nth i (f 0) 0 - h * nth i f' 0) * / h) by (field; exact N).
    rewrite Rabs_mult, Rabs_inv. pose proof (Rabs_pos_lt h N). apply Rle_lt_trans with (eps / 2 * Rabs h * / Rabs h).
    + apply Rmult_le_compat_r; [left; apply Rinv_0_lt_compat; assumption|lra].
    + rewrite Rmult_assoc, Rinv_r by lra. lra.
Qed.

(** ** Linear maps are bounded, by their values at unit vectors *)
Definition unit_vec (n i : nat) : vec := map (fun j => if Nat.eqb j i then 1 else 0) (seq 0 n).
Definition keep (k : nat) (v : vec) : vec := map (fun j => if (j <? k)%nat then nth j v 0 else 0) (seq 0 (length v)).
Lemma nth_tabR n (f : nat -> R) i : (i < n)%nat -> nth i (map f (seq 0 n)) 0 = f i.
Proof. intros H. rewrite (nth_indep _ 0 (f O)) by (rewrite map_length, seq_length; exact H). rewrite map_nth, seq_nth by exact H. reflexivity. Qed.
Lemma tabR_length n (f : nat -> R) : length (map f (seq 0 n)) = n.
Proof. rewrite map_length. apply seq_length. Qed.
Lemma unit_length n i : length (unit_vec n i) = n.
Proof. apply tabR_length. Qed.
Lemma keep_length k v : length (keep k v) = length v.
Proof. apply tabR_length. Qed.
Lemma keep_S n k v : length v = n -> (k < n)%nat -> keep (S k) v = vadd (keep k v) (vscale (nth k v 0) (unit_vec n k)).
Proof.
  intros L Hk. assert (Ll : length (keep k v) = length (vscale (nth k v 0) (unit_vec n k))) by (rewrite keep_length, vscale_length, unit_length; exact L).
  apply vec_ext; [rewrite vadd_length by exact Ll; rewrite !keep_length; reflexivity|]. rewrite keep_length, L. intros i Hi.
  rewrite nth_vadd by (first [exact Ll | rewrite keep_length; lia]). rewrite nth_vscale. unfold keep, unit_vec. rewrite L. rewrite !nth_tabR by exact Hi.
  destruct (Nat.ltb_spec i (S k)); destruct (Nat.ltb_spec i k); destruct (Nat.eqb_spec i k); subst; try lia; try ring.
Qed.
Lemma keep_all v : keep (length v) v = v.
Proof. apply vec_ext; [apply keep_length|]. rewrite keep_length. intros i Hi. unfold keep. rewrite nth_tabR by exact Hi. destruct (Nat.ltb_spec i (length v)); [reflexivity|lia]. Qed.
Lemma keep_0 v : keep 0 v = vzero (length v).
Proof. apply vec_ext; [rewrite keep_length, vzero_length; reflexivity|]. rewrite keep_length. intros i Hi. unfold keep. rewrite nth_tabR by exact Hi. rewrite nth_zero. reflexivity. Qed.
Lemma lin_bound n k f K : lin_map n k f -> (forall i, (i < n)%nat -> norm1 (f (unit_vec n i)) <= K) -> 0 <= K ->
  forall y, length y = n -> norm1 (f y) <= INR n * K * norm1 y.
Proof.
  intros (L & A & C) B HK y Ly.
  assert (G : forall j, (j <= n)%nat -> norm1 (f (keep j y)) <= INR j * (K * norm1 y)).
  { induction j as [|j IH]; intros Hj.
    - rewrite keep_0, Ly, (lin_zero n k) by (repeat split; assumption). rewrite norm1_zero. cbn. pose proof (norm1_nonneg y). nra.
    - rewrite (keep_S n) by (auto; lia). rewrite A by (rewrite ?keep_length, ?vscale_length, ?unit_length; auto). rewrite C by apply unit_length.
      eapply Rle_trans; [apply norm1_vadd; rewrite vscale_length, !L; rewrite ?unit_length, ?keep_length; auto|]. rewrite norm1_vscale.
      specialize (IH ltac:(lia)). specialize (B j ltac:(lia)). rewrite S_INR. pose proof (norm1_nth y j). pose proof (Rabs_pos (nth j y 0)). pose proof (norm1_nonneg (f (unit_vec n j))). pose proof (norm1_nonneg y).
      assert (Rabs (nth j y 0) * norm1 (f (unit_vec n j)) <= norm1 y * K) by (apply Rmult_le_compat; assumption). lra. }
  specialize (G n (le_n _)). replace (keep n y) with y in G by (rewrite <- Ly; symmetry; apply keep_all). lra.
Qed.
Fixpoint max_to (n : nat) (g : nat -> R) : R := match n with O => 0 | S n' => Rmax (g n') (max_to n' g) end.
Lemma max_to_ge n g i : (i < n)%nat -> g i <= max_to n g.
Proof. induction n as [|n IH]; intros H; [lia|]. cbn. destruct (Nat.eq_dec i n) as [->|N]; [apply Rmax_l|]. eapply Rle_trans; [apply IH; lia|apply Rmax_r]. Qed.
Lemma max_to_nonneg n g : 0 <= max_to n g.
Proof. induction n as [|n IH]; cbn; [lra|]. eapply Rle_trans; [exact IH|apply Rmax_r]. Qed.
Lemma lin_bounded n k f : lin_map n k f -> exists C, 0 <= C /\ forall y, length y = n -> norm1 (f y) <= C * norm1 y.
Proof.
  intros Lf. exists (INR n * max_to n (fun i => norm1 (f (unit_vec n i)))). split.
  - apply Rmult_le_pos; [apply pos_INR|apply max_to_nonneg].
  - apply (lin_bound n k); [exact Lf| |apply max_to_nonneg]. intros i Hi. apply (max_to_ge n (fun i => norm1 (f (unit_vec n i)))). exact Hi.
Qed.
Lemma lin_diff n k f g : lin_map n k f -> lin_map n k g -> lin_map n k (fun y => vsub (f y) (g y)).
Proof.
  intros (L & A & C) (L' & A' & C'). split; [|split].
  - intros a La. rewrite vsub_length; rewrite L; auto. symmetry. auto.
  - intros a b La Lb. rewrite A, A' by auto. apply vec_ext.
    + rewrite !vsub_length, !vadd_length; rewrite ?vsub_length, ?vadd_length; rewrite ?L, ?L'; auto.
    + rewrite vsub_length by (rewrite !vadd_length; rewrite ?L, ?L'; auto). rewrite vadd_length by (rewrite !L; auto). rewrite L by exact La. intros i Hi.
      rewrite nth_vsub by (rewrite ?vadd_length; rewrite ?L, ?L'; auto). rewrite nth_vadd by (rewrite ?L; auto). rewrite nth_vadd by (rewrite ?L'; auto).
      rewrite nth_vadd by (rewrite ?vsub_length; rewrite ?L, ?L'; auto). rewrite !nth_vsub by (rewrite ?L, ?L'; auto). ring.
  - intros c a La. rewrite C, C' by auto. apply vec_ext.
    + rewrite vsub_length, !vscale_length by (rewrite !vscale_length, L, L'; auto). rewrite vsub_length by (rewrite L, L'; auto). reflexivity.
    + rewrite vsub_length by (rewrite !vscale_length, L, L'; auto). rewrite vscale_length, L by exact La. intros i Hi.
      rewrite nth_vsub by (rewrite ?vscale_length, ?L, ?L'; auto). rewrite !nth_vscale. rewrite nth_vsub by (rewrite L; rewrite ?L'; auto). ring.
Qed.

(** ** Solutions of A(t) u(t) = q *)
Section Solve.
  Context (n : nat) (A : R -> vec -> vec) (A' S : vec -> vec) (u : R -> vec) (q : vec).
  Hypothesis LA : forall t, lin_map n n (A t).
  Hypothesis DA : forall y, length y = n -> vderiv n (fun t => A t y) 0 (A' y).
  Hypothesis LS : lin_map n n S.
  Hypothesis HS : forall y, length y = n -> S (A 0 y) = y.
  Hypothesis Lu : forall t, length (u t) = n.
  Context (e : R) (He : 0 < e) (Hu : forall t, Rabs t < e -> A t (u t) = q).

  Let E t y := vsub (A t y) (A 0 y).
  Let LE t : lin_map n n (E t).
  Proof. apply lin_diff; apply LA. Qed.
  Lemma E_bound : exists K d, 0 <= K /\ 0 < d /\ forall t, Rabs t < d -> forall y, length y = n -> norm1 (E t y) <= K * Rabs t * norm1 y.
  Proof.
    set (k0 := max_to n (fun i => norm1 (A' (unit_vec n i)))). pose proof (max_to_nonneg n (fun i => norm1 (A' (unit_vec n i)))) as K0. fold k0 in K0.
    destruct (finite_min (fun i d => forall t, Rabs t < d -> norm1 (E t (unit_vec n i)) <= (1 + k0) * Rabs t) n) as (d & Hd & H).
    - intros i d d' Q Hd t Ht. apply Q. lra.
    - intros i Hi. destruct (proj1 (vderiv_norm _ _ _) (DA (unit_vec n i) (unit_length n i))) as (L & L' & D).
      destruct (D 1 Rlt_0_1) as (d & Hd & Q). exists d. split; [exact Hd|]. intros t Ht. specialize (Q t Ht). cbv beta in Q. fold (E t (unit_vec n i)) in Q.
      assert (LEu : length (E t (unit_vec n i)) = n) by (apply LE; apply unit_length).
      replace (E t (unit_vec n i)) with (vadd (vsub (E t (unit_vec n i)) (vscale t (A' (unit_vec n i)))) (vscale t (A' (unit_vec n i)))).
      + eapply Rle_trans; [apply norm1_vadd; rewrite vsub_length; rewrite vscale_length, ?LEu; auto|]. rewrite norm1_vscale.
        pose proof (max_to_ge n (fun i => norm1 (A' (unit_vec n i))) i Hi) as M. cbv beta in M. fold k0 in M. pose proof (Rabs_pos t).
        assert (Rabs t * norm1 (A' (unit_vec n i)) <= Rabs t * k0) by (apply Rmult_le_compat_l; assumption). lra.
      + assert (LA'u : length (A' (unit_vec n i)) = n) by exact L'. vext n. ring.
    - exists (INR n * (1 + k0)), d. split; [apply Rmult_le_pos; [apply pos_INR|lra]|]. split; [exact Hd|]. intros t Ht y Ly. pose proof (Rabs_pos t).
      eapply Rle_trans; [apply (lin_bound n n (E t) ((1 + k0) * Rabs t)); auto|]. { apply Rmult_le_pos; lra. } lra.
  Qed.
  Lemma u_step t : Rabs t < e -> vsub (u t) (u 0) = vopp (S (E t (u t))).
  Proof.
    intros Ht. pose proof (Hu 0 ltac:(rewrite Rabs_R0; exact He)) as H0. pose proof (Hu t Ht) as H1.
    assert (Q : vsub q (A 0 (u t)) = E t (u t)) by (unfold E; rewrite H1; reflexivity). rewrite <- Q, <- H0.
    rewrite <- (lin_sub n n (A 0)) by auto. rewrite HS by (rewrite vsub_length; rewrite ?Lu; auto).
    pose proof (Lu t). pose proof (Lu 0). vext n. ring.
  Qed.
  Theorem solve_deriv : vderiv n u 0 (S (vopp (A' (u 0)))).
  Proof.
    apply vderiv_norm. destruct (proj1 (vderiv_norm _ _ _) (DA (u 0) (Lu 0))) as (_ & LA' & DA0). cbv beta in DA0.
    split; [exact Lu|]. split; [apply LS; rewrite vopp_length; exact LA'|]. intros eps Heps.
    destruct (lin_bounded n n S LS) as (C & HC & BS). destruct E_bound as (K & d1 & HK & Hd1 & BE).
    set (N0 := norm1 (u 0)). pose proof (norm1_nonneg (u 0)) as HN. fold N0 in HN.
    set (Z := C * K * (2 * (C * K) * N0)). assert (HCK : 0 <= C * K) by (apply Rmult_le_pos; assumption). assert (HZ : 0 <= Z) by (unfold Z; repeat apply Rmult_le_pos; lra).
    destruct (DA0 (eps / (2 * (C + 1))) ltac:(apply Rdiv_lt_0_compat; lra)) as (d2 & Hd2 & BD).
    assert (Hd3 : 0 < / (2 * (C * K + 1))) by (apply Rinv_0_lt_compat; lra). assert (Hd4 : 0 < eps / (2 * (Z + 1))) by (apply Rdiv_lt_0_compat; lra).
    exists (Rmin (Rmin e d1) (Rmin d2 (Rmin (/ (2 * (C * K + 1))) (eps / (2 * (Z + 1)))))). split; [repeat apply Rmin_pos; assumption|].
    intros t Ht. assert (Te : Rabs t < e) by (eapply Rlt_le_trans; [exact Ht|]; eapply Rle_trans; [apply Rmin_l|apply Rmin_l]).
    assert (T1 : Rabs t < d1) by (eapply Rlt_le_trans; [exact Ht|]; eapply Rle_trans; [apply Rmin_l|apply Rmin_r]).
    assert (T2 : Rabs t < d2) by (eapply Rlt_le_trans; [exact Ht|]; eapply Rle_trans; [apply Rmin_r|apply Rmin_l]).
    assert (T3 : Rabs t < / (2 * (C * K + 1))) by (eapply Rlt_le_trans; [exact Ht|]; eapply Rle_trans; [apply Rmin_r|]; eapply Rle_trans; [apply Rmin_r|apply Rmin_l]).
    assert (T4 : Rabs t < eps / (2 * (Z + 1))) by (eapply Rlt_le_trans; [exact Ht|]; eapply Rle_trans; [apply Rmin_r|]; eapply Rle_trans; [apply Rmin_r|apply Rmin_r]).
    clear Ht. pose proof (Rabs_pos t) as Tp. pose proof (u_step t Te) as US.
    assert (LEt : forall y, length y = n -> length (E t y) = n) by (apply LE).
    set (D := vsub (u t) (u 0)). assert (LD : length D = n) by (unfold D; rewrite vsub_length; rewrite ?Lu; auto).
    assert (Eu : u t = vadd (u 0) D). { unfold D. symmetry. apply vadd_sub. rewrite !Lu. reflexivity. }
    fold D in US. clearbody D.
    assert (BD1 : norm1 D <= C * K * Rabs t * (N0 + norm1 D)).
    { rewrite US at 1. rewrite vopp_scale, norm1_vscale. replace (Rabs (-1)) with 1 by (rewrite Rabs_left; lra). rewrite Rmult_1_l. eapply Rle_trans; [apply BS; auto|].
      assert (norm1 (E t (u t)) <= K * Rabs t * norm1 (u t)) by (apply BE; auto). assert (norm1 (u t) <= N0 + norm1 D) by (rewrite Eu; apply norm1_vadd; rewrite Lu; auto).
      assert (0 <= K * Rabs t) by (apply Rmult_le_pos; assumption).
      apply Rle_trans with (C * (K * Rabs t * (N0 + norm1 D))); [|lra]. apply Rmult_le_compat_l; [exact HC|]. eapply Rle_trans; [eassumption|]. apply Rmult_le_compat_l; assumption. }
    assert (Half : C * K * Rabs t <= / 2).
    { apply Rle_trans with (C * K * / (2 * (C * K + 1))); [apply Rmult_le_compat_l; lra|]. apply Rmult_le_reg_r with (2 * (C * K + 1)); [lra|]. rewrite Rmult_assoc, Rinv_l by lra. lra. }
    pose proof (norm1_nonneg D) as PD.
    assert (BD2 : norm1 D <= 2 * (C * K) * N0 * Rabs t).
    { assert (C * K * Rabs t * norm1 D <= / 2 * norm1 D) by (apply Rmult_le_compat_r; assumption). lra. }
    set (w := vsub (E t (u 0)) (vscale t (A' (u 0)))). assert (Lw : length w = n) by (unfold w; rewrite vsub_length; rewrite ?vscale_length, ?LEt; auto).
    assert (Id : vsub D (vscale t (S (vopp (A' (u 0))))) = vopp (S (vadd w (E t D)))).
    { rewrite US at 1. rewrite <- (proj2 (proj2 LS)) by (rewrite vopp_length; exact LA'). rewrite <- !(lin_opp n n S) by (auto; rewrite vadd_length; rewrite ?LEt; auto; rewrite Lw; auto).
      rewrite <- (lin_sub n n S) by (auto; rewrite ?vscale_length, ?vopp_length; auto; rewrite ?LEt; auto). f_equal.
      assert (Ea : E t (u t) = vadd (E t (u 0)) (E t D)). { rewrite Eu. apply LE; auto. } rewrite Ea.
      assert (LE0 : length (E t (u 0)) = n) by auto. assert (LED : length (E t D) = n) by auto. unfold w. vext n. ring. }
    rewrite Id, vopp_scale, norm1_vscale. replace (Rabs (-1)) with 1 by (rewrite Rabs_left; lra). rewrite Rmult_1_l.
    assert (B1 : norm1 w <= eps / (2 * (C + 1)) * Rabs t). { apply BD. exact T2. }
    assert (B2 : norm1 (E t D) <= K * Rabs t * (2 * (C * K) * N0 * Rabs t)).
    { eapply Rle_trans; [apply BE; auto|]. apply Rmult_le_compat_l; [apply Rmult_le_pos; assumption|exact BD2]. }
    eapply Rle_trans; [apply BS; rewrite vadd_length; rewrite ?LEt; auto; rewrite Lw; auto|].
    assert (B3 : norm1 (vadd w (E t D)) <= norm1 w + norm1 (E t D)) by (apply norm1_vadd; rewrite Lw, LEt; auto).
    apply Rle_trans with (C * (eps / (2 * (C + 1)) * Rabs t + K * Rabs t * (2 * (C * K) * N0 * Rabs t))); [apply Rmult_le_compat_l; [exact HC|lra]|].
    replace (C * (eps / (2 * (C + 1)) * Rabs t + K * Rabs t * (2 * (C * K) * N0 * Rabs t))) with ((eps / 2 * (C / (C + 1)) + Z * Rabs t) * Rabs t) by (unfold Z; field; lra).
    apply Rmult_le_compat_r; [exact Tp|].
    assert (C / (C + 1) <= 1). { apply Rmult_le_reg_r with (C + 1); [lra|]. unfold Rdiv. rewrite Rmult_assoc, Rinv_l by lra. lra. }
    assert (eps / 2 * (C / (C + 1)) <= eps / 2 * 1) by (apply Rmult_le_compat_l; lra).
    assert (Z * Rabs t <= eps / 2). { apply Rle_trans with (Z * (eps / (2 * (Z + 1)))); [apply Rmult_le_compat_l; lra|].
      replace (Z * (eps / (2 * (Z + 1)))) with (eps / 2 * (Z / (Z + 1))) by (field; lra).
      assert (Z / (Z + 1) <= 1). { apply Rmult_le_reg_r with (Z + 1); [lra|]. unfold Rdiv. rewrite Rmult_assoc, Rinv_l by lra. lra. }
      assert (eps / 2 * (Z / (Z + 1)) <= eps / 2 * 1) by (apply Rmult_le_compat_l; lra). lra. }
    lra.
  Qed.
End Solve.
