(** Fréchet derivatives of maps between real vectors: chain rule, componentwise and
    linear maps.  Pure mathematics; used to state that a returned matrix is the
    derivative of a map that may be composed with others. *)
From Verif Require Import Py Vec VecDeriv.
Local Open Scope R_scope.

Fixpoint norm1 (v : vec) : R := match v with [] => 0 | x :: v' => Rabs x + norm1 v' end.
(** [J] (k x n) is the derivative of [f] at [x]. *)
Definition frechet (n k : nat) (f : vec -> vec) (x : vec) (J : mat) : Prop :=
  length x = n /\ is_mat k n J /\ (forall y, length y = n -> length (f y) = k) /\
  forall eps, 0 < eps -> exists d, 0 < d /\
    forall h, length h = n -> norm1 h < d -> norm1 (vsub (vsub (f (vadd x h)) (f x)) (mv J h)) <= eps * norm1 h.

(** Product of matrices, the right one with [n] columns. *)
Definition mm (n : nat) (A B : mat) : mat := map (fun r => mtv n B r) A.

Lemma norm1_nonneg v : 0 <= norm1 v.
Proof. induction v as [|x v IH]; cbn; [lra|]. pose proof (Rabs_pos x). lra. Qed.
Lemma norm1_vadd a b : length a = length b -> norm1 (vadd a b) <= norm1 a + norm1 b.
Proof.
  revert b; induction a as [|x a IH]; intros [|y b] H; cbn in *; try lia; [lra|].
  specialize (IH b ltac:(lia)). pose proof (Rabs_triang x y). unfold vadd in *. lra.
Qed.
Lemma norm1_vscale c a : norm1 (vscale c a) = Rabs c * norm1 a.
Proof. induction a as [|x a IH]; cbn; [ring|]. fold (vscale c a). rewrite IH, Rabs_mult. ring. Qed.
Lemma norm1_zero n : norm1 (vzero n) = 0.
Proof. induction n; cbn; [reflexivity|]. fold (vconst n 0). fold (vzero n). rewrite IHn, Rabs_R0. ring. Qed.
Lemma norm1_nth v i : Rabs (nth i v 0) <= norm1 v.
Proof.
  revert i; induction v as [|x v IH]; intros [|i]; cbn; rewrite ?Rabs_R0; try lra.
  - pose proof (norm1_nonneg v). lra.
  - specialize (IH i). pose proof (Rabs_pos x). lra.
Qed.
Lemma norm1_dot a b : Rabs (dot a b) <= norm1 a * norm1 b.
Proof.
  revert b; induction a as [|x a IH]; intros [|y b]; cbn; rewrite ?Rabs_R0; try lra.
  - specialize (IH b). pose proof (Rabs_triang (x * y) (dot a b)). rewrite Rabs_mult in *.
    pose proof (norm1_nonneg a); pose proof (norm1_nonneg b); pose proof (Rabs_pos x); pose proof (Rabs_pos y). nra.
Qed.
Fixpoint mnorm (A : mat) : R := match A with [] => 0 | r :: A' => norm1 r + mnorm A' end.
Lemma mnorm_nonneg A : 0 <= mnorm A.
Proof. induction A as [|r A IH]; cbn; [lra|]. pose proof (norm1_nonneg r). lra. Qed.
Lemma norm1_mv A h : norm1 (mv A h) <= mnorm A * norm1 h.
Proof. induction A as [|r A IH]; cbn; [lra|]. pose proof (norm1_dot r h). unfold mv in IH. lra. Qed.

Lemma mm_mat m k n A B : is_mat m k A -> is_mat k n B -> is_mat m n (mm n A B).
Proof.
  intros [LA HA] HB. split; [unfold mm; rewrite map_length; assumption|]. apply Forall_map.
  eapply Forall_impl; [|exact HA]. intros r _. eapply mtv_length; exact HB.
Qed.
Lemma mm_mv m k n A B v : is_mat m k A -> is_mat k n B -> length v = n -> mv (mm n A B) v = mv A (mv B v).
Proof.
  intros [_ HA] HB Lv. unfold mm, mv. rewrite map_map. apply map_ext_in. intros r Hr.
  rewrite Forall_forall in HA. specialize (HA r Hr).
  fold (mv B v). symmetry. apply (mv_mtv_adjoint k n B r v HB HA Lv).
Qed.

Lemma vec_split a b c : length a = length b -> length b = length c -> vsub a c = vadd (vsub a b) (vsub b c).
Proof.
  revert b c; induction a as [|x a IH]; intros [|y b] [|z c] H1 H2; cbn in *; try lia; [reflexivity|].
  unfold vsub, vadd in *. rewrite (IH b c) by lia. f_equal. ring.
Qed.
Lemma vsub_self a : vsub a a = vzero (length a).
Proof. induction a as [|x a IH]; cbn; [reflexivity|]. unfold vsub in *. rewrite IH. unfold vzero, vconst. cbn. f_equal. ring. Qed.
Lemma vadd_sub x y : length x = length y -> vadd x (vsub y x) = y.
Proof.
  revert y; induction x as [|a x IH]; intros [|b y] H; cbn in *; try lia; [reflexivity|]. unfold vadd, vsub in *. rewrite IH by lia. f_equal. ring.
Qed.

(** Componentwise criterion. *)
Lemma norm1_components eps v n : length v = n -> (forall i, (i < n)%nat -> Rabs (nth i v 0) <= eps) -> norm1 v <= INR n * eps.
Proof.
  revert n; induction v as [|x v IH]; intros n <- H; [cbn; lra|]. cbn [length norm1]. rewrite S_INR.
  specialize (IH (length v) eq_refl (fun i Hi => H (S i) ltac:(cbn; lia))).
  specialize (H 0%nat ltac:(cbn; lia)). cbn in H. lra.
Qed.
Lemma finite_min (Q : nat -> R -> Prop) k : (forall i d d', Q i d -> 0 < d' <= d -> Q i d') ->
  (forall i, (i < k)%nat -> exists d, 0 < d /\ Q i d) -> exists d, 0 < d /\ forall i, (i < k)%nat -> Q i d.
Proof.
  intros Hmono. induction k as [|k IH]; intros H; [exists 1; split; [lra|lia]|].
  destruct IH as (d & Hd & HQ); [intros; apply H; lia|]. destruct (H k ltac:(lia)) as (d' & Hd' & HQ').
  exists (Rmin d d'). split; [apply Rmin_glb_lt; assumption|]. intros i Hi.
  pose proof (Rmin_l d d'); pose proof (Rmin_r d d'); pose proof (Rmin_glb_lt d d' 0 Hd Hd').
  destruct (Nat.eq_dec i k) as [->|]; [apply (Hmono k d'); [assumption|lra]|]. apply (Hmono i d); [apply HQ; lia|lra].
Qed.
Lemma frechet_components n k f x J : length x = n -> is_mat k n J -> (forall y, length y = n -> length (f y) = k) ->
  (forall i, (i < k)%nat -> forall eps, 0 < eps -> exists d, 0 < d /\ forall h, length h = n -> norm1 h < d ->
     Rabs (nth i (f (vadd x h)) 0 - nth i (f x) 0 - dot (nth i J []) h) <= eps * norm1 h) ->
  frechet n k f x J.
Proof.
  intros Lx HJ Hf Hc. split; [assumption|]. split; [assumption|]. split; [assumption|]. intros eps He.
  assert (Hk : 0 < INR k + 1) by (pose proof (pos_INR k); lra).
  destruct (finite_min (fun i d => forall h, length h = n -> norm1 h < d ->
     Rabs (nth i (f (vadd x h)) 0 - nth i (f x) 0 - dot (nth i J []) h) <= (eps / (INR k + 1)) * norm1 h) k) as (d & Hd & HQ).
  - intros i d d' H Hdd h Lh Hh. apply H; [assumption|lra].
  - intros i Hi. apply Hc; [assumption|]. apply Rdiv_lt_0_compat; assumption.
  - exists d. split; [assumption|]. intros h Lh Hh.
    assert (L1 : length (f (vadd x h)) = k) by (apply Hf; rewrite vadd_length; congruence).
    assert (L2 : length (f x) = k) by (apply Hf; assumption). destruct HJ as [LJ _].
    assert (L3 : length (vsub (f (vadd x h)) (f x)) = k) by (rewrite vsub_length; congruence).
    eapply Rle_trans; [apply (norm1_components (eps / (INR k + 1) * norm1 h) _ k)|].
    + rewrite vsub_length; [assumption|]. rewrite mv_length. congruence.
    + intros i Hi. rewrite nth_vsub, nth_vsub, nth_mv; rewrite ?mv_length; try congruence. apply HQ; assumption.
    + replace (INR k * (eps / (INR k + 1) * norm1 h)) with (INR k / (INR k + 1) * (eps * norm1 h)) by (field; lra).
      pose proof (norm1_nonneg h). pose proof (pos_INR k).
      assert (INR k / (INR k + 1) <= 1) by (apply (Rmult_le_reg_r (INR k + 1)); [lra|]; unfold Rdiv; rewrite Rmult_assoc, Rinv_l by lra; lra). assert (0 <= eps * norm1 h) by nra. rewrite <- (Rmult_1_l (eps * norm1 h)) at 2. apply Rmult_le_compat_r; assumption.
Qed.
(** Chain rule. *)
Lemma frechet_comp n k p f g x J K : frechet n k f x J -> frechet k p g (f x) K ->
  frechet n p (fun y => g (f y)) x (mm n K J).
Proof.
  intros (Lx & HJ & Lf & Hf) (Lfx & HK & Lg & Hg). split; [assumption|]. split; [eapply mm_mat; eassumption|].
  split; [intros y Ly; apply Lg, Lf, Ly|]. intros eps He.
  pose proof (mnorm_nonneg J) as PJ. pose proof (mnorm_nonneg K) as PK.
  set (e1 := Rmin 1 (eps / (2 * (mnorm K + 1)))). set (e2 := eps / (2 * (mnorm J + 1))).
  assert (He1 : 0 < e1) by (apply Rmin_glb_lt; [lra|apply Rdiv_lt_0_compat; lra]).
  assert (He2 : 0 < e2) by (apply Rdiv_lt_0_compat; lra).
  assert (E1 : e1 <= 1) by apply Rmin_l.
  assert (E1' : e1 * (2 * (mnorm K + 1)) <= eps).
  { pose proof (Rmin_r 1 (eps / (2 * (mnorm K + 1)))) as H. fold e1 in H.
    apply (Rmult_le_compat_r (2 * (mnorm K + 1))) in H; [|lra].
    replace (eps / (2 * (mnorm K + 1)) * (2 * (mnorm K + 1))) with eps in H by (field; lra). exact H. }
  assert (E2' : e2 * (2 * (mnorm J + 1)) = eps) by (unfold e2; field; lra).
  destruct (Hf e1 He1) as (d1 & Hd1 & Hf1). destruct (Hg e2 He2) as (d2 & Hd2 & Hg2).
  exists (Rmin d1 (d2 / (mnorm J + 1))). split; [apply Rmin_glb_lt; [assumption|apply Rdiv_lt_0_compat; lra]|].
  intros h Lh Hh. pose proof (norm1_nonneg h) as Ph.
  assert (Hh1 : norm1 h < d1) by (eapply Rlt_le_trans; [exact Hh|apply Rmin_l]).
  assert (Hh2 : (mnorm J + 1) * norm1 h < d2).
  { assert (H : norm1 h < d2 / (mnorm J + 1)) by (eapply Rlt_le_trans; [exact Hh|apply Rmin_r]).
    apply (Rmult_lt_compat_l (mnorm J + 1)) in H; [|lra].
    replace ((mnorm J + 1) * (d2 / (mnorm J + 1))) with d2 in H by (field; lra). exact H. }
  specialize (Hf1 h Lh Hh1).
  assert (Lxh : length (vadd x h) = n) by (rewrite vadd_length; congruence).
  assert (L1 : length (f (vadd x h)) = k) by (apply Lf; assumption).
  set (u := vsub (f (vadd x h)) (f x)) in *.
  assert (Lu : length u = k) by (unfold u; rewrite vsub_length; congruence).
  assert (LJh : length (mv J h) = k) by (rewrite mv_length; apply HJ).
  assert (Eu : u = vadd (mv J h) (vsub u (mv J h))) by (symmetry; apply vadd_sub; congruence).
  assert (Lr : length (vsub u (mv J h)) = k) by (rewrite vsub_length; congruence).
  assert (Nu : norm1 u <= (mnorm J + e1) * norm1 h).
  { rewrite Eu. eapply Rle_trans; [apply norm1_vadd; congruence|]. pose proof (norm1_mv J h). lra. }
  assert (Hu : norm1 u < d2) by nra.
  specialize (Hg2 u Lu Hu). replace (vadd (f x) u) with (f (vadd x h)) in Hg2 by (symmetry; apply vadd_sub; congruence).
  assert (LK : length (mv K u) = p) by (rewrite mv_length; apply HK).
  assert (LKJ : length (mv (mm n K J) h) = p) by (rewrite mv_length; apply (mm_mat p k n); assumption).
  set (w := vsub (g (f (vadd x h))) (g (f x))) in *.
  assert (Lw : length w = p) by (unfold w; rewrite vsub_length; rewrite !Lg; auto).
  rewrite (vec_split w (mv K u)) by congruence.
  eapply Rle_trans; [apply norm1_vadd; rewrite !vsub_length; congruence|].
  assert (EK : vsub (mv K u) (mv (mm n K J) h) = mv K (vsub u (mv J h))).
  { rewrite (mm_mv p k n) by assumption. rewrite !vsub_as_add. rewrite mv_vadd by (rewrite vscale_length; congruence).
    rewrite mv_vscale. reflexivity. }
  rewrite EK. pose proof (norm1_mv K (vsub u (mv J h))) as B1. pose proof (norm1_nonneg u).
  assert (A1 : e2 * norm1 u <= eps / 2 * norm1 h).
  { assert (H1 : e2 * norm1 u <= e2 * ((mnorm J + e1) * norm1 h)) by (apply Rmult_le_compat_l; lra).
    assert (H2 : (mnorm J + e1) * norm1 h <= (mnorm J + 1) * norm1 h) by (apply Rmult_le_compat_r; lra).
    apply (Rmult_le_compat_l e2) in H2; [|lra].
    replace (e2 * ((mnorm J + 1) * norm1 h)) with (e2 * (2 * (mnorm J + 1)) / 2 * norm1 h) in H2 by field. rewrite E2' in H2. lra. }
  assert (A2 : mnorm K * norm1 (vsub u (mv J h)) <= eps / 2 * norm1 h).
  { assert (H1 : mnorm K * norm1 (vsub u (mv J h)) <= mnorm K * (e1 * norm1 h)) by (apply Rmult_le_compat_l; lra).
    assert (H2 : e1 * mnorm K * norm1 h <= eps / 2 * norm1 h) by (apply Rmult_le_compat_r; lra). lra. }
  lra.
Qed.

Lemma frechet_ext n k f g x J : (forall y, length y = n -> f y = g y) -> frechet n k f x J -> frechet n k g x J.
Proof.
  intros E (Lx & HJ & Lf & H). split; [assumption|]. split; [assumption|]. split; [intros y Ly; rewrite <- E by assumption; auto|].
  intros eps He. destruct (H eps He) as (d & Hd & Hb). exists d. split; [assumption|]. intros h Lh Hh.
  rewrite <- !E by (rewrite ?vadd_length; congruence). apply Hb; assumption.
Qed.
(** Linear and affine maps. *)
Lemma frechet_affine n k A b x : is_mat k n A -> length b = k -> length x = n -> frechet n k (fun y => vadd (mv A y) b) x A.
Proof.
  intros HA Lb Lx. split; [assumption|]. split; [assumption|]. destruct HA as [LA _].
  split; [intros y _; rewrite vadd_length; rewrite mv_length; congruence|].
  intros eps He. exists 1. split; [lra|]. intros h Lh _.
  rewrite mv_vadd by congruence.
  replace (norm1 _) with 0; [pose proof (norm1_nonneg h); nra|].
  symmetry. rewrite <- (norm1_zero k). f_equal.
  apply vec_ext; [rewrite vzero_length; repeat (rewrite ?vsub_length, ?vadd_length, ?mv_length); congruence|].
  intros i Hi. assert (Hik : (i < k)%nat).
  { revert Hi. repeat (rewrite ?vsub_length, ?vadd_length, ?mv_length); try congruence; lia. }
  rewrite nth_zero. repeat (rewrite ?nth_vsub, ?nth_vadd); try (repeat (rewrite ?vsub_length, ?vadd_length, ?mv_length); congruence). ring.
Qed.
Lemma vadd_vzero' a n : length a = n -> vadd a (vzero n) = a.
Proof. apply vadd_zero_r. Qed.
Lemma frechet_linear n k A x : is_mat k n A -> length x = n -> frechet n k (mv A) x A.
Proof.
  intros HA Lx. eapply frechet_ext; [|apply (frechet_affine n k A (vzero k) x HA (vzero_length k) Lx)].
  intros y _. cbn beta. apply vadd_zero_r. rewrite mv_length. apply HA.
Qed.
(** Elementwise maps. *)
Definition diag_row (n i : nat) (c : R) : vec := map (fun j => if Nat.eqb j i then c else 0) (seq 0 n).
Definition diagm (d : vec) : mat := map (fun i => diag_row (length d) i (nth i d 0)) (seq 0 (length d)).
Lemma diag_row_length n i c : length (diag_row n i c) = n.
Proof. unfold diag_row. rewrite map_length, seq_length. reflexivity. Qed.
Lemma diagm_mat d : is_mat (length d) (length d) (diagm d).
Proof.
  split; [unfold diagm; rewrite map_length, seq_length; reflexivity|]. unfold diagm. apply Forall_map, Forall_forall.
  intros i _. apply diag_row_length.
Qed.
Lemma dot_diag_row n i c v : length v = n -> dot (diag_row n i c) v = if Nat.ltb i n then c * nth i v 0 else 0.
Proof.
  intros <-. unfold diag_row.
  assert (G : forall s, dot (map (fun j => if Nat.eqb j i then c else 0) (seq s (length v))) v =
     if Nat.leb s i && Nat.ltb i (s + length v) then c * nth (i - s) v 0 else 0).
  { induction v as [|x v IH]; intros s; cbn [length seq map dot].
    - destruct (Nat.leb_spec s i), (Nat.ltb_spec i (s + 0)); cbn; try reflexivity; lia.
    - rewrite IH. destruct (Nat.eqb_spec s i) as [->|Hne].
      + replace (Nat.leb (S i) i) with false by (symmetry; apply Nat.leb_gt; lia).
        rewrite Nat.leb_refl. replace (Nat.ltb i (i + S (length v))) with true by (symmetry; apply Nat.ltb_lt; lia).
        rewrite Nat.sub_diag. cbn. ring.
      + destruct (Nat.leb_spec (S s) i), (Nat.leb_spec s i), (Nat.ltb_spec i (S s + length v)), (Nat.ltb_spec i (s + S (length v))); cbn [andb]; try lia; try ring.
        replace (i - s)%nat with (S (i - S s)) by lia. cbn. ring. }
  rewrite G. cbn [Nat.leb andb plus]. rewrite Nat.sub_0_r. reflexivity.
Qed.
Lemma nth_diagm d i : (i < length d)%nat -> nth i (diagm d) [] = diag_row (length d) i (nth i d 0).
Proof.
  intros H. unfold diagm.
  rewrite (nth_indep _ [] (diag_row (length d) 0 (nth 0 d 0))) by (rewrite map_length, seq_length; assumption).
  rewrite (map_nth (fun i => diag_row (length d) i (nth i d 0))). rewrite seq_nth by assumption. reflexivity.
Qed.
Lemma mv_diagm d v : length v = length d -> mv (diagm d) v = vmul d v.
Proof.
  intros L. apply vec_ext; [rewrite mv_length, vmul_length by congruence; apply diagm_mat|].
  intros i Hi. rewrite mv_length in Hi. destruct (diagm_mat d) as [Ld _]. rewrite Ld in Hi.
  rewrite nth_mv by congruence. rewrite nth_diagm, dot_diag_row, nth_vmul by congruence.
  destruct (Nat.ltb_spec i (length d)); [reflexivity|lia].
Qed.
Lemma frechet_elementwise phi dphi x : (forall i, (i < length x)%nat -> derivable_pt_lim phi (nth i x 0) (nth i dphi 0)) ->
  length dphi = length x -> frechet (length x) (length x) (map phi) x (diagm dphi).
Proof.
  intros Hd Ld. apply frechet_components; [reflexivity|rewrite <- Ld; apply diagm_mat|intros; rewrite map_length; assumption|].
  intros i Hi eps He. destruct (Hd i Hi eps He) as [d Hdd]. exists d. split; [apply cond_pos|]. intros h Lh Hh.
  rewrite nth_diagm by congruence. rewrite dot_diag_row by congruence.
  destruct (Nat.ltb_spec i (length dphi)); [|lia].
  rewrite !(map_nth_lt phi) by (rewrite ?vadd_length; congruence). rewrite nth_vadd by congruence.
  set (t := nth i h 0) in *. pose proof (norm1_nth h i) as Hn. fold t in Hn.
  destruct (Req_EM_T t 0) as [->|Ht].
  - replace (nth i x 0 + 0) with (nth i x 0) by ring. replace (_ - _ - _ * 0) with 0 by ring. rewrite Rabs_R0.
    pose proof (norm1_nonneg h). nra.
  - specialize (Hdd t Ht ltac:(lra)).
    replace (phi (nth i x 0 + t) - phi (nth i x 0) - nth i dphi 0 * t)
       with (((phi (nth i x 0 + t) - phi (nth i x 0)) / t - nth i dphi 0) * t) by (field; assumption).
    rewrite Rabs_mult. pose proof (Rabs_pos t). nra.
Qed.
(** Fréchet derivatives are directional derivatives. *)
Lemma frechet_jacobian n k f x J : frechet n k f x J -> has_jacobian n k f x (mv J).
Proof.
  intros (Lx & HJ & Lf & H) h Lh. split; [intros t; apply Lf; rewrite vadd_length; rewrite ?vscale_length; congruence|].
  split; [rewrite mv_length; apply HJ|]. intros i Hi eps He.
  pose proof (norm1_nonneg h) as Ph.
  destruct (H (eps / (2 * (norm1 h + 1)))) as (d & Hd & Hb); [apply Rdiv_lt_0_compat; lra|].
  assert (Hd' : 0 < d / (norm1 h + 1)) by (apply Rdiv_lt_0_compat; lra).
  exists (mkposreal _ Hd'). cbn [pos]. intros t Ht Htd. rewrite Rplus_0_l.
  replace (vadd x (vscale 0 h)) with x by (rewrite vscale_0, Lh; symmetry; apply vadd_zero_r; assumption).
  assert (Pt : 0 < Rabs t) by (apply Rabs_pos_lt; assumption).
  assert (Hn : norm1 (vscale t h) < d).
  { rewrite norm1_vscale. apply (Rmult_lt_compat_r (norm1 h + 1)) in Htd; [|lra].
    replace (d / (norm1 h + 1) * (norm1 h + 1)) with d in Htd by (field; lra). nra. }
  specialize (Hb (vscale t h) ltac:(rewrite vscale_length; assumption) Hn).
  pose proof (norm1_nth (vsub (vsub (f (vadd x (vscale t h))) (f x)) (mv J (vscale t h))) i) as Hc.
  assert (L1 : length (f (vadd x (vscale t h))) = k) by (apply Lf; rewrite vadd_length; rewrite ?vscale_length; congruence).
  assert (L2 : length (f x) = k) by (apply Lf; assumption).
  assert (LJ : length J = k) by apply HJ.
  rewrite nth_vsub, nth_vsub, mv_vscale, nth_vscale in Hc; rewrite ?vsub_length, ?vscale_length, ?mv_length; try congruence.
  set (a := nth i (f (vadd x (vscale t h))) 0) in *. set (b := nth i (f x) 0) in *. set (c := nth i (mv J h) 0) in *.
  replace ((a - b) / t - c) with ((a - b - t * c) / t) by (field; assumption).
  unfold Rdiv. rewrite Rabs_mult, Rabs_inv by assumption.
  assert (Hb2 : Rabs (a - b - t * c) <= eps / (2 * (norm1 h + 1)) * (Rabs t * norm1 h)).
  { rewrite norm1_vscale in Hb. rewrite mv_vscale in *. lra. }
  apply (Rmult_lt_reg_r (Rabs t)); [assumption|]. rewrite Rmult_assoc, Rinv_l, Rmult_1_r by lra.
  eapply Rle_lt_trans; [exact Hb2|].
  replace (eps / (2 * (norm1 h + 1)) * (Rabs t * norm1 h)) with (eps * Rabs t * (norm1 h / (2 * (norm1 h + 1)))) by (field; lra).
  assert (norm1 h / (2 * (norm1 h + 1)) < 1).
  { apply (Rmult_lt_reg_r (2 * (norm1 h + 1))); [lra|]. unfold Rdiv. rewrite Rmult_assoc, Rinv_l by lra. lra. }
  assert (0 < eps * Rabs t) by nra. nra.
Qed.

Lemma frechet_add n k f g x J K L : frechet n k f x J -> frechet n k g x K -> is_mat k n L ->
  (forall h, length h = n -> mv L h = vadd (mv J h) (mv K h)) -> frechet n k (fun y => vadd (f y) (g y)) x L.
Proof.
  intros (Lx & HJ & Lf & Hf) (_ & HK & Lg & Hg) HL EL. split; [assumption|]. split; [assumption|].
  split; [intros y Ly; rewrite vadd_length; rewrite Lf by assumption; [reflexivity|symmetry; auto]|].
  intros eps He. destruct (Hf (eps / 2) ltac:(lra)) as (d1 & P1 & H1). destruct (Hg (eps / 2) ltac:(lra)) as (d2 & P2 & H2).
  exists (Rmin d1 d2). split; [apply Rmin_glb_lt; assumption|]. intros h Lh Hh.
  specialize (H1 h Lh (Rlt_le_trans _ _ _ Hh (Rmin_l _ _))). specialize (H2 h Lh (Rlt_le_trans _ _ _ Hh (Rmin_r _ _))).
  assert (Lxh : length (vadd x h) = n) by (rewrite vadd_length; congruence).
  assert (A1 := Lf _ Lxh). assert (A2 := Lg _ Lxh). assert (A3 := Lf _ Lx). assert (A4 := Lg _ Lx).
  assert (A5 : length (mv J h) = k) by (rewrite mv_length; apply HJ). assert (A6 : length (mv K h) = k) by (rewrite mv_length; apply HK).
  rewrite EL by assumption.
  replace (vsub (vsub (vadd (f (vadd x h)) (g (vadd x h))) (vadd (f x) (g x))) (vadd (mv J h) (mv K h)))
    with (vadd (vsub (vsub (f (vadd x h)) (f x)) (mv J h)) (vsub (vsub (g (vadd x h)) (g x)) (mv K h))).
  - eapply Rle_trans; [apply norm1_vadd; repeat rewrite vsub_length; congruence|]. lra.
  - apply vec_ext; [repeat (rewrite ?vsub_length, ?vadd_length); congruence|]. intros i Hi.
    assert (Hik : (i < k)%nat) by (revert Hi; repeat (rewrite ?vsub_length, ?vadd_length); try congruence; lia).
    repeat (rewrite ?nth_vsub, ?nth_vadd); try (repeat (rewrite ?vsub_length, ?vadd_length); try congruence; lia). ring.
Qed.
