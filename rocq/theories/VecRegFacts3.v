(** Weights, values, gradients. *)
From Verif Require Import Py Vec VecDeriv Reg RegFacts RegFacts2 VecReg SpecVecReg VecRegFacts VecRegFacts2.
Local Open Scope R_scope.

Lemma root_ok p : (forall i, (i < length p)%nat -> 0 <= nth i p 0) -> exists w, root p = Ok w /\ length w = length p /\ forall i, (i < length p)%nat -> nth i w 0 * nth i w 0 = nth i p 0.
Proof.
  intros H. unfold root. assert (E : existsb (fun x => if Rlt_dec x 0 then true else false) p = false).
  { destruct (existsb _ p) eqn:E; [|reflexivity]. apply existsb_exists in E. destruct E as (x & Hx & Hn). destruct (Rlt_dec x 0) as [Hl|]; [|discriminate].
    destruct (In_nth _ _ 0 Hx) as (i & Hi & <-). specialize (H i Hi). lra. }
  rewrite E. exists (map sqrt p). split; [reflexivity|]. split; [apply map_length|]. intros i Hi. rewrite map_nth_lt by exact Hi. apply sqrt_sqrt. apply H, Hi.
Qed.
Lemma weight_at_cons n k w ws i : weight_at n k (w :: ws) i = weight_of n k w i * weight_at n k ws i.
Proof. reflexivity. Qed.
Section Fold.
Variables (n k : nat) (factor : warr -> vec -> vec) (good : warr -> Prop).
Hypothesis H : forall w acc, good w -> length acc = n -> length (factor w acc) = n /\ forall i, (i < n)%nat -> nth i (factor w acc) 0 = nth i acc 0 * weight_of n k w i.
Lemma fold_ok ws : Forall good ws -> forall acc, length acc = n ->
  length (fold_left (fun a w => factor w a) ws acc) = n /\ forall i, (i < n)%nat -> nth i (fold_left (fun a w => factor w a) ws acc) 0 = nth i acc 0 * weight_at n k ws i.
Proof.
  induction 1 as [|w ws Hg HF IH]; intros acc La; [split; [exact La|intros i _; cbn; ring]|]. cbn [fold_left].
  destruct (H w acc Hg La) as [L1 N1]. destruct (IH _ L1) as [L2 N2]. split; [exact L2|]. intros i Hi. rewrite N2, N1 by exact Hi. rewrite weight_at_cons. ring.
Qed.
Lemma fold_root ws : Forall good ws -> nonneg n k ws ->
  exists w, root (fold_left (fun a w => factor w a) ws (vconst n 1)) = Ok w /\ length w = n /\ forall i, (i < n)%nat -> nth i w 0 * nth i w 0 = weight_at n k ws i.
Proof.
  intros HF HN. destruct (fold_ok ws HF (vconst n 1) (vconst_length _ _)) as [L N].
  assert (N1 : forall i, (i < n)%nat -> nth i (fold_left (fun a w => factor w a) ws (vconst n 1)) 0 = weight_at n k ws i).
  { intros i Hi. rewrite N by exact Hi. unfold vconst. rewrite nth_indep with (d' := 1) by (rewrite repeat_length; exact Hi). rewrite nth_repeat. ring. }
  destruct (root_ok (fold_left (fun a w => factor w a) ws (vconst n 1))) as (w & E & Lw & Nw).
  - rewrite L. intros i Hi. rewrite N1 by exact Hi. apply HN, Hi.
  - exists w. split; [exact E|]. rewrite L in *. split; [exact Lw|]. intros i Hi. rewrite Nw, N1 by exact Hi. reflexivity.
Qed.
End Fold.
Lemma small_step n k w acc : flat_cells n k w -> length acc = n ->
  length (small_factor n k w acc) = n /\ forall i, (i < n)%nat -> nth i (small_factor n k w acc) 0 = nth i acc 0 * weight_of n k w i.
Proof.
  intros [Hf Hs] La. destruct w as [v|]; [|contradiction]. cbn [small_factor weight_of]. destruct (length v =? n)%nat eqn:E.
  - apply Nat.eqb_eq in E. split; [rewrite vmul_length; congruence|]. intros i Hi. rewrite nth_vmul by congruence. reflexivity.
  - cbn in Hs. rewrite E, orb_false_r in Hs. cbn in Hs. rewrite Hs. rewrite vmul_length by (rewrite row_norms_length; congruence).
    split; [exact La|]. intros i Hi. rewrite nth_vmul by (rewrite ?row_norms_length; congruence). rewrite nth_row_norms, cell_chunk by exact Hi. reflexivity.
Qed.
Lemma small_W_ok n k ws : Forall (flat_cells n k) ws -> nonneg n k ws ->
  exists w, small_W n k ws = Ok w /\ length w = n /\ forall i, (i < n)%nat -> nth i w 0 * nth i w 0 = weight_at n k ws i.
Proof. apply (fold_root n k (small_factor n k) (flat_cells n k)). intros. apply small_step; assumption. Qed.
Lemma cross_step n k w acc : any_cells n k w -> length acc = n ->
  length (cross_factor n k w acc) = n /\ forall i, (i < n)%nat -> nth i (cross_factor n k w acc) 0 = nth i acc 0 * weight_of n k w i.
Proof.
  intros [Hf Hs] La. destruct w as [v|n' cols].
  - apply (small_step n k (W1 v) acc); [split; [exact I|exact Hs]|exact La].
  - cbn in Hs. rewrite orb_false_r in Hs. apply andb_prop in Hs. destruct Hs as [E1 E2]. apply Nat.eqb_eq in E1, E2. subst n' k. cbn in Hf.
    cbn [cross_factor weight_of]. rewrite Nat.mul_comm, Nat.eqb_refl, chunk_concat by exact Hf. rewrite vmul_length by (rewrite row_norms_length; congruence).
    split; [exact La|]. intros i Hi. rewrite nth_vmul by (rewrite ?row_norms_length; congruence). rewrite nth_row_norms by exact Hi. reflexivity.
Qed.
Lemma cross_root n k ws : Forall (any_cells n k) ws -> nonneg n k ws ->
  exists w, root (fold_left (fun acc w => cross_factor n k w acc) ws (vconst n 1)) = Ok w /\ length w = n /\ forall i, (i < n)%nat -> nth i w 0 * nth i w 0 = weight_at n k ws i.
Proof. apply (fold_root n k (cross_factor n k) (any_cells n k)). intros. apply cross_step; assumption. Qed.

(** Faces *)
Lemma map_nth_all (v : vec) : map (fun i => nth i v 0) (seq 0 (length v)) = v.
Proof. apply vec_ext; [rewrite map_length, seq_length; reflexivity|]. intros i Hi. rewrite map_length, seq_length in Hi. rewrite (nth_seq_map (fun i => nth i v 0)) by exact Hi. reflexivity. Qed.
Lemma norms_cells n k v : row_norms n (chunk n k v) = map (fun i => sqrt (length2 (cell n k v i))) (seq 0 n).
Proof.
  apply vec_ext; [rewrite row_norms_length, map_length, seq_length; reflexivity|]. intros i Hi. rewrite row_norms_length in Hi.
  rewrite nth_row_norms, cell_chunk, nth_seq_map by exact Hi. reflexivity.
Qed.
Lemma face_step nC nF k ave w : length ave = nF -> distinct_sizes nC nF k -> face_ok nC nF k w ->
  exists f, face_factor nC nF k ave w = Ok f /\ length f = nF /\ forall i, (i < nF)%nat -> nth i f 0 = face_weight nC nF k ave w i.
Proof.
  intros La (D1 & D2 & D3 & D4) (Hr & Hs & Hw). assert (K0 : (k =? 0)%nat = false) by (apply Nat.eqb_neq; exact D4).
  assert (D1' : (nF =? nC)%nat = false) by (apply Nat.eqb_neq; exact D1).
  destruct w as [v|n cols]; cbn [face_factor].
  - destruct (length v =? nC)%nat eqn:E1.
    { apply Nat.eqb_eq in E1. eexists. split; [reflexivity|]. split; [rewrite mv_length; exact La|]. intros i Hi. unfold face_weight, on_cells. rewrite E1, Nat.eqb_refl. cbn [orb].
      rewrite nth_mv by congruence. f_equal. rewrite <- (map_nth_all v) at 1. rewrite E1. apply map_ext. intros j. cbn [weight_of]. rewrite E1, Nat.eqb_refl. reflexivity. }
    destruct (length v =? nF)%nat eqn:E2.
    { apply Nat.eqb_eq in E2. eexists. split; [reflexivity|]. split; [exact E2|]. intros i Hi. unfold face_weight, on_cells. rewrite E1. cbn [orb].
      rewrite E2. rewrite (proj2 (Nat.eqb_neq _ _) D3). cbn [weight_of]. rewrite E2, Nat.eqb_refl. reflexivity. }
    unfold reshape_free, reshape. rewrite K0. cbn in Hs. rewrite E1, E2 in Hs. cbn in Hs. rewrite orb_false_r in Hs. apply orb_prop in Hs.
    destruct Hs as [E|E]; apply Nat.eqb_eq in E; rewrite E.
    + rewrite (Nat.mul_comm k nF), Nat.div_mul, Nat.eqb_refl by exact D4. cbn [bind]. cbv zeta. rewrite row_norms_length, D1'.
      eexists. split; [reflexivity|]. split; [apply row_norms_length|]. intros i Hi. unfold face_weight, on_cells. rewrite E1, E. cbn [orb].
      destruct (k * nF =? k * nC)%nat eqn:E3; [apply Nat.eqb_eq, Nat.mul_cancel_l in E3; [contradiction|exact D4]|].
      cbn [weight_of]. rewrite E2. rewrite nth_row_norms, cell_chunk by exact Hi. reflexivity.
    + rewrite (Nat.mul_comm k nC), Nat.div_mul, Nat.eqb_refl by exact D4. cbn [bind]. cbv zeta. rewrite row_norms_length, Nat.eqb_refl.
      eexists. split; [reflexivity|]. split; [rewrite mv_length; exact La|]. intros i Hi. unfold face_weight, on_cells. rewrite E, Nat.eqb_refl, orb_true_r.
      rewrite nth_mv by congruence. f_equal. rewrite norms_cells. apply map_ext. intros j. cbn [weight_of]. rewrite E1. reflexivity.
  - cbn in Hs. rewrite orb_false_r in Hs. destruct (n =? nC)%nat eqn:E0; [apply Nat.eqb_eq in E0; contradiction|]. cbn in Hs. rewrite orb_false_r in Hs.
    apply andb_prop in Hs. destruct Hs as [E1 E2]. apply Nat.eqb_eq in E1, E2. subst n k. cbn in Hr.
    pose proof (concat_length_cols nF cols Hr) as Lc. unfold reshape_free, reshape. rewrite K0, Lc, Nat.div_mul, Nat.eqb_refl by exact D4. cbn [bind]. cbv zeta.
    rewrite row_norms_length, D1', chunk_concat by exact Hr. eexists. split; [reflexivity|]. split; [apply row_norms_length|]. intros i Hi.
    unfold face_weight, on_cells. rewrite E0. cbn [weight_of]. rewrite nth_row_norms by exact Hi. reflexivity.
Qed.
Lemma face_product_ok nC nF k ave ws : length ave = nF -> distinct_sizes nC nF k -> Forall (face_ok nC nF k) ws -> forall a, length a = nF ->
  exists p, face_product nC nF k ave ws (Some a) = Ok (Some p) /\ length p = nF /\ forall i, (i < nF)%nat -> nth i p 0 = nth i a 0 * face_weight_at nC nF k ave ws i.
Proof.
  intros La D. induction 1 as [|w ws Hw HF IH]; intros a Ha.
  - exists a. split; [reflexivity|]. split; [exact Ha|]. intros i _. cbn. ring.
  - destruct (face_step nC nF k ave w La D Hw) as (f & E & Lf & Nf). cbn [face_product]. rewrite E. cbn [bind times_factor]. rewrite Ha, Lf, Nat.eqb_refl. cbn [bind].
    destruct (IH (vmul a f)) as (p & E2 & Lp & Np); [rewrite vmul_length; congruence|]. exists p. split; [exact E2|]. split; [exact Lp|]. intros i Hi.
    rewrite Np, nth_vmul, Nf by (try exact Hi; congruence). cbn [face_weight_at fold_right]. fold (face_weight_at nC nF k ave ws i). ring.
Qed.
Lemma face_W_ok nC nF k ave ws : length ave = nF -> distinct_sizes nC nF k -> ws <> [] -> Forall (face_ok nC nF k) ws ->
  (forall i, (i < nF)%nat -> 0 <= face_weight_at nC nF k ave ws i) ->
  exists w, face_W nC nF k ave ws = Ok w /\ length w = nF /\ forall i, (i < nF)%nat -> nth i w 0 * nth i w 0 = face_weight_at nC nF k ave ws i.
Proof.
  intros La D Ne HF HN. destruct HF as [|w ws Hw HF]; [contradiction|]. unfold face_W. cbn [face_product].
  destruct (face_step nC nF k ave w La D Hw) as (f & E & Lf & Nf). rewrite E. cbn [bind times_factor].
  destruct (face_product_ok nC nF k ave ws La D HF f Lf) as (p & E2 & Lp & Np). rewrite E2. cbn [bind].
  assert (Q : forall i, (i < nF)%nat -> nth i p 0 = face_weight_at nC nF k ave (w :: ws) i).
  { intros i Hi. rewrite Np, Nf by exact Hi. reflexivity. }
  destruct (root_ok p) as (r & Er & Lr & Nr); [rewrite Lp; intros i Hi; rewrite Q by exact Hi; apply HN, Hi|].
  exists r. split; [exact Er|]. rewrite Lp in *. split; [exact Lr|]. intros i Hi. rewrite Nr, Q by exact Hi. reflexivity.
Qed.

(** Values *)
Lemma delta_ok np ref used m : ref_ok np ref -> length m = np -> delta ref used m = Ok (differ ref used m).
Proof. intros Hr Lm. unfold delta, differ. destruct ref as [r|]; [|reflexivity]. destruct used; [|reflexivity]. cbn in Hr. rewrite Lm, Hr, Nat.eqb_refl. reflexivity. Qed.
Lemma norms_value n w cols W : length w = n -> (forall i, (i < n)%nat -> nth i w 0 * nth i w 0 = W i) ->
  wnorm2 w (row_norms n cols) = Ok (total n (fun i => W i * length2 (map (fun c => nth i c 0) cols))).
Proof.
  intros Lw HW. unfold wnorm2. rewrite row_norms_length, Lw, Nat.eqb_refl. f_equal. cbv zeta.
  rewrite (dot_total n) by (rewrite vmul_length; rewrite ?row_norms_length; congruence). apply total_ext. intros i Hi.
  rewrite nth_vmul by (rewrite ?row_norms_length; congruence). rewrite nth_row_norms by exact Hi. rewrite <- HW by exact Hi.
  rewrite <- (sqrt_sq (map (fun c => nth i c 0) cols)) at 3. ring.
Qed.
Lemma amp_value nC k np M ref ws m : Forall (flat_cells nC k) ws -> nonneg nC k ws -> ref_ok np ref -> length m = np ->
  length (phi M (differ ref true m)) = (nC * k)%nat ->
  amp_call nC k M ref ws m = Ok (total nC (fun i => weight_at nC k ws i * length2 (cell nC k (phi M (differ ref true m)) i))).
Proof.
  intros HF HN Hr Lm Lp. destruct (small_W_ok nC k ws HF HN) as (w & E & Lw & Nw). unfold amp_call, amp_f_m. rewrite E. cbn [bind].
  rewrite (delta_ok np) by assumption. cbn [bind]. unfold reshape. rewrite Lp, Nat.eqb_refl. cbn [bind]. rewrite (norms_value nC w _ _ Lw Nw). f_equal.
  apply total_ext. intros i Hi. rewrite cell_chunk by exact Hi. reflexivity.
Qed.
Lemma smooth_value nC k np G ave M ref used ws m : length ave = length G -> distinct_sizes nC (length G) k -> ws <> [] -> Forall (face_ok nC (length G) k) ws ->
  (forall i, (i < length G)%nat -> 0 <= face_weight_at nC (length G) k ave ws i) -> ref_ok np ref -> length m = np ->
  length (phi M (differ ref used m)) = (nC * k)%nat ->
  smooth_call nC k G ave M ref used ws m = Ok (total (length G) (fun f => face_weight_at nC (length G) k ave ws f * length2 (jump nC k G (phi M (differ ref used m)) f))).
Proof.
  intros La D Ne HF HN Hr Lm Lp. destruct (face_W_ok nC (length G) k ave ws La D Ne HF HN) as (w & E & Lw & Nw). unfold smooth_call, smooth_f_m. rewrite E. cbn [bind].
  rewrite (delta_ok np) by assumption. cbn [bind]. unfold reshape. rewrite Lp, Nat.eqb_refl. cbn [bind]. rewrite (norms_value (length G) w _ _ Lw Nw). f_equal.
  apply total_ext. intros i Hi. do 2 f_equal. unfold jump, chunk. rewrite !map_map. apply map_ext. intros c. apply nth_mv. exact Hi.
Qed.

(** Gradients *)
Section Grad.
Variables (nC k np : nat) (a : akind) (M : rmap) (A : mat) (ref : option vec) (used : bool) (w : vec).
Hypothesis Ha : kind_ok nC a.
Hypothesis Hk : k <> 0%nat.
Hypothesis HM : linear_map np (nC * k) M A.
Hypothesis Hr : ref_ok np ref.
Hypothesis Lw : length w = rows_of nC a.
Let L := fd nC k a A.
Let LT := fdT nC k np a A.
Let wt := tile k w.
Lemma wt_len : length wt = (rows_of nC a * k)%nat.
Proof. unfold wt. rewrite tile_length, Lw. reflexivity. Qed.
Lemma fd_at_lin m : length m = np -> fd_at a M m (differ ref used m) = A.
Proof. intros Lm. unfold fd_at. destruct a; [|]; apply HM; [exact Lm|]. apply differ_len; assumption. Qed.
Lemma amp_deriv_ok m : length m = np -> amp_deriv nC k a M ref used (Ok w) m = Ok (grad_of L LT wt ref used m).
Proof.
  intros Lm. unfold amp_deriv. rewrite (delta_ok np) by assumption. cbn [bind]. rewrite fd_at_lin by exact Lm.
  rewrite (weighted_flat (rows_of nC a)) by (try assumption; (apply (fd_len nC k np); [exact Ha|apply HM])). cbn [bind]. rewrite Lm. reflexivity.
Qed.
Lemma amp_deriv2_ok m v : length m = np -> amp_deriv2 nC k a M ref used (Ok w) m v = Ok (hess L LT wt v).
Proof.
  intros Lm. assert (E : forall d, (a = ASmall \/ length d = np) -> fd_at a M m d = A).
  { intros d Hd. unfold fd_at. destruct a; [apply HM; exact Lm|]. apply HM. destruct Hd as [Hd|Hd]; [discriminate|exact Hd]. }
  unfold amp_deriv2. destruct a as [|G] eqn:Ea.
  - cbn [bind]. rewrite E by (left; reflexivity). rewrite (weighted_flat nC) by (try assumption; (rewrite (fd_len nC k np); [reflexivity|exact Ha|apply HM])). cbn [bind]. rewrite Lm. reflexivity.
  - rewrite (delta_ok np) by assumption. cbn [bind]. rewrite E by (right; apply differ_len; assumption).
    rewrite (weighted_flat (length G)) by (try assumption; (rewrite (fd_len nC k np); [reflexivity|exact Ha|apply HM])). cbn [bind]. rewrite Lm. reflexivity.
Qed.
Lemma amp_deriv2_matrix_ok m v : length m = np -> amp_deriv2_matrix nC k a M ref used (Ok w) m v = Ok (hess L LT wt v).
Proof.
  intros Lm. assert (E : forall d, (a = ASmall \/ length d = np) -> fd_at a M m d = A).
  { intros d Hd. unfold fd_at. destruct a; [apply HM; exact Lm|]. apply HM. destruct Hd as [Hd|Hd]; [discriminate|exact Hd]. }
  assert (T : forall n u, n = rows_of nC a -> length u = (n * k)%nat -> length (tile k (vmul w w)) = length u /\ vmul (tile k (vmul w w)) u = vmul wt (vmul wt u)).
  { intros n u En Lu. assert (Lww : length (vmul w w) = n) by (rewrite vmul_length; congruence). split; [rewrite tile_length, Lww, Lu; reflexivity|].
    assert (Lt : length (vmul wt u) = (n * k)%nat) by (rewrite vmul_length; rewrite wt_len; congruence).
    assert (Q : forall j x, vmul (tile j (vmul w w)) x = vmul (tile j w) (vmul (tile j w) x)).
    { clear. intros j. induction j as [|j IH]; intros x; [reflexivity|]. unfold tile in *. cbn [repeat concat].
      assert (R : forall b c b' c' y, (forall z, vmul c z = vmul c' (vmul c' z)) -> b = vmul b' b' -> vmul (b ++ c) y = vmul (b' ++ c') (vmul (b' ++ c') y)).
      { intros b c b' c' y Hc ->. revert y. induction b' as [|z b' IHb]; intros y; [apply Hc|]. destruct y as [|y0 y]; [reflexivity|]. cbn. f_equal; [ring|apply IHb]. }
      apply R; [exact IH|reflexivity]. }
    apply Q. }
  unfold amp_deriv2_matrix. destruct a as [|G] eqn:Ea.
  - cbn [bind]. rewrite E by (left; reflexivity). change (concat (repeat (vmul w w) k)) with (tile k (vmul w w)). cbv zeta.
    destruct (T nC (fd nC k ASmall A v) eq_refl) as [T1 T2]; [rewrite (fd_len nC k np); [reflexivity|exact Ha|apply HM]|]. rewrite T1, T2, Nat.eqb_refl, Lm. reflexivity.
  - rewrite (delta_ok np) by assumption. cbn [bind]. rewrite E by (right; apply differ_len; assumption). change (concat (repeat (vmul w w) k)) with (tile k (vmul w w)). cbv zeta.
    destruct (T (length G) (fd nC k (ASmooth G) A v) eq_refl) as [T1 T2]; [rewrite (fd_len nC k np); [reflexivity|exact Ha|apply HM]|]. rewrite T1, T2, Nat.eqb_refl, Lm. reflexivity.
Qed.
End Grad.
