(** The amplitude terms: gradient, second derivative, rotations. *)
From Verif Require Import Py Vec VecDeriv Reg RegFacts RegFacts2 VecReg SpecVecReg VecRegFacts VecRegFacts2 VecRegFacts3.
Local Open Scope R_scope.

Section Small.
Variables (nC k np : nat) (M : rmap) (A : mat) (ref : option vec) (ws : list warr).
Hypothesis Hk : k <> 0%nat.
Hypothesis HM : linear_map np (nC * k) M A.
Hypothesis Hr : ref_ok np ref.
Hypothesis HF : Forall (flat_cells nC k) ws.
Hypothesis HN : nonneg nC k ws.
Let L := fd nC k ASmall A.
Let LT := fdT nC k np ASmall A.
Lemma small_call_value w y : small_W nC k ws = Ok w -> length w = nC -> length y = np -> amp_call nC k M ref ws y = Ok (value L (tile k w) ref true y).
Proof.
  intros E Lw Ly. unfold amp_call, amp_f_m. rewrite E. cbn [bind]. rewrite (delta_ok np) by assumption. cbn [bind].
  assert (Ld : length (differ ref true y) = np) by (apply differ_len; assumption). rewrite (proj1 (proj2 HM _ Ld)).
  assert (Lm : length (mv A (differ ref true y)) = (nC * k)%nat) by (rewrite mv_length; apply HM). unfold reshape. rewrite Lm, Nat.eqb_refl. cbn [bind].
  rewrite (value_flat nC k w _ Lw Lm). reflexivity.
Qed.
Lemma small_gradient m : length m = np ->
  exists F g, (forall y, length y = np -> amp_call nC k M ref ws y = Ok (F y)) /\
    amp_deriv nC k ASmall M ref true (small_W nC k ws) m = Ok g /\ has_gradient np F m g.
Proof.
  intros Lm. destruct (small_W_ok nC k ws HF HN) as (w & E & Lw & _). exists (value L (tile k w) ref true), (grad_of L LT (tile k w) ref true m).
  split; [intros y Ly; apply small_call_value; assumption|]. split; [rewrite E; apply (amp_deriv_ok nC k np ASmall M A ref true w); try assumption; exact I|].
  apply (quad_gradient np (nC * k)); try assumption.
  - intros v _. apply (fd_len nC k np ASmall A I). apply HM.
  - intros u _. apply (fdT_len nC k np ASmall A I). apply HM.
  - intros u v Lu Lv. apply (fd_adj nC k np ASmall A I); try assumption. apply HM.
  - rewrite tile_length, Lw. reflexivity.
Qed.
Lemma small_newton m v : length m = np -> length v = np ->
  exists G Hv, (forall y, length y = np -> amp_deriv nC k ASmall M ref true (small_W nC k ws) y = Ok (G y)) /\
    amp_deriv2 nC k ASmall M ref true (small_W nC k ws) m v = Ok Hv /\ amp_deriv2_matrix nC k ASmall M ref true (small_W nC k ws) m v = Ok Hv /\
    vderiv np (fun t => G (vadd m (vscale t v))) 0 Hv /\ 0 <= dot v Hv.
Proof.
  intros Lm Lv. destruct (small_W_ok nC k ws HF HN) as (w & E & Lw & _). exists (grad_of L LT (tile k w) ref true), (hess L LT (tile k w) v).
  rewrite E. split; [intros y Ly; apply (amp_deriv_ok nC k np ASmall M A ref true w); try assumption; exact I|].
  split; [apply (amp_deriv2_ok nC k np ASmall M A ref true w); try assumption; exact I|].
  split; [apply (amp_deriv2_matrix_ok nC k np ASmall M A ref true w); try assumption; exact I|].
  assert (H1 : forall v, length v = np -> length (L v) = (nC * k)%nat) by (intros x _; apply (fd_len nC k np ASmall A I); apply HM).
  assert (H2 : forall u, length u = (nC * k)%nat -> length (LT u) = np) by (intros x _; apply (fdT_len nC k np ASmall A I); apply HM).
  assert (H3 : forall u v, length u = (nC * k)%nat -> length v = np -> dot u (L v) = dot (LT u) v) by (intros u x Lu Lx; apply (fd_adj nC k np ASmall A I); try assumption; apply HM).
  assert (H4 : length (tile k w) = (nC * k)%nat) by (rewrite tile_length, Lw; reflexivity).
  split; [apply (quad_newton np (nC * k)); assumption|]. apply (quad_symmetric np (nC * k) L LT (tile k w) H1 H3 H4 v v Lv Lv).
Qed.
End Small.

Section Smooth.
Variables (nC k np : nat) (G ave : mat) (M : rmap) (A : mat) (ref : option vec) (used : bool) (ws : list warr).
Let nF := length G.
Let a := ASmooth G.
Hypothesis HG : is_mat (length G) nC G.
Hypothesis HM : linear_map np (nC * k) M A.
Hypothesis Hr : ref_ok np ref.
Hypothesis La : length ave = nF.
Hypothesis HD : distinct_sizes nC nF k.
Hypothesis Ne : ws <> [].
Hypothesis HF : Forall (face_ok nC nF k) ws.
Hypothesis HN : forall i, (i < nF)%nat -> 0 <= face_weight_at nC nF k ave ws i.
Let L := fd nC k a A.
Let LT := fdT nC k np a A.
Lemma smooth_k : k <> 0%nat.
Proof. destruct HD as (_ & _ & _ & H). exact H. Qed.
Lemma smooth_call_value w y : face_W nC nF k ave ws = Ok w -> length w = nF -> length y = np -> smooth_call nC k G ave M ref used ws y = Ok (value L (tile k w) ref used y).
Proof.
  intros E Lw Ly. unfold smooth_call, smooth_f_m. fold nF. rewrite E. cbn [bind]. rewrite (delta_ok np) by assumption. cbn [bind].
  assert (Ld : length (differ ref used y) = np) by (apply differ_len; assumption). rewrite (proj1 (proj2 HM _ Ld)).
  assert (Lm : length (mv A (differ ref used y)) = (nC * k)%nat) by (rewrite mv_length; apply HM). unfold reshape. rewrite Lm, Nat.eqb_refl. cbn [bind].
  rewrite <- chunk_block. fold nF. rewrite (value_flat nF k w _ Lw (block_length _ _ _ _)). reflexivity.
Qed.
Lemma smooth_gradient m : length m = np ->
  exists F g, (forall y, length y = np -> smooth_call nC k G ave M ref used ws y = Ok (F y)) /\
    amp_deriv nC k a M ref used (face_W nC nF k ave ws) m = Ok g /\ has_gradient np F m g.
Proof.
  intros Lm. pose proof smooth_k as Hk. destruct (face_W_ok nC nF k ave ws La HD Ne HF HN) as (w & E & Lw & _). exists (value L (tile k w) ref used), (grad_of L LT (tile k w) ref used m).
  split; [intros y Ly; apply smooth_call_value; assumption|]. split; [rewrite E; apply (amp_deriv_ok nC k np a M A ref used w); assumption|].
  apply (quad_gradient np (nF * k)); try assumption.
  - intros v _. apply (fd_len nC k np a A HG). apply HM.
  - intros u _. apply (fdT_len nC k np a A HG). apply HM.
  - intros u v Lu Lv. apply (fd_adj nC k np a A HG); try assumption. apply HM.
  - rewrite tile_length, Lw. reflexivity.
Qed.
Lemma smooth_newton m v : length m = np -> length v = np ->
  exists Gr Hv, (forall y, length y = np -> amp_deriv nC k a M ref used (face_W nC nF k ave ws) y = Ok (Gr y)) /\
    amp_deriv2 nC k a M ref used (face_W nC nF k ave ws) m v = Ok Hv /\ amp_deriv2_matrix nC k a M ref used (face_W nC nF k ave ws) m v = Ok Hv /\
    vderiv np (fun t => Gr (vadd m (vscale t v))) 0 Hv /\ 0 <= dot v Hv.
Proof.
  intros Lm Lv. pose proof smooth_k as Hk. destruct (face_W_ok nC nF k ave ws La HD Ne HF HN) as (w & E & Lw & _). exists (grad_of L LT (tile k w) ref used), (hess L LT (tile k w) v).
  rewrite E. split; [intros y Ly; apply (amp_deriv_ok nC k np a M A ref used w); assumption|].
  split; [apply (amp_deriv2_ok nC k np a M A ref used w); assumption|].
  split; [apply (amp_deriv2_matrix_ok nC k np a M A ref used w); assumption|].
  assert (H1 : forall v, length v = np -> length (L v) = (nF * k)%nat) by (intros x _; apply (fd_len nC k np a A HG); apply HM).
  assert (H2 : forall u, length u = (nF * k)%nat -> length (LT u) = np) by (intros x _; apply (fdT_len nC k np a A HG); apply HM).
  assert (H3 : forall u v, length u = (nF * k)%nat -> length v = np -> dot u (L v) = dot (LT u) v) by (intros u x Lu Lx; apply (fd_adj nC k np a A HG); try assumption; apply HM).
  assert (H4 : length (tile k w) = (nF * k)%nat) by (rewrite tile_length, Lw; reflexivity).
  split; [apply (quad_newton np (nF * k)); assumption|]. apply (quad_symmetric np (nF * k) L LT (tile k w) H1 H3 H4 v v Lv Lv).
Qed.
End Smooth.

(** Rotations *)
Lemma total_swap n m (f : nat -> nat -> R) : total n (fun i => total m (f i)) = total m (fun j => total n (fun i => f i j)).
Proof. induction n as [|n IH]; [cbn; symmetry; apply total_0|]. rewrite total_S, IH, <- total_plus. apply total_ext. intros j _. rewrite total_S. reflexivity. Qed.
Lemma col_nth n v c i : (i < n)%nat -> nth i (firstn n (skipn (c * n) v)) 0 = nth (c * n + i) v 0.
Proof.
  intros H. pose proof (cell_chunk n (S c) v i H) as E. apply (f_equal (fun l => nth c l 0)) in E. revert E. unfold cell. rewrite (nth_seq_map (fun c => nth (c * n + i) v 0)) by lia.
  intros <-. unfold chunk. rewrite map_map. rewrite (nth_seq_map (fun x => nth i (firstn n (skipn (x * n) v)) 0)) by lia. reflexivity.
Qed.
Lemma jump_length n k G v f : length (jump n k G v f) = k.
Proof. unfold jump. rewrite map_length, seq_length. reflexivity. Qed.
Lemma cell_length n k v i : length (cell n k v i) = k.
Proof. unfold cell. rewrite map_length, seq_length. reflexivity. Qed.
Lemma jump_rotate nF n k G Q u u' f : is_mat nF n G -> is_mat k k Q -> (f < nF)%nat -> length u = (n * k)%nat -> length u' = (n * k)%nat ->
  (forall i, (i < n)%nat -> cell n k u' i = mv Q (cell n k u i)) -> jump n k G u' f = mv Q (jump n k G u f).
Proof.
  intros HG HQ Hf Lu Lu' H. pose proof HG as [EG FG]. pose proof HQ as [EQ FQ].
  assert (Lg : length (nth f G []) = n) by (rewrite Forall_forall in FG; apply FG, nth_In; lia).
  assert (Lc : forall (v : vec) c, length v = (n * k)%nat -> (c < k)%nat -> length (firstn n (skipn (c * n) v)) = n).
  { intros v c Lv Hc. rewrite firstn_length, skipn_length, Lv. nia. }
  apply vec_ext; [rewrite jump_length, mv_length; congruence|]. rewrite jump_length. intros c Hc.
  rewrite nth_mv by congruence. unfold jump at 1. rewrite (nth_seq_map (fun c => dot (nth f G []) (firstn n (skipn (c * n) u')))) by exact Hc.
  assert (Lq : length (nth c Q []) = k) by (rewrite Forall_forall in FQ; apply FQ, nth_In; lia).
  rewrite (dot_total n) by (try exact Lg; apply Lc; assumption). rewrite (dot_total k) by (try exact Lq; apply jump_length).
  transitivity (total n (fun i => total k (fun d => nth d (nth c Q []) 0 * (nth i (nth f G []) 0 * nth (d * n + i) u 0)))).
  - apply total_ext. intros i Hi. rewrite col_nth by exact Hi.
    assert (E : nth (c * n + i) u' 0 = dot (nth c Q []) (cell n k u i)).
    { rewrite <- nth_mv by congruence. rewrite <- H by exact Hi. unfold cell. rewrite (nth_seq_map (fun c => nth (c * n + i) u' 0)) by exact Hc. reflexivity. }
    rewrite E, (dot_total k) by (try exact Lq; apply cell_length). rewrite <- total_scal. apply total_ext. intros d Hd.
    unfold cell. rewrite (nth_seq_map (fun c => nth (c * n + i) u 0)) by exact Hd. ring.
  - rewrite total_swap. apply total_ext. intros d Hd. rewrite total_scal. f_equal. unfold jump.
    rewrite (nth_seq_map (fun c => dot (nth f G []) (firstn n (skipn (c * n) u)))) by exact Hd.
    rewrite (dot_total n) by (try exact Lg; apply Lc; assumption). apply total_ext. intros i Hi. rewrite col_nth by exact Hi. reflexivity.
Qed.
Lemma amp_rotate nC k np M ref ws m m' : Forall (flat_cells nC k) ws -> nonneg nC k ws -> ref_ok np ref -> length m = np -> length m' = np ->
  length (phi M (differ ref true m)) = (nC * k)%nat -> length (phi M (differ ref true m')) = (nC * k)%nat ->
  (forall i, (i < nC)%nat -> length2 (cell nC k (phi M (differ ref true m')) i) = length2 (cell nC k (phi M (differ ref true m)) i)) ->
  amp_call nC k M ref ws m' = amp_call nC k M ref ws m.
Proof.
  intros HF HN Hr Lm Lm' Lp Lp' H. rewrite !(amp_value nC k np) by assumption. f_equal. apply total_ext. intros i Hi. rewrite H by exact Hi. reflexivity.
Qed.
Lemma smooth_rotate nC k np G ave M ref used ws Q m m' : is_mat (length G) nC G -> length ave = length G -> distinct_sizes nC (length G) k -> ws <> [] ->
  Forall (face_ok nC (length G) k) ws -> (forall i, (i < length G)%nat -> 0 <= face_weight_at nC (length G) k ave ws i) -> ref_ok np ref -> length m = np -> length m' = np ->
  length (phi M (differ ref used m)) = (nC * k)%nat -> length (phi M (differ ref used m')) = (nC * k)%nat -> isometry k Q ->
  (forall i, (i < nC)%nat -> cell nC k (phi M (differ ref used m')) i = mv Q (cell nC k (phi M (differ ref used m)) i)) ->
  smooth_call nC k G ave M ref used ws m' = smooth_call nC k G ave M ref used ws m.
Proof.
  intros HG La HD Ne HF HN Hr Lm Lm' Lp Lp' [HQ HI] H. rewrite !(smooth_value nC k np) by assumption. f_equal. apply total_ext. intros f Hf. f_equal.
  rewrite (jump_rotate (length G) nC k G Q _ _ f HG HQ Hf Lp Lp' H). apply HI. apply jump_length.
Qed.
