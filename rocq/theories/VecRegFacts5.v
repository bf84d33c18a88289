(** The cross reference term. *)
From Verif Require Import Py Vec VecDeriv Reg RegFacts RegFacts2 VecReg SpecVecReg VecRegFacts VecRegFacts2 VecRegFacts3 VecRegFacts4.
Local Open Scope R_scope.

(** A linear operator with an adjoint is a matrix. *)
Definition unit_at (n i : nat) : vec := map (fun j => if (j =? i)%nat then 1 else 0) (seq 0 n).
Lemma unit_length n i : length (unit_at n i) = n.
Proof. unfold unit_at. rewrite map_length, seq_length. reflexivity. Qed.
Lemma total_single n i f : (i < n)%nat -> total n (fun j => (if (j =? i)%nat then 1 else 0) * f j) = f i.
Proof.
  induction n as [|n IH]; intros H; [lia|]. rewrite total_S. destruct (Nat.eq_dec n i) as [->|Ne].
  - rewrite Nat.eqb_refl. rewrite (total_ext i _ (fun _ => 0)), total_0; [ring|]. intros j Hj. rewrite (proj2 (Nat.eqb_neq j i)) by lia. ring.
  - rewrite IH by lia. rewrite (proj2 (Nat.eqb_neq n i)) by exact Ne. ring.
Qed.
Lemma unit_dot n i v : length v = n -> (i < n)%nat -> dot (unit_at n i) v = nth i v 0.
Proof.
  intros Lv Hi. rewrite (dot_total n) by (try apply unit_length; exact Lv). rewrite <- (total_single n i (fun j => nth j v 0) Hi). apply total_ext. intros j Hj.
  unfold unit_at. rewrite (nth_seq_map (fun j => if (j =? i)%nat then 1 else 0)) by exact Hj. reflexivity.
Qed.
Section Nonlin.
Variables (np P N : nat) (X XT : vec -> vec) (phi : vec -> vec) (J : mat) (wt m : vec).
Hypothesis HX : forall v, length v = P -> length (X v) = N.
Hypothesis HXT : forall w, length w = N -> length (XT w) = P.
Hypothesis HA : forall w v, length w = N -> length v = P -> dot w (X v) = dot (XT w) v.
Hypothesis Hw : length wt = N.
Hypothesis Lm : length m = np.
Hypothesis Hp : forall y, length y = np -> length (phi y) = P.
Hypothesis HJm : is_mat P np J.
Hypothesis HJ : has_jacobian np P phi m (mv J).
Definition asmat : mat := map (fun i => XT (unit_at N i)) (seq 0 N).
Lemma asmat_mat : is_mat N P asmat.
Proof.
  split; [unfold asmat; rewrite map_length, seq_length; reflexivity|]. apply Forall_forall. intros r Hr. unfold asmat in Hr. apply in_map_iff in Hr.
  destruct Hr as (i & <- & _). apply HXT, unit_length.
Qed.
Lemma asmat_mv v : length v = P -> mv asmat v = X v.
Proof.
  intros Lv. apply vec_ext; [rewrite mv_length, (proj1 asmat_mat), HX by exact Lv; reflexivity|]. rewrite mv_length, (proj1 asmat_mat). intros i Hi.
  rewrite nth_mv by (rewrite (proj1 asmat_mat); exact Hi). unfold asmat. rewrite (nth_seq_map (fun i => XT (unit_at N i))) by exact Hi.
  rewrite <- HA by (try apply unit_length; exact Lv). apply unit_dot; [apply HX, Lv|exact Hi].
Qed.
Definition nl_value (y : vec) : R := dot (vmul wt (X (phi y))) (vmul wt (X (phi y))).
Definition nl_grad : vec := vscale 2 (mtv np J (XT (vmul wt (vmul wt (X (phi m)))))).
Definition nl_hess (v : vec) : vec := vscale 2 (mtv np J (XT (vmul wt (vmul wt (X (mv J v)))))).
Lemma wwx v : length v = P -> length (vmul wt (vmul wt (X v))) = N.
Proof. intros Lv. pose proof (HX v Lv). rewrite vmul_length; [exact Hw|]. rewrite vmul_length; congruence. Qed.
Lemma nl_gradient : has_gradient np nl_value m nl_grad.
Proof.
  split; [unfold nl_grad; rewrite vscale_length; apply (mtv_length P); exact HJm|]. intros h Lh. pose proof (HJ h Lh) as D0.
  pose proof (vderiv_mv _ _ _ _ _ _ asmat_mat D0) as D1.
  assert (Ll : forall t, length (vadd m (vscale t h)) = np) by (intros t; rewrite vadd_length; rewrite ?vscale_length; congruence).
  assert (D2 : vderiv N (fun t => X (phi (vadd m (vscale t h)))) 0 (X (mv J h))).
  { rewrite <- asmat_mv by (rewrite mv_length; apply HJm). eapply vderiv_ext; [|exact D1]. intros t. apply asmat_mv. apply Hp, Ll. }
  pose proof (vderiv_wmul _ wt _ _ _ Hw D2) as D. pose proof (deriv_normsq _ _ _ _ D) as D3. cbn beta in D3.
  rewrite vscale_0 in D3. rewrite vadd_zero_r in D3 by congruence. eapply dpl_eq; [|exact D3].
  unfold nl_grad. rewrite dot_vscale_l, <- (mv_mtv_adjoint P) by (try exact HJm; try exact Lh; apply HXT, wwx, Hp, Lm).
  rewrite <- HA by (try (apply wwx, Hp, Lm); rewrite mv_length; apply HJm). rewrite !dot_vmul_swap. reflexivity.
Qed.
Lemma nl_psd u v : length u = np -> length v = np -> dot u (nl_hess v) = dot (nl_hess u) v /\ 0 <= dot v (nl_hess v).
Proof.
  intros Lu Lv. assert (LJ : forall x, length (mv J x) = P) by (intros; rewrite mv_length; apply HJm). unfold nl_hess.
  rewrite !dot_vscale_l, !dot_vscale_r, (dot_comm u), (dot_comm v).
  rewrite <- !(mv_mtv_adjoint P) by (try exact HJm; try assumption; apply HXT, wwx, LJ). rewrite <- !HA by (try apply wwx; apply LJ).
  split; [f_equal; rewrite dot_comm, !dot_vmul_swap; reflexivity|]. rewrite dot_vmul_swap. pose proof (dot_self_nonneg (vmul wt (X (mv J v)))). lra.
Qed.
End Nonlin.

(** The directions. *)
Lemma dir_rows nC dim d D : set_dir nC dim d = Ok D -> (2 <= dim)%nat /\
  (forall i, (i < nC)%nat -> length (direction d i) = dim) /\
  D = map (fun c => map (fun i => nth c (direction d i) 0) (seq 0 nC)) (seq 0 dim).
Proof.
  unfold set_dir. destruct d as [v|rows].
  - destruct (length v =? dim)%nat eqn:E; [|discriminate]. apply Nat.eqb_eq in E. cbn [bind]. destruct (dim <? 2)%nat eqn:E2; [discriminate|]. apply Nat.ltb_ge in E2.
    intros H. injection H as <-. split; [exact E2|]. split; [intros; exact E|]. apply map_ext. intros c. cbn [direction].
    clear. generalize 0%nat. induction nC as [|n IH]; intros s; [reflexivity|]. cbn [repeat map seq]. f_equal. apply IH.
  - destruct ((length rows =? nC) && forallb (fun r => length r =? dim) rows)%nat eqn:E; [|discriminate]. apply andb_prop in E. destruct E as [E F]. apply Nat.eqb_eq in E.
    cbn [bind]. destruct (dim <? 2)%nat eqn:E2; [discriminate|]. apply Nat.ltb_ge in E2. intros H. injection H as <-. split; [exact E2|]. split.
    + intros i Hi. cbn [direction]. rewrite forallb_forall in F. apply Nat.eqb_eq. apply F. apply nth_In. lia.
    + apply map_ext. intros c. cbn [direction]. rewrite <- E. clear. apply vec_ext; [rewrite !map_length, seq_length; reflexivity|]. rewrite map_length. intros i Hi.
      rewrite (nth_seq_map (fun i => nth c (nth i rows []) 0)) by exact Hi.
      erewrite nth_indep by (rewrite map_length; exact Hi). rewrite (map_nth (fun r => nth c r 0) rows [] i). reflexivity.
Qed.
Section Cross.
Variables (nC dim : nat) (d : dirval) (D : mat).
Hypothesis Hd : set_dir nC dim d = Ok D.
Hypothesis Hdim : dim = 2%nat \/ dim = 3%nat.
Definition dc (c : nat) : vec := map (fun i => nth c (direction d i) 0) (seq 0 nC).
Lemma dc_len c : length (dc c) = nC.
Proof. unfold dc. rewrite map_length, seq_length. reflexivity. Qed.
Lemma nth_dc c i : (i < nC)%nat -> nth i (dc c) 0 = nth c (direction d i) 0.
Proof. intros H. unfold dc. apply (nth_seq_map (fun i => nth c (direction d i) 0)). exact H. Qed.
Lemma D_dim : D = map dc (seq 0 dim).
Proof. apply (dir_rows nC dim d D Hd). Qed.
Definition n_out : nat := if (dim =? 2)%nat then nC else (nC * 3)%nat.
Definition X (u : vec) : vec := match cross_X nC D u with Ok x => x | Err _ => [] end.
Definition XT (w : vec) : vec := match cross_XT nC D w with Ok x => x | Err _ => [] end.
Definition col (c : nat) (v : vec) : vec := firstn nC (skipn (c * nC) v).
Lemma col_len k c v : length v = (nC * k)%nat -> (c < k)%nat -> length (col c v) = nC.
Proof. clear Hd Hdim. intros L H. unfold col. rewrite firstn_length, skipn_length, L. nia. Qed.
Definition term (a b c e : vec) : vec := vsub (vmul a b) (vmul c e).
Lemma term_len a b c e : length a = nC -> length b = nC -> length c = nC -> length e = nC -> length (term a b c e) = nC.
Proof. intros. unfold term. rewrite vsub_length; rewrite !vmul_length; congruence. Qed.
Lemma term_nth a b c e i : (i < nC)%nat -> length a = nC -> length b = nC -> length c = nC -> length e = nC ->
  nth i (term a b c e) 0 = nth i a 0 * nth i b 0 - nth i c 0 * nth i e 0.
Proof. intros. unfold term. rewrite nth_vsub by (rewrite !vmul_length; congruence). rewrite !nth_vmul by congruence. reflexivity. Qed.
Lemma X_ok u : length u = (nC * dim)%nat -> cross_X nC D u = Ok (X u) /\ length (X u) = n_out /\
  (dim = 2%nat -> X u = term (dc 1) (col 0 u) (dc 0) (col 1 u)) /\
  (dim = 3%nat -> X u = term (dc 2) (col 1 u) (dc 1) (col 2 u) ++ term (dc 0) (col 2 u) (dc 2) (col 0 u) ++ term (dc 1) (col 0 u) (dc 0) (col 1 u)).
Proof.
  intros Lu. unfold X. rewrite D_dim. unfold n_out. destruct Hdim as [E|E]; rewrite E in Lu |- *; cbn [seq map cross_X]; unfold reshape; rewrite Lu, Nat.eqb_refl; cbn [bind Nat.eqb].
  - cbv zeta. rewrite !nth_chunk by lia. fold (col 0 u) (col 1 u). change (vsub (vmul (dc 1) (col 0 u)) (vmul (dc 0) (col 1 u))) with (term (dc 1) (col 0 u) (dc 0) (col 1 u)).
    split; [reflexivity|]. split; [apply term_len; try apply dc_len; apply (col_len 2); try assumption; lia|]. split; [reflexivity|discriminate].
  - cbv zeta. rewrite !nth_chunk by lia. fold (col 0 u) (col 1 u) (col 2 u). split; [reflexivity|].
    assert (LC : forall c, (c < 3)%nat -> length (col c u) = nC) by (intros c Hc; apply (col_len 3); assumption).
    split; [|split; [discriminate|reflexivity]]. rewrite !app_length.
    change (length (term (dc 2) (col 1 u) (dc 1) (col 2 u)) + (length (term (dc 0) (col 2 u) (dc 2) (col 0 u)) + length (term (dc 1) (col 0 u) (dc 0) (col 1 u))) = nC * 3)%nat.
    rewrite !term_len by (try apply dc_len; apply LC; lia). lia.
Qed.
Lemma XT_ok w : length w = n_out -> cross_XT nC D w = Ok (XT w) /\ length (XT w) = (nC * dim)%nat /\
  (dim = 2%nat -> XT w = vmul (dc 1) w ++ vopp (vmul (dc 0) w)) /\
  (dim = 3%nat -> XT w = term (dc 1) (col 2 w) (dc 2) (col 1 w) ++ term (dc 2) (col 0 w) (dc 0) (col 2 w) ++ term (dc 0) (col 1 w) (dc 1) (col 0 w)).
Proof.
  intros Lw. unfold XT. rewrite D_dim. unfold n_out in Lw. destruct Hdim as [E|E]; rewrite E in Lw |- *; cbn [seq map cross_XT]; cbn [Nat.eqb] in Lw.
  - rewrite Lw, Nat.eqb_refl. split; [reflexivity|]. split; [|split; [reflexivity|discriminate]]. rewrite app_length, vopp_length, !vmul_length by (rewrite dc_len; congruence). rewrite !dc_len. lia.
  - unfold reshape. rewrite Lw, Nat.eqb_refl. cbn [bind]. cbv zeta. rewrite !nth_chunk by lia. fold (col 0 w) (col 1 w) (col 2 w). split; [reflexivity|].
    assert (LC : forall c, (c < 3)%nat -> length (col c w) = nC) by (intros c Hc; apply (col_len 3); assumption).
    split; [|split; [discriminate|reflexivity]]. rewrite !app_length.
    change (length (term (dc 1) (col 2 w) (dc 2) (col 1 w)) + (length (term (dc 2) (col 0 w) (dc 0) (col 2 w)) + length (term (dc 0) (col 1 w) (dc 1) (col 0 w))) = nC * 3)%nat.
    rewrite !term_len by (try apply dc_len; apply LC; lia). lia.
Qed.
Lemma split2 v : length v = (nC * 2)%nat -> v = col 0 v ++ col 1 v.
Proof. intros L. rewrite <- (concat_chunk nC 2 v L) at 1. unfold chunk. cbn [seq map concat]. rewrite app_nil_r. reflexivity. Qed.
Lemma split3 v : length v = (nC * 3)%nat -> v = col 0 v ++ col 1 v ++ col 2 v.
Proof. intros L. rewrite <- (concat_chunk nC 3 v L) at 1. unfold chunk. cbn [seq map concat]. rewrite app_nil_r. reflexivity. Qed.
Lemma dot_term a b c e f : length a = nC -> length b = nC -> length c = nC -> length e = nC -> length f = nC ->
  dot f (term a b c e) = dot (vmul a f) b - dot (vmul c f) e.
Proof.
  intros. rewrite (dot_total nC f) by (try apply term_len; assumption). rewrite !(dot_total nC) by (rewrite ?vmul_length; congruence).
  rewrite (total_ext nC _ (fun i => nth i (vmul a f) 0 * nth i b 0 + -1 * (nth i (vmul c f) 0 * nth i e 0))).
  - rewrite total_plus, total_scal. ring.
  - intros i Hi. rewrite term_nth by assumption. rewrite !nth_vmul by congruence. ring.
Qed.
Lemma dot_term_l a b c e f : length a = nC -> length b = nC -> length c = nC -> length e = nC -> length f = nC ->
  dot (term a b c e) f = dot (vmul a b) f - dot (vmul c e) f.
Proof. intros. unfold term. rewrite dot_vsub_l; [reflexivity|]. rewrite !vmul_length; congruence. Qed.
Lemma X_adj w v : length w = n_out -> length v = (nC * dim)%nat -> dot w (X v) = dot (XT w) v.
Proof.
  intros Lw Lv. destruct (X_ok v Lv) as (_ & _ & X2 & X3). destruct (XT_ok w Lw) as (_ & _ & T2 & T3). unfold n_out in Lw. destruct Hdim as [E|E]; rewrite E in Lv, Lw; cbn [Nat.eqb] in Lw.
  - rewrite (X2 E), (T2 E). rewrite (split2 v Lv) at 3. assert (LC : forall c, (c < 2)%nat -> length (col c v) = nC) by (intros c Hc; apply (col_len 2); assumption).
    rewrite dot_app by (rewrite vmul_length by (rewrite dc_len; congruence); rewrite dc_len, LC; lia). rewrite dot_term by (try apply dc_len; try assumption; apply LC; lia). rewrite dot_vopp_l. ring.
  - rewrite (X3 E), (T3 E). rewrite (split3 w Lw) at 1. rewrite (split3 v Lv) at 7.
    assert (LC : forall c, (c < 3)%nat -> length (col c v) = nC) by (intros c Hc; apply (col_len 3); assumption).
    assert (LW : forall c, (c < 3)%nat -> length (col c w) = nC) by (intros c Hc; apply (col_len 3); assumption).
    assert (L0 : length (col 0 v) = nC) by (apply LC; lia). assert (L1 : length (col 1 v) = nC) by (apply LC; lia). assert (L2 : length (col 2 v) = nC) by (apply LC; lia).
    assert (W0 : length (col 0 w) = nC) by (apply LW; lia). assert (W1 : length (col 1 w) = nC) by (apply LW; lia). assert (W2 : length (col 2 w) = nC) by (apply LW; lia).
    pose proof (dc_len 0) as D0. pose proof (dc_len 1) as D1. pose proof (dc_len 2) as D2.
    rewrite !dot_app by (rewrite ?term_len by assumption; congruence). rewrite !dot_term, !dot_term_l by assumption. ring.
Qed.

(** Weights and value *)
Lemma cross_W_ok ws : Forall (any_cells nC dim) ws -> nonneg nC dim ws -> exists w0 w, cross_W nC dim ws = Ok w /\ length w0 = nC /\ length w = n_out /\
  (forall i, (i < nC)%nat -> nth i w0 0 * nth i w0 0 = weight_at nC dim ws i) /\ w = (if (dim =? 2)%nat then w0 else w0 ++ w0 ++ w0).
Proof.
  intros HF HN. destruct (cross_root nC dim ws HF HN) as (w0 & E & L0 & N0). exists w0. eexists. unfold cross_W. rewrite E. cbn [bind].
  split; [reflexivity|]. split; [exact L0|]. split; [|split; [exact N0|reflexivity]]. unfold n_out. destruct (dim =? 2)%nat; [exact L0|]. rewrite !app_length, L0. lia.
Qed.
Lemma wterm w f W : length w = nC -> length f = nC -> (forall i, (i < nC)%nat -> nth i w 0 * nth i w 0 = W i) ->
  dot (vmul w f) (vmul w f) = total nC (fun i => W i * (nth i f 0 * nth i f 0)).
Proof.
  intros Lw Lf HW. rewrite (dot_total nC) by (rewrite vmul_length; congruence). apply total_ext. intros i Hi. rewrite nth_vmul by congruence. rewrite <- HW by exact Hi. ring.
Qed.
Lemma direction_eq i : (i < nC)%nat -> direction d i = map (fun c => nth i (dc c) 0) (seq 0 dim).
Proof.
  intros Hi. destruct (dir_rows nC dim d D Hd) as (_ & Ld & _). rewrite <- (map_nth_all (direction d i)). rewrite (Ld i Hi). apply map_ext. intros c. symmetry. apply nth_dc. exact Hi.
Qed.
Lemma cross_value ws M m : Forall (any_cells nC dim) ws -> nonneg nC dim ws -> length (phi M m) = (nC * dim)%nat ->
  cross_call nC dim D M ws m = Ok (total nC (fun i => weight_at nC dim ws i * length2 (crossp (cell nC dim (phi M m) i) (direction d i)))).
Proof.
  intros HF HN Lp. destruct (cross_W_ok ws HF HN) as (w0 & w & E & L0 & Lw & N0 & Ew). unfold cross_call. rewrite E. cbn [bind]. set (u := phi M m) in *.
  destruct (X_ok u Lp) as (EX & LX & X2 & X3). rewrite EX. cbn [bind]. unfold wnorm2. rewrite Lw, LX, Nat.eqb_refl. f_equal. cbv zeta.
  pose proof (dc_len 0) as D0. pose proof (dc_len 1) as D1. pose proof (dc_len 2) as D2. unfold n_out in *.
  pose proof direction_eq as DE. destruct Hdim as [Ed|Ed].
  - rewrite (X2 Ed). rewrite Ed in *. cbn [Nat.eqb] in *. subst w. assert (C0 : length (col 0 u) = nC) by (apply (col_len 2); [exact Lp|lia]). assert (C1 : length (col 1 u) = nC) by (apply (col_len 2); [exact Lp|lia]).
    rewrite (wterm w0 _ (weight_at nC 2 ws)) by (try apply term_len; assumption). apply total_ext. intros i Hi. f_equal. rewrite term_nth by assumption.
    rewrite (DE i Hi). unfold cell. cbn [seq map crossp]. unfold length2. cbn [dot]. rewrite <- !col_nth by exact Hi. unfold col. ring.
  - rewrite (X3 Ed). rewrite Ed in *. cbn [Nat.eqb] in *. subst w.
    assert (C0 : length (col 0 u) = nC) by (apply (col_len 3); [exact Lp|lia]). assert (C1 : length (col 1 u) = nC) by (apply (col_len 3); [exact Lp|lia]). assert (C2 : length (col 2 u) = nC) by (apply (col_len 3); [exact Lp|lia]).
    rewrite !vmul_app by (rewrite term_len; assumption). rewrite !dot_app by reflexivity.
    rewrite !(wterm w0 _ (weight_at nC 3 ws)) by (try apply term_len; assumption). rewrite <- !total_plus. apply total_ext. intros i Hi. rewrite !term_nth by assumption.
    rewrite (DE i Hi). unfold cell. cbn [seq map crossp]. unfold length2. cbn [dot]. rewrite <- !col_nth by exact Hi. unfold col. ring.
Qed.
Lemma cross_gradient ws M np m : Forall (any_cells nC dim) ws -> nonneg nC dim ws -> length m = np -> (forall y, length y = np -> length (phi M y) = (nC * dim)%nat) ->
  is_mat (nC * dim) np (dphi M m) -> has_jacobian np (nC * dim) (phi M) m (mv (dphi M m)) ->
  exists F g, (forall y, length y = np -> cross_call nC dim D M ws y = Ok (F y)) /\ cross_deriv nC dim D M ws m = Ok g /\ has_gradient np F m g.
Proof.
  intros HF HN Lm Hp HJm HJ. destruct (cross_W_ok ws HF HN) as (w0 & w & E & L0 & Lw & N0 & Ew).
  exists (nl_value X (phi M) w), (nl_grad np X XT (phi M) (dphi M m) w m). split; [|split].
  - intros y Ly. destruct (X_ok (phi M y) (Hp y Ly)) as (EX & LX & _). unfold cross_call. rewrite E. cbn [bind]. rewrite EX. cbn [bind]. unfold wnorm2. rewrite Lw, LX, Nat.eqb_refl. reflexivity.
  - destruct (X_ok (phi M m) (Hp m Lm)) as (EX & LX & _). unfold cross_deriv. rewrite E. cbn [bind]. rewrite EX. cbn [bind]. rewrite Lw, LX, Nat.eqb_refl.
    destruct (XT_ok (vmul w (vmul w (X (phi M m))))) as (ET & _); [rewrite vmul_length; [exact Lw|rewrite vmul_length; congruence]|]. rewrite ET. cbn [bind]. rewrite Lm. reflexivity.
  - apply (nl_gradient np (nC * dim) n_out); try assumption.
    + intros v Lv. apply (X_ok v Lv).
    + intros v Lv. apply (XT_ok v Lv).
    + intros; apply X_adj; assumption.
Qed.
Lemma cross_hessian ws M np m u v : Forall (any_cells nC dim) ws -> nonneg nC dim ws -> length m = np ->
  is_mat (nC * dim) np (dphi M m) -> length u = np -> length v = np ->
  exists Hu Hv, cross_deriv2 nC dim D M ws m u = Ok Hu /\ cross_deriv2 nC dim D M ws m v = Ok Hv /\ dot u Hv = dot Hu v /\ 0 <= dot v Hv.
Proof.
  intros HF HN Lm HJm Lu Lv. destruct (cross_W_ok ws HF HN) as (w0 & w & E & L0 & Lw & N0 & Ew).
  assert (Q : forall x, cross_deriv2 nC dim D M ws m x = Ok (nl_hess np X XT (dphi M m) w x)).
  { intros x. assert (Lx : length (mv (dphi M m) x) = (nC * dim)%nat) by (rewrite mv_length; apply HJm). destruct (X_ok _ Lx) as (EX & LX & _). unfold cross_deriv2. rewrite E. cbn [bind]. rewrite EX. cbn [bind]. rewrite Lw, LX, Nat.eqb_refl.
    destruct (XT_ok (vmul w (vmul w (X (mv (dphi M m) x))))) as (ET & _); [rewrite vmul_length; [exact Lw|rewrite vmul_length; congruence]|]. rewrite ET. cbn [bind]. rewrite Lm. reflexivity. }
  eexists _, _. split; [apply Q|]. split; [apply Q|]. apply (nl_psd np (nC * dim) n_out); try assumption.
  - intros x Lx. apply (X_ok x Lx).
  - intros x Lx. apply (XT_ok x Lx).
  - intros; apply X_adj; assumption.
Qed.
Lemma cross_len i v : length (cell nC dim v i) = dim.
Proof. apply cell_length. Qed.
End Cross.

Lemma sq3 a b c : a * a + b * b + c * c = 0 -> a = 0 /\ b = 0 /\ c = 0.
Proof.
  intros H. pose proof (Rle_0_sqr a) as A. pose proof (Rle_0_sqr b) as B. pose proof (Rle_0_sqr c) as C. unfold Rsqr in *.
  split; [|split]; apply Rsqr_0_uniq; unfold Rsqr; lra.
Qed.
Lemma crossp_parallel a b n : (n = 2 \/ n = 3)%nat -> length a = n -> length b = n -> (length2 (crossp a b) = 0 <-> parallel a b).
Proof.
  intros [E|E] La Lb; subst n.
  - destruct a as [|x [|y [|]]]; try discriminate. destruct b as [|p [|q [|]]]; try discriminate. unfold length2, parallel. cbn [crossp dot]. split.
    + intros H. assert (C : x * q - y * p = 0) by nra. destruct (Req_dec (p * p + q * q) 0) as [Z|Z].
      * exists 0, 1. split; [intros E; injection E; lra|]. assert (p = 0) by nra. assert (q = 0) by nra. subst. cbn. f_equal; [ring|f_equal; ring].
      * exists (p * p + q * q), (x * p + y * q). split; [intros E; injection E; intros; contradiction|]. cbn. f_equal; [|f_equal].
        -- replace ((p * p + q * q) * x) with ((x * p + y * q) * p + q * (x * q - y * p)) by ring. rewrite C. ring.
        -- replace ((p * p + q * q) * y) with ((x * p + y * q) * q - p * (x * q - y * p)) by ring. rewrite C. ring.
    + intros (s & t & N & E). cbn in E. injection E as E1 E2. destruct (Req_dec s 0) as [Z|Z].
      * assert (t <> 0) by (intros ->; subst; contradiction). assert (p = 0) by (apply (Rmult_eq_reg_l t); [|assumption]; subst; lra). assert (q = 0) by (apply (Rmult_eq_reg_l t); [|assumption]; subst; lra). subst. ring.
      * assert (x * q - y * p = 0) as ->; [|ring]. apply (Rmult_eq_reg_l s); [|exact Z]. replace (s * (x * q - y * p)) with (s * x * q - s * y * p) by ring. rewrite E1, E2. ring.
  - destruct a as [|x [|y [|z [|]]]]; try discriminate. destruct b as [|p [|q [|r [|]]]]; try discriminate. unfold length2, parallel. cbn [crossp dot]. split.
    + intros H. destruct (sq3 (y * r - z * q) (z * p - x * r) (x * q - y * p)) as (C1 & C2 & C3); [lra|].
      destruct (Req_dec (p * p + q * q + r * r) 0) as [Z|Z].
      * exists 0, 1. split; [intros E; injection E; lra|]. destruct (sq3 p q r Z) as (Z1 & Z2 & Z3). subst p q r. cbn. f_equal; [ring|f_equal; [ring|f_equal; ring]].
      * exists (p * p + q * q + r * r), (x * p + y * q + z * r). split; [intros E; injection E; intros; contradiction|]. cbn. f_equal; [|f_equal; [|f_equal]].
        -- replace ((p * p + q * q + r * r) * x) with ((x * p + y * q + z * r) * p + q * (x * q - y * p) - r * (z * p - x * r)) by ring. rewrite C2, C3. ring.
        -- replace ((p * p + q * q + r * r) * y) with ((x * p + y * q + z * r) * q - p * (x * q - y * p) + r * (y * r - z * q)) by ring. rewrite C1, C3. ring.
        -- replace ((p * p + q * q + r * r) * z) with ((x * p + y * q + z * r) * r + p * (z * p - x * r) - q * (y * r - z * q)) by ring. rewrite C1, C2. ring.
    + intros (s & t & N & E). cbn in E. injection E as E1 E2 E3. destruct (Req_dec s 0) as [Z|Z].
      * assert (T : t <> 0) by (intros ->; subst; contradiction). assert (p = 0) by (apply (Rmult_eq_reg_l t); [|exact T]; subst; lra). assert (q = 0) by (apply (Rmult_eq_reg_l t); [|exact T]; subst; lra).
        assert (r = 0) by (apply (Rmult_eq_reg_l t); [|exact T]; subst; lra). subst. ring.
      * assert (y * r - z * q = 0) as ->. { apply (Rmult_eq_reg_l s); [|exact Z]. replace (s * (y * r - z * q)) with (s * y * r - s * z * q) by ring. rewrite E2, E3. ring. }
        assert (z * p - x * r = 0) as ->. { apply (Rmult_eq_reg_l s); [|exact Z]. replace (s * (z * p - x * r)) with (s * z * p - s * x * r) by ring. rewrite E1, E3. ring. }
        assert (x * q - y * p = 0) as ->. { apply (Rmult_eq_reg_l s); [|exact Z]. replace (s * (x * q - y * p)) with (s * x * q - s * y * p) by ring. rewrite E1, E2. ring. }
        ring.
Qed.
Lemma total_zero n f : (forall i, (i < n)%nat -> 0 <= f i) -> total n f = 0 -> forall i, (i < n)%nat -> f i = 0.
Proof.
  induction n as [|n IH]; intros H E i Hi; [lia|]. rewrite total_S in E.
  assert (P : 0 <= total n f). { clear E IH Hi. induction n as [|n IH]; [cbn; lra|]. rewrite total_S. pose proof (H n ltac:(lia)). assert (0 <= total n f) by (apply IH; intros j Hj; apply H; lia). lra. }
  pose proof (H n ltac:(lia)). destruct (Nat.eq_dec i n) as [->|Ne]; [lra|]. apply IH; [intros j Hj; apply H; lia|lra|lia].
Qed.
Lemma cross_zero nC dim d D ws M m : set_dir nC dim d = Ok D -> (dim = 2 \/ dim = 3)%nat -> Forall (any_cells nC dim) ws ->
  (forall i, (i < nC)%nat -> 0 < weight_at nC dim ws i) -> length (phi M m) = (nC * dim)%nat ->
  (cross_call nC dim D M ws m = Ok 0 <-> forall i, (i < nC)%nat -> parallel (cell nC dim (phi M m) i) (direction d i)).
Proof.
  intros Hd Hdim HF HP Lp. rewrite (cross_value nC dim d D Hd Hdim ws M m HF ltac:(intros i Hi; apply Rlt_le, HP, Hi) Lp).
  destruct (dir_rows nC dim d D Hd) as (_ & Ld & _). split.
  - intros E i Hi. injection E as E. apply (crossp_parallel _ _ dim Hdim); [apply cell_length|apply Ld, Hi|].
    pose proof (total_zero nC _ ltac:(intros j Hj; apply Rmult_le_pos; [apply Rlt_le, HP, Hj|apply length2_nonneg]) E i Hi) as Q. cbn beta in Q.
    apply Rmult_integral in Q. destruct Q as [Q|Q]; [specialize (HP i Hi); lra|exact Q].
  - intros H. f_equal. rewrite <- (total_0 nC). apply total_ext. intros i Hi.
    assert (E : length2 (crossp (cell nC dim (phi M m) i) (direction d i)) = 0) by (apply (crossp_parallel _ _ dim Hdim); [apply cell_length|apply Ld, Hi|apply H, Hi]).
    rewrite E. ring.
Qed.
