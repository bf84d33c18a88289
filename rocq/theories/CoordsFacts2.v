(** Proofs about SphericalSystem and ProjectSphericalBounds. *)
From Coq Require Import ZArith.
From Verif Require Import Py Vec VecDeriv Frechet Coords SpecCoords CoordsFacts.
Local Open Scope R_scope.

Lemma c2s_of_vector' a t p : 0 < a -> - (PI / 2) < t < PI / 2 ->
  exists p', c2s_row (vector_of a t p) = (a, t, p') /\ cos p' = cos p /\ sin p' = sin p.
Proof.
  intros Ha Ht. assert (0 < cos t) by (apply cos_gt_0; lra).
  exists (atan2 (a * cos t * sin p) (a * cos t * cos p)). split.
  - unfold c2s_row, vector_of.
    change (sqrt ((a * cos t * cos p) ^ 2 + (a * cos t * sin p) ^ 2 + (a * sin t) ^ 2)) with (length3 (vector_of a t p)).
    rewrite length3_vector, Rabs_pos_eq by lra. destruct (Rlt_dec 0 a); [|lra].
    f_equal. f_equal. replace (a * sin t / a) with (sin t) by (field; lra). apply asin_sin. lra.
  - destruct (atan2_polar (a * cos t * sin p) (a * cos t * cos p)) as [Hc Hs].
    set (r := a * cos t) in *. assert (Hr : 0 < r) by (unfold r; nra).
    replace ((r * cos p) ^ 2 + (r * sin p) ^ 2) with (Rsqr r) in Hc, Hs.
    2:{ pose proof (sin2_cos2 p). unfold Rsqr in *. nra. }
    rewrite sqrt_Rsqr in Hc, Hs by lra. split; nra.
Qed.

Lemma rows_len n m : length (map (row_at n m) (seq 0 n)) = n.
Proof. rewrite map_length, seq_length. reflexivity. Qed.
Lemma unstack_row n m : length m = (n + (n + n))%nat -> unstack m = Ok (map (row_at n m) (seq 0 n)).
Proof. apply unstack_len. Qed.
Lemma row_at_stack rows i : (i < length rows)%nat -> row_at (length rows) (stack rows) i = nth i rows (0, 0, 0).
Proof.
  intros Hi. pose proof (unstack_stack rows) as H. rewrite (unstack_row (length rows)) in H by apply stack_length.
  injection H as H. rewrite <- H at 3. symmetry. apply nth_mapseq. assumption.
Qed.
Lemma ss_fun_eq n m : length m = (n + (n + n))%nat -> ss_fun m = stack (map (fun i => s2c_row (row_at n m i)) (seq 0 n)).
Proof. intros L. unfold ss_fun, ss_transform. rewrite (unstack_row n) by assumption. cbn [bind]. unfold spherical2cartesian. rewrite map_map. reflexivity. Qed.
Lemma ss_fun_length n m : length m = (n + (n + n))%nat -> length (ss_fun m) = (n + (n + n))%nat.
Proof. intros L. rewrite (ss_fun_eq n) by assumption. rewrite stack_length, map_length, seq_length. reflexivity. Qed.
Lemma ss_fun_row n m i : length m = (n + (n + n))%nat -> (i < n)%nat -> row_at n (ss_fun m) i = s2c_row (row_at n m i).
Proof.
  intros L Hi. rewrite (ss_fun_eq n) by assumption.
  set (rows := map (fun i => s2c_row (row_at n m i)) (seq 0 n)).
  assert (Lr : length rows = n) by (unfold rows; rewrite map_length, seq_length; reflexivity).
  rewrite <- Lr at 1. rewrite row_at_stack by congruence. unfold rows. apply (nth_mapseq (fun i => s2c_row (row_at n m i))). assumption.
Qed.

(** The matrix *)
Lemma dot_app a b c d : length a = length b -> dot (a ++ c) (b ++ d) = dot a b + dot c d.
Proof. revert b; induction a as [|x a IH]; intros [|y b] L; cbn in *; try lia; [lra|]. rewrite IH by lia. lra. Qed.
Lemma dot_blocks n i x y z h : length h = (n + (n + n))%nat -> (i < n)%nat ->
  dot (diag_row n i x ++ diag_row n i y ++ diag_row n i z) h = x * nth i h 0 + y * nth (n + i) h 0 + z * nth (n + n + i) h 0.
Proof.
  intros L Hi.
  assert (E : h = firstn n h ++ firstn n (skipn n h) ++ skipn n (skipn n h)) by (rewrite !firstn_skipn; reflexivity).
  set (h1 := firstn n h) in *. set (h2 := firstn n (skipn n h)) in *. set (h3 := skipn n (skipn n h)) in *.
  assert (L1 : length h1 = n) by (unfold h1; rewrite firstn_length; lia).
  assert (L2 : length h2 = n) by (unfold h2; rewrite firstn_length, skipn_length; lia).
  assert (L3 : length h3 = n) by (unfold h3; rewrite !skipn_length; lia).
  clearbody h1 h2 h3. subst h. rewrite !dot_app by (rewrite diag_row_length; congruence).
  rewrite !dot_diag_row by assumption. assert (Nat.ltb i n = true) as -> by (apply Nat.ltb_lt; assumption).
  rewrite app_nth1 by congruence.
  rewrite (app_nth2 h1) by lia. rewrite app_nth1 by lia.
  rewrite (app_nth2 h1) by lia. rewrite app_nth2 by lia.
  replace (n + i - length h1)%nat with i by lia. replace (n + n + i - length h1 - length h2)%nat with i by lia. ring.
Qed.
Definition jac3 (a t p : R) : row * row * row :=
  ((cos t * cos p, - a * sin t * cos p, - a * cos t * sin p),
   (cos t * sin p, - a * sin t * sin p, a * cos t * cos p),
   (sin t, a * cos t, 0)).
Definition apply3 (c h : row) : R := c0 c * c0 h + c1 c * c1 h + c2 c * c2 h.
Lemma ss_rows_length n atp f : length (ss_rows n atp f) = n.
Proof. unfold ss_rows. rewrite map_length, seq_length. reflexivity. Qed.
Lemma ss_rows_mat n atp f : is_mat n (n + (n + n)) (ss_rows n atp f).
Proof.
  split; [apply ss_rows_length|]. unfold ss_rows. apply Forall_map, Forall_forall. intros i _.
  destruct (f (nth i atp (0, 0, 0))) as [[x y] z]. rewrite !app_length, !diag_row_length. reflexivity.
Qed.
Lemma nth_ss_rows n atp f i h : length h = (n + (n + n))%nat -> (i < n)%nat ->
  dot (nth i (ss_rows n atp f) []) h = apply3 (f (nth i atp (0, 0, 0))) (row_at n h i).
Proof.
  intros L Hi. unfold ss_rows.
  rewrite (nth_mapseq (fun i => let '(x, y, z) := f (nth i atp (0, 0, 0)) in diag_row n i x ++ diag_row n i y ++ diag_row n i z)) by assumption.
  destruct (f (nth i atp (0, 0, 0))) as [[x y] z]. rewrite dot_blocks by assumption. reflexivity.
Qed.
Definition atp_at (n : nat) (m : vec) (i : nat) : row := c2s_row (s2c_row (row_at n m i)).
Lemma ss_matrix_eq n m : length m = (n + (n + n))%nat ->
  let atp := map (atp_at n m) (seq 0 n) in
  ss_matrix m = Ok (ss_rows n atp (fun q => let '(a, t, p) := q in (cos t * cos p, - a * sin t * cos p, - a * cos t * sin p)) ++
      ss_rows n atp (fun q => let '(a, t, p) := q in (cos t * sin p, - a * sin t * sin p, a * cos t * cos p)) ++
      ss_rows n atp (fun q => let '(a, t, p) := q in (sin t, a * cos t, 0))).
Proof.
  intros L atp. unfold ss_matrix. rewrite (unstack_row n) by assumption. cbn [bind].
  unfold spherical2cartesian. rewrite unstack_stack. cbn [bind]. unfold cartesian2spherical. rewrite unstack_stack. cbn [bind].
  rewrite !map_map. fold (atp_at n m). rewrite map_length, seq_length. reflexivity.
Qed.
Lemma ss_matrix_ok n m : length m = (n + (n + n))%nat -> exists D, ss_matrix m = Ok D /\ is_mat (n + (n + n)) (n + (n + n)) D.
Proof.
  intros L. eexists. split; [apply (ss_matrix_eq n m L)|]. set (atp := map _ _).
  split; [rewrite !app_length, !ss_rows_length; reflexivity|].
  apply Forall_app; split; [|apply Forall_app; split]; apply ss_rows_mat.
Qed.
Lemma block3 n i : (i < n + (n + n))%nat -> exists b j, (b < 3)%nat /\ (j < n)%nat /\ i = (b * n + j)%nat.
Proof.
  intros H. destruct (Nat.lt_ge_cases i n); [exists O, i; lia|]. destruct (Nat.lt_ge_cases i (n + n)); [exists 1%nat, (i - n)%nat; lia|].
  exists 2%nat, (i - n - n)%nat; lia.
Qed.
Lemma ss_matrix_rows n m D h : length m = (n + (n + n))%nat -> length h = (n + (n + n))%nat -> ss_matrix m = Ok D -> forall i, (i < n)%nat ->
  row_at n (mv D h) i = (let '(a, t, p) := atp_at n m i in let '(jx, jy, jz) := jac3 a t p in
    (apply3 jx (row_at n h i), apply3 jy (row_at n h i), apply3 jz (row_at n h i))).
Proof.
  intros Lm Lh HD i Hi. rewrite (ss_matrix_eq n m Lm) in HD. injection HD as <-.
  set (atp := map (atp_at n m) (seq 0 n)).
  assert (E : nth i atp (0, 0, 0) = atp_at n m i) by (apply (nth_mapseq (atp_at n m)); assumption).
  unfold row_at at 1. unfold mv. rewrite !map_app.
  assert (LL : forall f, length (map (fun r => dot r h) (ss_rows n atp f)) = n) by (intros; rewrite map_length; apply ss_rows_length).
  assert (EE : forall f, nth i (map (fun r => dot r h) (ss_rows n atp f)) 0 = apply3 (f (atp_at n m i)) (row_at n h i)).
  { intros f. rewrite <- E. rewrite <- nth_ss_rows by assumption.
    rewrite (nth_indep _ 0 (dot [] h)) by (rewrite LL; assumption). apply (map_nth (fun r => dot r h)). }
  rewrite app_nth1 by (rewrite LL; assumption).
  rewrite (app_nth2 (map _ _)) by (rewrite LL; lia). rewrite LL. rewrite app_nth1 by (rewrite LL; lia).
  rewrite (app_nth2 (map _ _)) by (rewrite LL; lia). rewrite LL. rewrite app_nth2 by (rewrite LL; lia). rewrite LL.
  replace (n + i - n)%nat with i by lia. replace (n + n + i - n - n)%nat with i by lia.
  rewrite !EE. destruct (atp_at n m i) as [[a t] p]. reflexivity.
Qed.

(** Derivatives of the components *)
Lemma dpl_line x h : derivable_pt_lim (fun s => x + s * h) 0 h.
Proof. eapply dpl_eq; [|apply dpl_plus; [apply dpl_const|apply dpl_mult; [apply dpl_id|apply dpl_const]]]. cbn beta. ring. Qed.
Lemma dpl_sin_line x h : derivable_pt_lim (fun s => sin (x + s * h)) 0 (cos x * h).
Proof.
  eapply dpl_eq; [|apply (dpl_comp (fun s => x + s * h) sin 0 h (cos x)); [apply dpl_line|]]; [ring|].
  replace (x + 0 * h) with x by ring. apply derivable_pt_lim_sin.
Qed.
Lemma dpl_cos_line x h : derivable_pt_lim (fun s => cos (x + s * h)) 0 (- sin x * h).
Proof.
  eapply dpl_eq; [|apply (dpl_comp (fun s => x + s * h) cos 0 h (- sin x)); [apply dpl_line|]]; [ring|].
  replace (x + 0 * h) with x by ring. apply derivable_pt_lim_cos.
Qed.
Definition line3 (r h : row) (s : R) : row := (c0 r + s * c0 h, c1 r + s * c1 h, c2 r + s * c2 h).
Lemma s2c_derivs r h : let '(a, t, p) := r in let '(jx, jy, jz) := jac3 (a + 1e-8) t p in
  derivable_pt_lim (fun s => c0 (s2c_row (line3 r h s))) 0 (apply3 jx h) /\
  derivable_pt_lim (fun s => c1 (s2c_row (line3 r h s))) 0 (apply3 jy h) /\
  derivable_pt_lim (fun s => c2 (s2c_row (line3 r h s))) 0 (apply3 jz h).
Proof.
  destruct r as [[a t] p], h as [[u v] w]. unfold jac3, apply3, line3, s2c_row. cbn [c0 c1 c2 fst snd].
  assert (A : derivable_pt_lim (fun s => a + s * u + 1e-8) 0 u).
  { eapply dpl_eq; [|apply dpl_plus; [apply dpl_line|apply dpl_const]]. cbn beta. ring. }
  repeat split; eapply dpl_eq.
  2:{ apply dpl_mult; [apply dpl_mult; [exact A|apply dpl_cos_line]|apply dpl_cos_line]. }
  1:{ cbn beta. replace (t + 0 * v) with t by ring. replace (p + 0 * w) with p by ring. ring. }
  2:{ apply dpl_mult; [apply dpl_mult; [exact A|apply dpl_cos_line]|apply dpl_sin_line]. }
  1:{ cbn beta. replace (t + 0 * v) with t by ring. replace (p + 0 * w) with p by ring. ring. }
  2:{ apply dpl_mult; [exact A|apply dpl_sin_line]. }
  cbn beta. replace (t + 0 * v) with t by ring. ring.
Qed.
Lemma row_line n m h s i : length m = (n + (n + n))%nat -> length h = (n + (n + n))%nat -> (i < n)%nat ->
  row_at n (vadd m (vscale s h)) i = line3 (row_at n m i) (row_at n h i) s.
Proof.
  intros Lm Lh Hi. unfold row_at, line3. cbn [c0 c1 c2 fst snd].
  rewrite !nth_vadd by (rewrite ?vscale_length; lia). rewrite !nth_vscale. reflexivity.
Qed.
Lemma row_comp n v i : nth i v 0 = c0 (row_at n v i) /\ nth (n + i) v 0 = c1 (row_at n v i) /\ nth (n + n + i) v 0 = c2 (row_at n v i).
Proof. repeat split. Qed.

(** The derivative of the transform along h, whatever the model. *)
Lemma ss_true_deriv n m h i : length m = (n + (n + n))%nat -> length h = (n + (n + n))%nat -> (i < n)%nat ->
  let '(jx, jy, jz) := jac3 (c0 (row_at n m i) + 1e-8) (c1 (row_at n m i)) (c2 (row_at n m i)) in
  derivable_pt_lim (fun s => nth i (ss_fun (vadd m (vscale s h))) 0) 0 (apply3 jx (row_at n h i)) /\
  derivable_pt_lim (fun s => nth (n + i) (ss_fun (vadd m (vscale s h))) 0) 0 (apply3 jy (row_at n h i)) /\
  derivable_pt_lim (fun s => nth (n + n + i) (ss_fun (vadd m (vscale s h))) 0) 0 (apply3 jz (row_at n h i)).
Proof.
  intros Lm Lh Hi. pose proof (s2c_derivs (row_at n m i) (row_at n h i)) as H.
  cbn [row_at c0 c1 c2 fst snd] in *. fold (row_at n m i) (row_at n h i) in *.
  assert (E : forall s, row_at n (ss_fun (vadd m (vscale s h))) i = s2c_row (line3 (row_at n m i) (row_at n h i) s)).
  { intros s. rewrite (ss_fun_row n) by (try assumption; rewrite vadd_length; rewrite ?vscale_length; congruence). f_equal. apply row_line; assumption. }
  destruct H as (H0 & H1 & H2). repeat split.
  - eapply dpl_ext; [|exact H0]. intros s. cbn beta. rewrite <- E. reflexivity.
  - eapply dpl_ext; [|exact H1]. intros s. cbn beta. rewrite <- E. reflexivity.
  - eapply dpl_ext; [|exact H2]. intros s. cbn beta. rewrite <- E. reflexivity.
Qed.
Lemma jac3_regular n m i : regular_model n m -> (i < n)%nat ->
  (let '(a, t, p) := atp_at n m i in jac3 a t p) = jac3 (c0 (row_at n m i) + 1e-8) (c1 (row_at n m i)) (c2 (row_at n m i)).
Proof.
  intros [L H] Hi. destruct (H i Hi) as [Ha Ht]. unfold atp_at. rewrite s2c_vector.
  destruct (c2s_of_vector' (c0 (row_at n m i) + 1e-8) (c1 (row_at n m i)) (c2 (row_at n m i))) as (p' & E & Ec & Es).
  - cbn [row_at c0 fst]. lra.
  - exact Ht.
  - rewrite E. unfold jac3. rewrite Ec, Es. reflexivity.
Qed.
Lemma c51_deriv n m : regular_model n m -> exists D, ss_matrix m = Ok D /\ is_mat (n + (n + n)) (n + (n + n)) D /\
  has_jacobian (n + (n + n)) (n + (n + n)) ss_fun m (mv D).
Proof.
  intros HR. pose proof HR as [L _]. destruct (ss_matrix_ok n m L) as (D & HD & HM). exists D. split; [assumption|]. split; [assumption|].
  intros h Lh. split; [intros s; apply ss_fun_length; rewrite vadd_length; rewrite ?vscale_length; congruence|].
  split; [rewrite mv_length; apply HM|]. intros k Hk.
  destruct (block3 n k Hk) as (b & i & Hb & Hi & ->).
  pose proof (ss_matrix_rows n m D h L Lh HD i Hi) as E. pose proof (jac3_regular n m i HR Hi) as EJ.
  pose proof (ss_true_deriv n m h i L Lh Hi) as T. rewrite <- EJ in T. clear EJ.
  destruct (atp_at n m i) as [[a t] p]. destruct (jac3 a t p) as [[jx jy] jz]. destruct T as (T0 & T1 & T2).
  destruct (row_comp n (mv D h) i) as (R0 & R1 & R2). rewrite E in R0, R1, R2. cbn [c0 c1 c2 fst snd] in R0, R1, R2.
  destruct b as [|[|[|]]]; [| | |lia].
  - replace (0 * n + i)%nat with i by lia. rewrite R0. exact T0.
  - replace (1 * n + i)%nat with (n + i)%nat by lia. rewrite R1. exact T1.
  - replace (2 * n + i)%nat with (n + n + i)%nat by lia. rewrite R2. exact T2.
Qed.
Lemma c51_deriv_refuted : ~ forall n m D, length m = (n + (n + n))%nat -> ss_matrix m = Ok D ->
  has_jacobian (n + (n + n)) (n + (n + n)) ss_fun m (mv D).
Proof.
  intros H. set (m := [1; PI; 0]). set (h := [0; 1; 0]).
  destruct (ss_matrix_ok 1 m eq_refl) as (D & HD & HM). specialize (H 1%nat m D eq_refl HD h eq_refl).
  destruct H as (_ & _ & H). specialize (H 2%nat ltac:(lia)).
  pose proof (ss_true_deriv 1 m h 0 eq_refl eq_refl ltac:(lia)) as T. cbn [row_at c0 c1 c2 fst snd nth plus] in T.
  unfold jac3 in T. cbv beta iota in T. destruct T as (_ & _ & T). cbn [plus] in T.
  pose proof (uniqueness_limite _ _ _ _ H T) as U.
  pose proof (ss_matrix_rows 1 m D h eq_refl eq_refl HD 0 ltac:(lia)) as E.
  assert (EA : atp_at 1 m 0 = (1 + 1e-8, 0, PI)).
  { unfold atp_at. rewrite s2c_vector. unfold m. cbn [row_at c0 c1 c2 fst snd nth plus].
    replace (vector_of (1 + 1e-8) PI 0) with (vector_of (1 + 1e-8) 0 PI).
    - apply c2s_of_vector; pose proof PIp; lra.
    - unfold vector_of. rewrite cos_PI, sin_PI, cos_0, sin_0. assert (T3 : forall a b c a' b' c' : R, a = a' -> b = b' -> c = c' -> (a, b, c) = (a', b', c')) by (intros; subst; reflexivity). apply T3; ring. }
  rewrite EA in E. unfold jac3 in E. cbv beta iota in E.
  destruct (row_comp 1 (mv D h) 0) as (_ & _ & R2). rewrite E in R2. cbn [c2 snd plus] in R2. rewrite R2 in U.
  unfold apply3, h, m in U. cbn [row_at c0 c1 c2 fst snd nth plus] in U. rewrite cos_PI, sin_PI, cos_0, sin_0 in U. lra.
Qed.

(** History *)
Lemma same_values_eq a b : same_values a b = true -> a = b.
Proof.
  revert b; induction a as [|x a IH]; intros [|y b]; cbn; try discriminate; [reflexivity|].
  destruct (Req_EM_T x y) as [->|]; [|discriminate]. intros H. f_equal. apply IH; assumption.
Qed.
Lemma same_values_refl a : same_values a a = true.
Proof. induction a; cbn; [reflexivity|]. destruct (Req_EM_T a a); congruence. Qed.
Definition ss_inv (st : sst) : Prop :=
  forall D, ss_cache st = Some D -> exists k, ss_model st = Some k /\ ss_matrix (ss_heap st k) = Ok D.
Lemma ss_deriv_fresh n st id : (forall k, length (ss_heap st k) = (n + (n + n))%nat) -> ss_inv st ->
  snd (ss_deriv st id) = ss_matrix (ss_heap st id) /\ ss_heap (fst (ss_deriv st id)) = ss_heap st /\ ss_inv (fst (ss_deriv st id)).
Proof.
  intros HL HI. unfold ss_deriv. destruct (ss_matrix_ok n (ss_heap st id) (HL id)) as (D' & HD' & _). rewrite HD'.
  destruct (ss_cache st) as [D|] eqn:EC.
  - destruct (HI D EC) as (k & Ek & HD). rewrite Ek. destruct (same_values (ss_heap st k) (ss_heap st id)) eqn:ES; cbn [fst snd ss_heap].
    + apply same_values_eq in ES. split; [congruence|]. split; [reflexivity|]. intros D0 [= <-]. exists k. split; [reflexivity|assumption].
    + split; [reflexivity|]. split; [reflexivity|]. intros D0 [= <-]. exists id. split; [reflexivity|assumption].
  - cbn [fst snd ss_heap]. split; [reflexivity|]. split; [reflexivity|]. intros D0 [= <-]. exists id. split; [reflexivity|assumption].
Qed.
Lemma c51_history n ops : forall st id, (forall k, length (ss_heap st k) = (n + (n + n))%nat) -> ss_inv st -> Forall no_write ops ->
  snd (ss_deriv (fold_left ss_step ops st) id) = ss_matrix (ss_heap st id).
Proof.
  induction ops as [|o ops IH]; intros st id HL HI HW.
  - apply (ss_deriv_fresh n); assumption.
  - cbn [fold_left]. inversion HW as [|? ? Ho HW']; subst. destruct o as [k|]; [|contradiction]. cbn [ss_step].
    destruct (ss_deriv_fresh n st k HL HI) as (_ & EH & HI'). rewrite IH; [rewrite EH; reflexivity|rewrite EH; assumption|assumption|assumption].
Qed.
Lemma c51_history_new n heap ops id : (forall k, length (heap k) = (n + (n + n))%nat) -> Forall no_write ops ->
  snd (ss_deriv (fold_left ss_step ops (mkSst heap None None)) id) = ss_matrix (heap id).
Proof. intros HL HW. apply (c51_history n ops (mkSst heap None None) id); [assumption|intros D; discriminate|assumption]. Qed.
Lemma c51_stale_refuted : ~ forall n heap ops id st, (forall k, length (heap k) = (n + (n + n))%nat) ->
  (forall k v, In (SWrite k v) ops -> length v = (n + (n + n))%nat) ->
  st = fold_left ss_step ops (mkSst heap None None) -> snd (ss_deriv st id) = ss_matrix (ss_heap st id).
Proof.
  intros H. set (heap := fun _ : nat => [1; 0; 0]). set (v := [2; 0; 0]).
  specialize (H 1%nat heap [SDeriv 0; SWrite 0 v] 0%nat _ ltac:(intros; reflexivity)
     ltac:(intros k w [E|[E|[]]]; [discriminate|injection E as <- <-; reflexivity]) eq_refl).
  destruct (ss_matrix_ok 1 (heap 0%nat) eq_refl) as (D & HD & _).
  assert (E0 : fst (ss_deriv (mkSst heap None None) 0) = mkSst heap (Some 0%nat) (Some D)).
  { unfold ss_deriv. cbn [ss_cache ss_heap ss_model]. rewrite HD. reflexivity. }
  cbn [fold_left ss_step] in H. rewrite E0 in H. cbn [ss_heap ss_model ss_cache] in H.
  unfold ss_deriv in H. cbn [ss_cache ss_heap ss_model Nat.eqb] in H. rewrite same_values_refl in H. cbn [snd fst ss_heap] in H.
  symmetry in H.
  pose proof (ss_matrix_rows 1 v D [0; 0; 1] eq_refl eq_refl H 0 ltac:(lia)) as E1.
  pose proof (ss_matrix_rows 1 (heap 0%nat) D [0; 0; 1] eq_refl eq_refl HD 0 ltac:(lia)) as E2.
  assert (EA : forall a, 0 < a -> atp_at 1 [a; 0; 0] 0 = (a + 1e-8, 0, 0)).
  { intros a Ha. unfold atp_at. rewrite s2c_vector. cbn [row_at c0 c1 c2 fst snd nth plus]. pose proof PIp. apply c2s_of_vector; lra. }
  unfold v, heap in *. rewrite EA in E1, E2 by lra. rewrite E1 in E2. unfold jac3, apply3 in E2. cbn [row_at c0 c1 c2 fst snd nth plus] in E2.
  rewrite cos_0, sin_0 in E2. injection E2 as _ E2 _. lra.
Qed.

(** Inverse, projection *)
Lemma c51_inverse m u : ss_transform m = Ok u -> forall rows, unstack m = Ok rows ->
  Forall (fun r => 0 <= c0 r /\ - (PI / 2) < c1 r < PI / 2 /\ - PI < c2 r <= PI) rows ->
  ss_inverse u = Ok (stack (map (fun r => (c0 r + 1e-8, c1 r, c2 r)) rows)).
Proof.
  intros Hu rows Hr HF. unfold ss_transform in Hu. rewrite Hr in Hu. cbn [bind] in Hu. injection Hu as <-.
  destruct (c38_other_way rows HF) as (xyz & E1 & E2). unfold ss_inverse. rewrite E1. cbn [bind].
  apply stack_unstack in E2. rewrite E2. reflexivity.
Qed.
Lemma c51_project m m' rows : project_bounds m = Ok m' -> unstack m = Ok rows ->
  exists rows', unstack m' = Ok rows' /\ Forall principal rows' /\
    Forall2 (fun r r' => s2c_row r = vector_of (c0 r') (c1 r') (c2 r') /\ distance3 (s2c_row r) (s2c_row r') = 1e-8) rows rows'.
Proof.
  intros H Hr. unfold project_bounds in H. rewrite Hr in H. cbn [bind] in H. unfold spherical2cartesian in H. rewrite unstack_stack in H. cbn [bind] in H.
  injection H as <-. exists (map c2s_row (map s2c_row rows)). split; [apply unstack_stack|].
  clear Hr. split.
  - apply Forall_map, Forall_forall. intros r _. apply c2s_correct.
  - induction rows as [|r rows IH]; cbn [map]; constructor; [|assumption].
    destruct (c2s_correct (s2c_row r)) as [_ E]. split; [exact E|].
    rewrite (s2c_vector (c2s_row (s2c_row r))). rewrite E at 1. rewrite distance3_vector.
    set (x := c0 _). rewrite Rabs_minus_sym. replace (x + 1e-8 - x) with 1e-8 by ring. apply Rabs_pos_eq. lra.
Qed.
Lemma c51_drift k : forall rows, Forall (fun r => 0 <= c0 r /\ - (PI / 2) < c1 r < PI / 2 /\ - PI < c2 r <= PI) rows ->
  project_times k (stack rows) = Ok (stack (map (fun r => (c0 r + INR k * 1e-8, c1 r, c2 r)) rows)).
Proof.
  induction k as [|k IH]; intros rows HF.
  - cbn [project_times INR]. f_equal. f_equal. rewrite <- (map_id rows) at 1. apply map_ext. intros [[a t] p]. cbn [c0 c1 c2 fst snd]. f_equal. f_equal. ring.
  - cbn [project_times]. unfold project_bounds. rewrite unstack_stack. cbn [bind].
    destruct (c38_other_way rows HF) as (xyz & E1 & E2). rewrite E1. cbn [bind]. apply stack_unstack in E2. rewrite <- E2.
    rewrite IH.
    + f_equal. f_equal. rewrite map_map. apply map_ext. intros [[a t] p]. cbn [c0 c1 c2 fst snd]. rewrite S_INR. f_equal. f_equal. ring.
    + apply Forall_map. eapply Forall_impl; [|exact HF]. intros [[a t] p]. cbn [c0 c1 c2 fst snd]. intros (H1 & H2 & H3). repeat split; lra.
Qed.
