From Verif Require Import Py Vec VecDeriv Reg RegFacts RegFacts2 VecReg SpecVecReg.
Local Open Scope R_scope.

Lemma total_ext n f g : (forall i, (i < n)%nat -> f i = g i) -> total n f = total n g.
Proof. intros H. unfold total. f_equal. apply map_ext_in. intros i Hi. apply in_seq in Hi. apply H. lia. Qed.
Lemma vsum_app a b : vsum (a ++ b) = vsum a + vsum b.
Proof. induction a as [|x a IH]; cbn; [ring|rewrite IH; ring]. Qed.
Lemma total_S n f : total (S n) f = total n f + f n.
Proof. unfold total. rewrite seq_S, map_app, vsum_app. cbn. ring. Qed.
Lemma total_plus n f g : total n (fun i => f i + g i) = total n f + total n g.
Proof. induction n as [|n IH]; [cbn; ring|]. rewrite !total_S, IH. ring. Qed.
Lemma total_0 n : total n (fun _ => 0) = 0.
Proof. induction n as [|n IH]; [reflexivity|]. rewrite total_S, IH. ring. Qed.
Lemma total_scal n c f : total n (fun i => c * f i) = c * total n f.
Proof. induction n as [|n IH]; [cbn; ring|]. rewrite !total_S, IH. ring. Qed.
Lemma vsum_seq_shift n : forall s (f : nat -> R), vsum (map f (seq (S s) n)) = vsum (map (fun i => f (S i)) (seq s n)).
Proof. induction n as [|n IH]; intros s f; cbn; [reflexivity|]. rewrite IH. reflexivity. Qed.
Lemma dot_total n : forall a b, length a = n -> length b = n -> dot a b = total n (fun i => nth i a 0 * nth i b 0).
Proof.
  induction n as [|n IH]; intros [|x a] [|y b] La Lb; try discriminate; [reflexivity|]. injection La as La. injection Lb as Lb.
  cbn [dot]. rewrite (IH a b La Lb). unfold total. cbn [seq map vsum nth]. rewrite vsum_seq_shift. reflexivity.
Qed.
Lemma nth_seq_map {A} (f : nat -> A) n i d : (i < n)%nat -> nth i (map f (seq 0 n)) d = f i.
Proof. intros H. erewrite nth_indep by (rewrite map_length, seq_length; exact H). rewrite (map_nth f (seq 0 n) O), seq_nth by exact H. reflexivity. Qed.

(** Columns *)
Lemma chunk_length n k v : length (chunk n k v) = k.
Proof. unfold chunk. rewrite map_length, seq_length. reflexivity. Qed.
Lemma nth_chunk n k v c : (c < k)%nat -> nth c (chunk n k v) [] = firstn n (skipn (c * n) v).
Proof. intros H. unfold chunk. rewrite nth_seq_map by exact H. reflexivity. Qed.
Lemma chunk_cols n k v : length v = (n * k)%nat -> Forall (fun c => length c = n) (chunk n k v).
Proof.
  intros L. unfold chunk. apply Forall_forall. intros x Hx. apply in_map_iff in Hx. destruct Hx as (c & <- & Hc). apply in_seq in Hc.
  rewrite firstn_length, skipn_length, L. nia.
Qed.
Lemma skipn_skipn' {A} a : forall b (v : list A), skipn (a + b) v = skipn b (skipn a v).
Proof. induction a as [|a IH]; intros b v; [reflexivity|]. destruct v as [|x v]; [rewrite !skipn_nil; reflexivity|]. cbn. apply IH. Qed.
Lemma chunk_S n k v : chunk n (S k) v = firstn n v :: chunk n k (skipn n v).
Proof.
  unfold chunk. cbn [seq map Nat.mul skipn]. f_equal. rewrite <- seq_shift, map_map. apply map_ext. intros c. cbn [Nat.mul].
  rewrite skipn_skipn'. reflexivity.
Qed.
Lemma concat_chunk n k : forall v, length v = (n * k)%nat -> concat (chunk n k v) = v.
Proof.
  induction k as [|k IH]; intros v L; [rewrite Nat.mul_0_r in L; destruct v; [reflexivity|discriminate]|].
  rewrite chunk_S. cbn [concat]. rewrite IH by (rewrite skipn_length; nia). apply firstn_skipn.
Qed.
Lemma chunk_concat n cols : Forall (fun c => length c = n) cols -> chunk n (length cols) (concat cols) = cols.
Proof.
  induction 1 as [|c cols Hc HF IH]; [reflexivity|]. cbn [length concat]. rewrite chunk_S.
  rewrite firstn_app, Hc, Nat.sub_diag, firstn_all2 by lia. cbn [firstn]. rewrite app_nil_r. f_equal.
  rewrite skipn_app, Hc, Nat.sub_diag, skipn_all2 by lia. exact IH.
Qed.
Lemma concat_length_cols n cols : Forall (fun c : vec => length c = n) cols -> length (concat cols) = (n * length cols)%nat.
Proof. induction 1 as [|c cols Hc HF IH]; cbn; [lia|]. rewrite app_length, IH, Hc. lia. Qed.
Lemma cell_chunk n k v i : (i < n)%nat -> map (fun c => nth i c 0) (chunk n k v) = cell n k v i.
Proof.
  intros H. unfold chunk, cell. rewrite map_map. apply map_ext. intros c.
  assert (Q : forall m j, nth j (skipn m v) 0 = nth (m + j) v 0).
  { intros m. generalize v. induction m as [|m IH]; intros u j; [reflexivity|]. destruct u as [|x u]; [destruct j; reflexivity|]. cbn. apply IH. }
  rewrite <- Q. clear Q. generalize (skipn (c * n) v) as u. clear v. revert i H. induction n as [|n IH]; intros i H u; [lia|].
  destruct u as [|x u]; [destruct i; reflexivity|]. destruct i as [|i]; [reflexivity|]. cbn. apply IH. lia.
Qed.
Lemma sumsq_length2 l : vsum (map (fun x => x * x) l) = length2 l.
Proof. unfold length2. induction l as [|x l IH]; cbn; [reflexivity|]. rewrite IH. reflexivity. Qed.
Lemma row_norms_length n cols : length (row_norms n cols) = n.
Proof. unfold row_norms. rewrite map_length, seq_length. reflexivity. Qed.
Lemma nth_row_norms n cols i : (i < n)%nat -> nth i (row_norms n cols) 0 = sqrt (length2 (map (fun c => nth i c 0) cols)).
Proof. intros H. unfold row_norms. rewrite nth_seq_map by exact H. rewrite <- sumsq_length2, map_map. reflexivity. Qed.
Lemma length2_nonneg x : 0 <= length2 x.
Proof. apply dot_self_nonneg. Qed.
Lemma sqrt_sq x : sqrt (length2 x) * sqrt (length2 x) = length2 x.
Proof. apply sqrt_sqrt, length2_nonneg. Qed.

(** The weighted square of the lengths is the sum over the components. *)
Lemma norms_flat n w cols : length w = n -> Forall (fun c => length c = n) cols ->
  dot (vmul w (row_norms n cols)) (vmul w (row_norms n cols)) = vsum (map (fun c => dot (vmul w c) (vmul w c)) cols).
Proof.
  intros Lw HF. rewrite (dot_total n) by (rewrite vmul_length; rewrite ?row_norms_length; congruence).
  rewrite (total_ext n _ (fun i => nth i w 0 * nth i w 0 * length2 (map (fun c => nth i c 0) cols))).
  2:{ intros i Hi. rewrite nth_vmul by (rewrite ?row_norms_length; lia). rewrite nth_row_norms by exact Hi.
      rewrite <- (sqrt_sq (map (fun c => nth i c 0) cols)) at 3. ring. }
  induction HF as [|c cols Hc HF IH]; cbn [map vsum].
  - rewrite <- (total_0 n). apply total_ext. intros i _. unfold length2. cbn. ring.
  - rewrite <- IH. rewrite (dot_total n (vmul w c)) by (rewrite vmul_length; congruence). rewrite <- total_plus. apply total_ext. intros i Hi.
    rewrite nth_vmul by lia. unfold length2. cbn [dot]. ring.
Qed.
Lemma dot_app a b : forall c d, length a = length c -> dot (a ++ b) (c ++ d) = dot a c + dot b d.
Proof. induction a as [|x a IH]; intros [|y c] d L; try discriminate; cbn; [ring|]. rewrite IH by (injection L; auto). ring. Qed.
Lemma vmul_app a b : forall c d, length a = length c -> vmul (a ++ b) (c ++ d) = vmul a c ++ vmul b d.
Proof. induction a as [|x a IH]; intros [|y c] d L; try discriminate; [reflexivity|]. cbn. f_equal. apply IH. injection L; auto. Qed.
(** All components carry the weights of the cells. *)
Definition tile (k : nat) (w : vec) : vec := concat (repeat w k).
Lemma tile_length k w : length (tile k w) = (length w * k)%nat.
Proof. unfold tile. induction k as [|k IH]; cbn; [lia|]. rewrite app_length, IH. lia. Qed.
Lemma tile_vmul n w cols : length w = n -> Forall (fun c => length c = n) cols -> vmul (tile (length cols) w) (concat cols) = concat (map (vmul w) cols).
Proof.
  intros Lw. induction 1 as [|c cols Hc HF IH]; [reflexivity|]. cbn [length map concat]. unfold tile. cbn [repeat concat].
  rewrite vmul_app by congruence. f_equal. exact IH.
Qed.
Lemma tile_norm n w cols : length w = n -> Forall (fun c => length c = n) cols ->
  dot (vmul (tile (length cols) w) (concat cols)) (vmul (tile (length cols) w) (concat cols)) = vsum (map (fun c => dot (vmul w c) (vmul w c)) cols).
Proof.
  intros Lw HF. rewrite (tile_vmul n) by assumption. induction HF as [|c cols Hc HF IH]; [reflexivity|]. cbn [map concat vsum].
  rewrite dot_app by reflexivity. rewrite IH. reflexivity.
Qed.
(** The value of a term as a weighted square in the flattened vector. *)
Lemma value_flat n k w u : length w = n -> length u = (n * k)%nat ->
  wnorm2 w (row_norms n (chunk n k u)) = Ok (dot (vmul (tile k w) u) (vmul (tile k w) u)).
Proof.
  intros Lw Lu. unfold wnorm2. rewrite row_norms_length, Lw, Nat.eqb_refl. f_equal. cbv zeta.
  rewrite norms_flat by (try exact Lw; apply chunk_cols; exact Lu).
  rewrite <- (tile_norm n) by (try exact Lw; apply chunk_cols; exact Lu). rewrite chunk_length, concat_chunk by exact Lu. reflexivity.
Qed.
Lemma weighted_flat n k w u : k <> 0%nat -> length w = n -> length u = (n * k)%nat ->
  weighted k w u = Ok (vmul (tile k w) (vmul (tile k w) u)).
Proof.
  intros K Lw Lu. unfold weighted, reshape_free, reshape. destruct (k =? 0)%nat eqn:E; [apply Nat.eqb_eq in E; lia|].
  rewrite Lu, Nat.div_mul, Nat.eqb_refl by exact K. cbn [bind]. rewrite Lw, Nat.eqb_refl. f_equal.
  pose proof (chunk_cols n k u Lu) as HF. rewrite <- (concat_chunk n k u Lu) at 2. rewrite <- (chunk_length n k u) at 2 3.
  rewrite (tile_vmul n) by assumption. rewrite <- (map_map (vmul w) (vmul w)).
  rewrite <- (tile_vmul n w (map (vmul w) (chunk n k u))); [rewrite map_length; reflexivity|exact Lw|].
  apply Forall_forall. intros x Hx. apply in_map_iff in Hx. destruct Hx as (c & <- & Hc). rewrite Forall_forall in HF. rewrite vmul_length; [exact Lw|].
  rewrite (HF c Hc). exact Lw.
Qed.
