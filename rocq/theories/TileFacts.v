(** Lemmas about volume averages on tiles. *)
From Verif Require Import Vec Tile SpecTile.
Local Open Scope R_scope.

Lemma compress_map {A B} (f : A -> B) m x : compress m (map f x) = map f (compress m x).
Proof. revert x; induction m as [|b m IH]; intros [|a x]; cbn; auto. destruct b; cbn; now rewrite IH. Qed.
Lemma compress_length_eq {A B} m (x : list A) (y : list B) : length x = length y -> length (compress m x) = length (compress m y).
Proof.
  revert x y; induction m as [|b m IH]; intros [|a x] [|c y]; cbn; intros E; try discriminate; auto.
  destruct b; cbn; rewrite (IH x y); auto.
Qed.
Lemma compress_filter {A} (f : A -> bool) l : compress (map f l) l = filter f l.
Proof. induction l as [|a l IH]; cbn; auto. destruct (f a); now rewrite IH. Qed.
Lemma scale_rows_map {A} (f : A -> R) (g : A -> vec) l : scale_rows (map f l) (map g l) = map (fun a => vscale (f a) (g a)) l.
Proof. induction l; cbn; congruence. Qed.
Lemma dotapp a b c d : length a = length c -> dot (a ++ b) (c ++ d) = dot a c + dot b d.
Proof. revert c; induction a as [|x a IH]; intros [|y c]; cbn; intros E; try discriminate; [lra|]. rewrite IH by lia. lra. Qed.
Lemma dot0 n v : dot (vzero n) v = 0.
Proof. unfold vzero, vconst. revert v; induction n; intros [|x v]; cbn; auto. rewrite IHn; lra. Qed.
Lemma dotscale c a b : dot (vscale c a) b = c * dot a b.
Proof. revert b; induction a as [|x a IH]; intros [|y b]; cbn; try lra. unfold vscale in IH; rewrite IH; lra. Qed.
Lemma dotadd a u v : length u = length v -> dot a (vadd u v) = dot a u + dot a v.
Proof.
  revert u v; induction a as [|x a IH]; intros [|y u] [|z v]; cbn; intros E; try discriminate; try lra.
  fold (vadd u v). rewrite IH by lia. lra.
Qed.

(** ** One row *)
Lemma row_dot cs u i : length u = length cs ->
  dot (compress (map ga cs) (vol_row cs i)) (compress (map ga cs) u) = inside cs u i.
Proof.
  unfold vol_row. revert u; induction cs as [|c cs IH]; intros [|x u]; cbn; intros E; try discriminate; auto.
  destruct (ga c); cbn; rewrite <- IH by lia; [|lra].
  destruct (Nat.eqb (gl c) i); lra.
Qed.
Lemma row_sum cs i : vsum (compress (map ga cs) (vol_row cs i)) = active_volume cs i.
Proof.
  unfold active_volume, vol_row. induction cs as [|c cs IH]; cbn; auto.
  destruct (ga c); cbn; rewrite IH; [|lra]. destruct (Nat.eqb (gl c) i); lra.
Qed.
Lemma active_volume_sign cs i : Forall (fun c => 0 < gv c) cs ->
  if holds cs i then 0 < active_volume cs i else active_volume cs i = 0.
Proof.
  unfold holds, active_volume. induction cs as [|c cs IH]; cbn; auto.
  intros F; inversion_clear F as [|? ? Hc Hr]. specialize (IH Hr).
  destruct (ga c && Nat.eqb (gl c) i); cbn.
  - destruct (existsb _ cs); lra.
  - destruct (existsb _ cs); lra.
Qed.
Lemma local_active_holds cs nl : Forall (fun c => 0 < gv c) cs ->
  local_active cs nl = map (holds cs) (seq 0 nl).
Proof.
  intros F. unfold local_active, vol_rows. rewrite map_map. apply map_ext; intros i.
  rewrite row_sum. pose proof (active_volume_sign cs i F) as H.
  destruct (holds cs i), (Rlt_dec 0 (active_volume cs i)); auto; lra.
Qed.
Lemma map_nth_seq (lv : vec) : lv = map (fun i => nth i lv 0) (seq 0 (length lv)).
Proof.
  induction lv as [|x lv IH]; cbn [length seq map]; auto.
  f_equal. rewrite <- seq_shift, map_map. exact IH.
Qed.
Lemma tile_block_rows cs lv : Forall (fun c => 0 < gv c) cs ->
  tile_block cs lv = map (fun i => vscale (1 / nth i lv 0) (compress (map ga cs) (vol_row cs i))) (tiles cs (length lv)).
Proof.
  intros F. unfold tile_block. rewrite local_active_holds by auto.
  rewrite (map_nth_seq lv) at 2. unfold vol_rows. rewrite !compress_map, compress_filter, map_map.
  apply scale_rows_map.
Qed.
Lemma mv_map {A} (f : A -> vec) l v : mv (map f l) v = map (fun a => dot (f a) v) l.
Proof. unfold mv. now rewrite map_map. Qed.

(** ** Blocks *)
Lemma concat_len n (ms : list vec) : Forall (fun m => length m = n) ms -> length (concat ms) = (length ms * n)%nat.
Proof. induction 1; cbn; auto. rewrite app_length, H, IHForall; lia. Qed.
Lemma block_dot n r ms k : length r = n -> Forall (fun m => length m = n) ms -> (k < length ms)%nat ->
  dot (vzero (k * n) ++ r ++ vzero ((length ms - 1 - k) * n)) (concat ms) = dot r (nth k ms []).
Proof.
  intros Hr F Hk. destruct (nth_split ms [] Hk) as (l1 & l2 & E & E1).
  remember (nth k ms []) as m. rewrite E in F |- *.
  apply Forall_app in F as [F1 F2]. inversion_clear F2 as [|? ? Hm F3].
  rewrite concat_app. cbn [concat].
  rewrite dotapp by (rewrite vzero_length, (concat_len n l1 F1); congruence).
  rewrite dot0, dotapp by congruence. rewrite dot0; lra.
Qed.
Lemma mv_concat (Bs : list mat) v : mv (concat Bs) v = concat (map (fun B => mv B v) Bs).
Proof. unfold mv. apply concat_map. Qed.
Lemma block_diag_mv n B ms : Forall (fun r => length r = n) B -> Forall (fun m => length m = n) ms ->
  mv (block_diag n (length ms) B) (concat ms) = concat (map (mv B) ms).
Proof.
  intros FB FM. unfold block_diag. rewrite mv_concat, map_map. f_equal.
  transitivity (map (fun k => mv B (nth k ms [])) (seq 0 (length ms))).
  - apply map_ext_in; intros k Hk. apply in_seq in Hk. rewrite mv_map. unfold mv.
    apply map_ext_in; intros r Hr. rewrite Forall_forall in FB. apply block_dot; auto; lia.
  - clear. induction ms as [|m ms IH]; cbn [length seq map]; auto. f_equal.
    rewrite <- seq_shift, map_map. exact IH.
Qed.

(** ** The theorems *)
Lemma meshes_pos cs lv : meshes cs lv -> Forall (fun c => 0 < gv c) cs.
Proof. intros [F _]. eapply Forall_impl; [|exact F]. now intros c [H _]. Qed.
Lemma meshes_in cs lv : meshes cs lv -> existsb (fun c => Nat.leb (length lv) (gl c)) cs = false.
Proof.
  intros [F _]. induction F as [|c cs [_ H] F IH]; cbn; auto. rewrite IH, Bool.orb_false_r. apply Nat.leb_gt; auto.
Qed.
Lemma tile_ok cs lv tol comps : meshes cs lv -> 0 < tol -> (0 < comps)%nat ->
  tile_map cs lv tol comps = Ok (block_diag (n_active cs) comps (tile_block cs lv)).
Proof.
  intros M T C. unfold tile_map. destruct (Rlt_dec 0 tol); [|lra]. destruct comps; [lia|].
  now rewrite (meshes_in _ _ M).
Qed.
Lemma on_active_length cs u : length u = length cs -> length (on_active cs u) = n_active cs.
Proof. intros E. unfold on_active, n_active. now apply compress_length_eq. Qed.
Lemma block_cols cs lv : Forall (fun c => 0 < gv c) cs -> Forall (fun r => length r = n_active cs) (tile_block cs lv).
Proof.
  intros F. rewrite tile_block_rows by auto. apply Forall_map, Forall_forall; intros i _.
  rewrite vscale_length. apply compress_length_eq. unfold vol_row; now rewrite map_length.
Qed.

Lemma tile_average cs lv tol us : meshes cs lv -> 0 < tol -> us <> [] ->
  Forall (fun u => length u = length cs) us ->
  exists P, tile_map cs lv tol (length us) = Ok P /\
    tile_apply (length us * n_active cs) P (concat (map (on_active cs) us))
    = Ok (concat (map (fun u => map (fun i => inside cs u i / nth i lv 0) (tiles cs (length lv))) us)).
Proof.
  intros M T N F. eexists; split; [apply tile_ok; auto; destruct us; cbn; [congruence|lia]|].
  pose proof (meshes_pos _ _ M) as Hp.
  assert (FM : Forall (fun m => length m = n_active cs) (map (on_active cs) us)).
  { apply Forall_map. eapply Forall_impl; [|exact F]. intros; now apply on_active_length. }
  unfold tile_apply. rewrite (concat_len (n_active cs)) by auto. rewrite map_length, Nat.eqb_refl. f_equal.
  rewrite <- (map_length (on_active cs) us) at 1. rewrite block_diag_mv by auto using block_cols.
  rewrite map_map. f_equal. apply map_ext_in; intros u Hu. rewrite tile_block_rows, mv_map by auto.
  apply map_ext; intros i. rewrite dotscale. unfold on_active. rewrite row_dot by (rewrite Forall_forall in F; auto).
  unfold Rdiv; lra.
Qed.

Lemma tile_one cs lv tol u : meshes cs lv -> 0 < tol -> length u = length cs ->
  exists P, tile_map cs lv tol 1 = Ok P /\
    tile_apply (n_active cs) P (on_active cs u)
    = Ok (map (fun i => inside cs u i / nth i lv 0) (tiles cs (length lv))).
Proof.
  intros M T E. destruct (tile_average cs lv tol [u] M T ltac:(discriminate) ltac:(auto)) as (P & HP & HA).
  exists P; split; auto. cbn [length map concat] in HA. rewrite Nat.mul_1_l, !app_nil_r in HA. exact HA.
Qed.

Lemma tile_flags cs lv i : meshes cs lv -> (i < length lv)%nat ->
  nth i (local_active cs (length lv)) false = true <-> exists c, In c cs /\ ga c = true /\ gl c = i.
Proof.
  intros M Hi. rewrite local_active_holds by eauto using meshes_pos.
  rewrite (nth_indep _ false (holds cs 0%nat)) by (rewrite map_length, seq_length; auto).
  rewrite map_nth, seq_nth by auto. cbn [Nat.add]. unfold holds. rewrite existsb_exists. split.
  - intros (c & Hc & H). apply andb_prop in H as [H1 H2]. apply Nat.eqb_eq in H2. eauto.
  - intros (c & Hc & H1 & H2). exists c. rewrite H1, H2, Nat.eqb_refl. auto.
Qed.

Lemma inside_range cs u i lo hi : Forall (fun c => 0 < gv c) cs -> length u = length cs ->
  Forall (fun x => lo <= x <= hi) u ->
  lo * active_volume cs i <= inside cs u i <= hi * active_volume cs i.
Proof.
  unfold active_volume. intros F; revert u; induction F as [|c cs Hc F IH]; intros [|x u]; cbn; intros E B; try discriminate; [lra|].
  inversion_clear B as [|? ? Hx Hu]. specialize (IH u ltac:(lia) Hu).
  destruct (ga c && Nat.eqb (gl c) i); [|lra].
  pose proof (Rmult_le_compat_l (gv c) lo x ltac:(lra) ltac:(lra)).
  pose proof (Rmult_le_compat_l (gv c) x hi ltac:(lra) ltac:(lra)). lra.
Qed.
Lemma nth_pos (lv : vec) i : Forall (fun v => 0 < v) lv -> (i < length lv)%nat -> 0 < nth i lv 0.
Proof. intros F H. rewrite Forall_forall in F. apply F, nth_In; auto. Qed.
Lemma tiles_in cs nl i : In i (tiles cs nl) -> (i < nl)%nat.
Proof. unfold tiles. rewrite filter_In, in_seq. lia. Qed.

Lemma tile_range cs lv tol u lo hi : meshes cs lv -> 0 < tol -> length u = length cs ->
  (forall i, (i < length lv)%nat -> (exists c, In c cs /\ ga c = true /\ gl c = i) -> active_volume cs i = nth i lv 0) ->
  Forall (fun x => lo <= x <= hi) u ->
  exists P y, tile_map cs lv tol 1 = Ok P /\ tile_apply (n_active cs) P (on_active cs u) = Ok y /\
    Forall (fun x => lo <= x <= hi) y.
Proof.
  intros M T E Cv B. destruct (tile_one cs lv tol u M T E) as (P & HP & HA).
  exists P; eexists; repeat split; eauto. apply Forall_map, Forall_forall; intros i Hi.
  pose proof (tiles_in _ _ _ Hi) as Hl.
  assert (V : active_volume cs i = nth i lv 0).
  { apply Cv; auto. apply (tile_flags cs lv i M Hl). rewrite local_active_holds by eauto using meshes_pos.
    rewrite (nth_indep _ false (holds cs 0%nat)) by (rewrite map_length, seq_length; auto).
    rewrite map_nth, seq_nth by auto. now apply filter_In in Hi as [_ Hi]. }
  pose proof (nth_pos lv i (proj2 M) Hl) as Hv.
  pose proof (inside_range cs u i lo hi (meshes_pos _ _ M) E B) as H. rewrite V in H.
  split; apply (Rmult_le_reg_r (nth i lv 0)); auto; unfold Rdiv; rewrite ?Rmult_assoc, ?Rinv_l; lra.
Qed.

Lemma inside_const cs c i : inside cs (map (fun _ => c) cs) i = c * active_volume cs i.
Proof.
  unfold active_volume. induction cs as [|g cs IH]; cbn; [lra|]. rewrite IH. destruct (ga g && Nat.eqb (gl g) i); lra.
Qed.
Lemma tile_constant cs lv tol c : meshes cs lv -> 0 < tol ->
  exists P, tile_map cs lv tol 1 = Ok P /\
    tile_apply (n_active cs) P (on_active cs (map (fun _ => c) cs))
    = Ok (map (fun i => c * (active_volume cs i / nth i lv 0)) (tiles cs (length lv))).
Proof.
  intros M T. destruct (tile_one cs lv tol (map (fun _ => c) cs) M T (map_length _ _)) as (P & HP & HA).
  exists P; split; auto. rewrite HA. f_equal. apply map_ext; intros i. rewrite inside_const. unfold Rdiv; lra.
Qed.

(** ** The integral is kept *)
Lemma dot_maps {A} (f g : A -> R) l : dot (map f l) (map g l) = vsum (map (fun a => f a * g a) l).
Proof. induction l; cbn; congruence. Qed.
Lemma vsum_plus {A} (f g : A -> R) l : vsum (map (fun a => f a + g a) l) = vsum (map f l) + vsum (map g l).
Proof. induction l; cbn; lra. Qed.
Lemma vsum_pick (a : R) k s n : vsum (map (fun i => if Nat.eqb k i then a else 0) (seq s n))
  = if (Nat.leb s k && Nat.ltb k (s + n))%bool then a else 0.
Proof.
  revert s; induction n as [|n IH]; intros s; cbn [seq map vsum].
  - destruct (Nat.leb s k) eqn:E1, (Nat.ltb k (s + 0)) eqn:E2; cbn; auto. apply Nat.leb_le in E1; apply Nat.ltb_lt in E2; lia.
  - rewrite IH. destruct (Nat.eqb k s) eqn:E0.
    + apply Nat.eqb_eq in E0; subst. replace (Nat.leb (S s) s) with false by (symmetry; apply Nat.leb_gt; lia).
      rewrite Nat.leb_refl. replace (Nat.ltb s (s + S n)) with true by (symmetry; apply Nat.ltb_lt; lia). cbn; lra.
    + apply Nat.eqb_neq in E0. replace (s + S n)%nat with (S s + n)%nat by lia.
      destruct (Nat.leb (S s) k) eqn:E1, (Nat.leb s k) eqn:E2; cbn [andb]; try lra;
        rewrite ?Nat.leb_le, ?Nat.leb_gt in *; try lia.
Qed.
Lemma inside_total cs u nl : Forall (fun c => (gl c < nl)%nat) cs -> length u = length cs ->
  vsum (map (inside cs u) (seq 0 nl)) = integral cs u.
Proof.
  intros F; revert u; induction F as [|c cs Hc F IH]; intros [|x u]; cbn [length]; intros E; try discriminate.
  - cbn [integral]. clear. generalize 0%nat at 1 as s. induction nl; cbn; intros; auto. rewrite IHnl; lra.
  - cbn [inside integral]. rewrite vsum_plus, IH by lia. f_equal.
    destruct (ga c); cbn [andb].
    + rewrite vsum_pick. cbn [Nat.leb Nat.add andb]. now replace (Nat.ltb (gl c) nl) with true by (symmetry; apply Nat.ltb_lt; auto).
    + clear. generalize 0%nat as s. induction nl; cbn; intros; auto. rewrite IHnl; lra.
Qed.
Lemma inside_empty cs u i : holds cs i = false -> inside cs u i = 0.
Proof.
  unfold holds. revert u; induction cs as [|c cs IH]; intros [|x u]; cbn; auto.
  intros H. apply Bool.orb_false_iff in H as [H1 H2]. rewrite H1, IH by auto. lra.
Qed.
Lemma vsum_filter {A} (p : A -> bool) (f : A -> R) l : (forall a, p a = false -> f a = 0) ->
  vsum (map f (filter p l)) = vsum (map f l).
Proof. intros H. induction l as [|a l IH]; cbn; auto. destruct (p a) eqn:E; cbn; rewrite IH; auto. rewrite (H a E); lra. Qed.

Lemma tile_total cs lv tol u : meshes cs lv -> 0 < tol -> length u = length cs ->
  exists P y, tile_map cs lv tol 1 = Ok P /\ tile_apply (n_active cs) P (on_active cs u) = Ok y /\
    dot (compress (local_active cs (length lv)) lv) y = integral cs u.
Proof.
  intros M T E. destruct (tile_one cs lv tol u M T E) as (P & HP & HA).
  exists P; eexists; repeat split; eauto. rewrite local_active_holds by eauto using meshes_pos.
  rewrite (map_nth_seq lv) at 2. rewrite compress_map, compress_filter. fold (tiles cs (length lv)). rewrite dot_maps.
  transitivity (vsum (map (inside cs u) (tiles cs (length lv)))).
  - f_equal. apply map_ext_in; intros i Hi. pose proof (nth_pos lv i (proj2 M) (tiles_in _ _ _ Hi)). field. lra.
  - unfold tiles. rewrite vsum_filter by (intros; now apply inside_empty). apply inside_total; auto.
    eapply Forall_impl; [|apply (proj1 M)]. now intros c [_ H].
Qed.

(** ** Linear *)
Lemma tile_linear cols P m v y z : length m = length v -> tile_apply cols P m = Ok y -> tile_apply cols P v = Ok z ->
  tile_apply cols P (vadd m v) = Ok (vadd y z).
Proof.
  unfold tile_apply. intros E. rewrite vadd_length by auto.
  destruct (Nat.eqb (length m) cols); [|discriminate]. destruct (Nat.eqb (length v) cols); [|discriminate].
  intros H1 H2; injection H1 as <-; injection H2 as <-. f_equal.
  unfold mv, vadd. induction P as [|r P IH]; cbn; auto. rewrite <- IH. f_equal. now apply dotadd.
Qed.

(** ** Refusals *)
Lemma tile_refused cs lv tol comps :
  (exists P, tile_map cs lv tol comps = Ok P) <-> 0 < tol /\ (1 <= comps)%nat /\ forall c, In c cs -> (gl c < length lv)%nat.
Proof.
  unfold tile_map. destruct (Rlt_dec 0 tol); [|split; [intros [P H]; discriminate|intros [H _]; lra]].
  destruct comps; [split; [intros [P H]; discriminate|intros (_ & H & _); lia]|].
  destruct (existsb _ cs) eqn:E.
  - split; [intros [P H]; discriminate|]. intros (_ & _ & H). apply existsb_exists in E as (c & Hc & H1).
    apply Nat.leb_le in H1. specialize (H c Hc). lia.
  - split; [|eauto]. intros _. repeat split; auto; [lia|]. intros c Hc.
    destruct (Nat.leb (length lv) (gl c)) eqn:H; [|now apply Nat.leb_gt in H].
    assert (existsb (fun c => Nat.leb (length lv) (gl c)) cs = true) by (apply existsb_exists; eauto). congruence.
Qed.
