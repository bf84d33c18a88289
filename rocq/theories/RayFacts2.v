From Verif Require Import Py Vec VecDeriv PropsM LinSim SpecLinSim LinSimFacts ProbeFacts Ray SpecRay RayFacts.
Local Open Scope R_scope.

(** ** Lengths add up *)
Definition len (P Q : R * R) (x0 x1 y0 y1 : R) : R :=
  match length_in_cell P (dvec P Q) x0 x1 y0 y1 with Some v => v | None => 0 end.
Lemma len_closed P Q x0 x1 y0 y1 : 0 < dist2 P Q -> x0 <= x1 -> y0 <= y1 ->
  let M := dist2 P Q in
  len P Q x0 x1 y0 y1 =
  Rmax 0 (Rmin M (Rmin (ahi M (fst P) ((fst Q - fst P) / M) x0 x1) (ahi M (snd P) ((snd Q - snd P) / M) y0 y1)) -
          Rmax 0 (Rmax (alo M (fst P) ((fst Q - fst P) / M) x0 x1) (alo M (snd P) ((snd Q - snd P) / M) y0 y1))).
Proof.
  intros HM Hx Hy M. unfold len. rewrite (lic_closed _ _ _ _ _ _ M) by (try reflexivity; unfold M; lra).
  cbn [dvec fst snd]. unfold cut. set (lo := Rmax 0 (Rmax _ _)). set (hi := Rmin M _).
  destruct (Rle_dec lo hi); unfold Rmax at 1; destruct (Rle_dec _ _); lra.
Qed.
Lemma ov_add M l h a b c : a <= b <= c ->
  Rmax 0 (Rmin M (Rmin c h) - Rmax 0 (Rmax a l)) =
  Rmax 0 (Rmin M (Rmin b h) - Rmax 0 (Rmax a l)) + Rmax 0 (Rmin M (Rmin c h) - Rmax 0 (Rmax b l)).
Proof.
  intros. assert (E : forall z w, Rmin M (Rmin z w) = Rmin z (Rmin M w)) by (clear; intros; rmm; lra).
  assert (F : forall z w, Rmax 0 (Rmax z w) = Rmax z (Rmax 0 w)) by (clear; intros; rmm; lra).
  rewrite !E, !F. generalize (Rmin M h) (Rmax 0 l). intros q p.
  destruct (Rle_dec b q).
  - rewrite (Rmin_left b q) by lra. destruct (Rle_dec p b).
    + rewrite (Rmax_left b p) by lra. rewrite !(Rmax_right 0).
      * lra.
      * assert (b <= Rmin c q) by (apply Rmin_glb; lra). lra.
      * assert (Rmax a p <= b) by (apply Rmax_lub; lra). lra.
      * assert (b <= Rmin c q) by (apply Rmin_glb; lra). assert (Rmax a p <= b) by (apply Rmax_lub; lra). lra.
    + rewrite (Rmax_right b p), (Rmax_right a p) by lra. rewrite (Rmax_left 0 (b - p)) by lra. ring.
  - rewrite (Rmin_right b q), (Rmin_right c q) by lra.
    rewrite (Rmax_left 0 (q - Rmax b p)); [ring|]. pose proof (Rmax_l b p). lra.
Qed.
(** Adding along one axis, the limits of the other axis being l and h. *)
Lemma axis_add M o d l h c0 c1 c2 : 0 < M -> c0 <= c1 <= c2 -> (d = 0 -> o <> c1) ->
  let G a b := Rmax 0 (Rmin M (Rmin (ahi M o d a b) h) - Rmax 0 (Rmax (alo M o d a b) l)) in
  G c0 c2 = G c0 c1 + G c1 c2.
Proof.
  intros HM Hc Ho. cbv zeta. unfold ahi, alo. destruct (Req_EM_T d 0) as [Z|N].
  - specialize (Ho Z). generalize h l. intros q p.
    assert (E : Rmax 0 (Rmin M (Rmin M q) - Rmax 0 (Rmax (M + 1) p)) = 0).
    { pose proof (Rmin_l M (Rmin M q)). pose proof (Rmax_r 0 (Rmax (M + 1) p)). pose proof (Rmax_l (M + 1) p). apply Rmax_left. lra. }
    destruct (Rle_dec c0 o), (Rle_dec o c2), (Rle_dec o c1), (Rle_dec c1 o); try lra; rewrite E; lra.
  - assert (E : forall c, (c - o) / d = (c - o) * / d) by reflexivity.
    destruct (Rlt_dec 0 d) as [Pd|Nd].
    + assert (0 < / d) by (apply Rinv_0_lt_compat; assumption).
      assert ((c0 - o) / d <= (c1 - o) / d) by (rewrite !E; apply Rmult_le_compat_r; lra).
      assert ((c1 - o) / d <= (c2 - o) / d) by (rewrite !E; apply Rmult_le_compat_r; lra).
      revert H0 H1. generalize ((c0 - o) / d) ((c1 - o) / d) ((c2 - o) / d). intros a b c H0 H1.
      rewrite (Rmin_left a b), (Rmin_left a c), (Rmin_left b c), (Rmax_right a b), (Rmax_right a c), (Rmax_right b c) by lra.
      apply ov_add; lra.
    + assert (/ d < 0) by (apply Rinv_lt_0_compat; lra).
      assert (forall u v, u <= v -> v * / d <= u * / d) by (intros; rewrite !(Rmult_comm _ (/ d)); apply Rmult_le_compat_neg_l; lra).
      assert ((c1 - o) / d <= (c0 - o) / d) by (rewrite !E; apply H0; lra).
      assert ((c2 - o) / d <= (c1 - o) / d) by (rewrite !E; apply H0; lra).
      revert H1 H2. generalize ((c0 - o) / d) ((c1 - o) / d) ((c2 - o) / d). intros a b c H1 H2.
      rewrite (Rmin_right a b), (Rmin_right a c), (Rmin_right b c), (Rmax_left a b), (Rmax_left a c), (Rmax_left b c) by lra.
      rewrite Rplus_comm. apply ov_add; lra.
Qed.
Lemma len_add_x P Q x0 x1 x2 y0 y1 : 0 < dist2 P Q -> x0 <= x1 <= x2 -> y0 <= y1 -> (fst P = fst Q -> fst P <> x1) ->
  len P Q x0 x2 y0 y1 = len P Q x0 x1 y0 y1 + len P Q x1 x2 y0 y1.
Proof.
  intros HM Hx Hy Ho. rewrite !len_closed by lra. cbv zeta. apply (axis_add (dist2 P Q)); [assumption|assumption|].
  intros Z. apply Ho. apply (f_equal (Rmult (dist2 P Q))) in Z. rewrite Rmult_0_r in Z.
  replace (dist2 P Q * ((fst Q - fst P) / dist2 P Q)) with (fst Q - fst P) in Z by (field; lra). lra.
Qed.
Lemma len_add_y P Q x0 x1 y0 y1 y2 : 0 < dist2 P Q -> x0 <= x1 -> y0 <= y1 <= y2 -> (snd P = snd Q -> snd P <> y1) ->
  len P Q x0 x1 y0 y2 = len P Q x0 x1 y0 y1 + len P Q x0 x1 y1 y2.
Proof.
  intros HM Hx Hy Ho. rewrite !len_closed by lra. cbv zeta.
  assert (C : forall u v w z a b, Rmax 0 (Rmin (dist2 P Q) (Rmin (ahi (dist2 P Q) u v a b) w) - Rmax 0 (Rmax (alo (dist2 P Q) u v a b) z)) =
    Rmax 0 (Rmin (dist2 P Q) (Rmin w (ahi (dist2 P Q) u v a b)) - Rmax 0 (Rmax z (alo (dist2 P Q) u v a b)))).
  { intros. rewrite (Rmin_comm w), (Rmax_comm z). reflexivity. }
  rewrite <- (C _ _ _ _ y0 y2), <- (C _ _ _ _ y0 y1), <- (C _ _ _ _ y1 y2). apply (axis_add (dist2 P Q)); [assumption|assumption|].
  intros Z. apply Ho. apply (f_equal (Rmult (dist2 P Q))) in Z. rewrite Rmult_0_r in Z.
  replace (dist2 P Q * ((snd Q - snd P) / dist2 P Q)) with (snd Q - snd P) in Z by (field; lra). lra.
Qed.
Lemma len_nonneg P Q x0 x1 y0 y1 : 0 < dist2 P Q -> x0 <= x1 -> y0 <= y1 -> 0 <= len P Q x0 x1 y0 y1.
Proof. intros. rewrite len_closed by assumption. apply Rmax_l. Qed.

(** ** Sums over the nodes *)
Lemma increasing_nth l : increasing l -> forall i j, (i < j < length l)%nat -> nth i l 0 < nth j l 0.
Proof.
  induction l as [|a l IH]; cbn [length]; intros H i j Hij; [lia|].
  destruct l as [|b l]; [cbn in *; lia|]. destruct H as [Hab H].
  destruct j as [|j]; [lia|]. cbn [nth]. destruct i as [|i].
  - change (nth 0 (a :: b :: l) 0) with a. destruct j as [|j]; [exact Hab|].
    apply (Rlt_trans _ b); [assumption|]. apply (IH H 0%nat (S j)). cbn [length] in *; lia.
  - apply (IH H i j). cbn [length] in *; lia.
Qed.
Lemma vsum_seq_S f k : vsum (map f (seq 0 (S k))) = vsum (map f (seq 0 k)) + f k.
Proof. rewrite seq_S, map_app. cbn [map]. rewrite Nat.add_0_l.
  assert (A : forall a b, vsum (a ++ b) = vsum a + vsum b) by (induction a; cbn; intros; [ring|rewrite IHa; ring]).
  rewrite A. cbn. ring. Qed.
Lemma telescope (g : R -> R -> R) l : (2 <= length l)%nat ->
  (forall k, (0 < k < length l - 1)%nat -> g (nth 0 l 0) (nth (S k) l 0) = g (nth 0 l 0) (nth k l 0) + g (nth k l 0) (nth (S k) l 0)) ->
  vsum (map (fun i => g (nth i l 0) (nth (i + 1) l 0)) (seq 0 (length l - 1))) = g (nth 0 l 0) (nth (length l - 1) l 0).
Proof.
  intros Hl H. assert (K : forall k, (k < length l - 1)%nat -> vsum (map (fun i => g (nth i l 0) (nth (i + 1) l 0)) (seq 0 (S k))) = g (nth 0 l 0) (nth (S k) l 0)).
  { induction k as [|k IH]; intros Hk; [cbn; ring|]. rewrite vsum_seq_S, IH by lia. rewrite Nat.add_1_r. symmetry. apply H. lia. }
  replace (length l - 1)%nat with (S (length l - 2)) by lia. rewrite K by lia. reflexivity.
Qed.
Lemma vsum_block (f : nat -> R) nx ny :
  vsum (map f (seq 0 (nx * ny))) = vsum (map (fun j => vsum (map (fun i => f (i + j * nx)%nat) (seq 0 nx))) (seq 0 ny)).
Proof.
  induction ny as [|ny IH]; [rewrite Nat.mul_0_r; reflexivity|].
  rewrite vsum_seq_S, <- IH. replace (nx * S ny)%nat with (nx * ny + nx)%nat by lia.
  rewrite seq_app, map_app.
  assert (A : forall a b, vsum (a ++ b) = vsum a + vsum b) by (induction a; cbn; intros; [ring|rewrite IHa; ring]).
  rewrite A. f_equal. rewrite Nat.add_0_l. replace (nx * ny)%nat with (ny * nx)%nat by lia. clear IH.
  assert (G : forall k o, seq (k + o) nx = map (fun i => (i + k)%nat) (seq o nx)).
  { clear. induction nx; intros; cbn; [reflexivity|]. f_equal; [lia|]. rewrite <- IHnx. f_equal. lia. }
  rewrite <- (Nat.add_0_r (ny * nx)), G, map_map. f_equal. apply map_ext. intros; f_equal; lia.
Qed.
Lemma vsum_nth r : vsum r = vsum (map (fun k => nth k r 0) (seq 0 (length r))).
Proof.
  f_equal. apply (vec_ext r); [rewrite map_length, seq_length; reflexivity|].
  intros i Hi. cbv beta. rewrite (nth_indep (map (fun k => nth k r 0) (seq 0 (length r))) 0 (nth 0 r 0)) by (rewrite map_length, seq_length; assumption).
  rewrite (map_nth (fun k => nth k r 0) (seq 0 (length r)) 0%nat), seq_nth by assumption. reflexivity.
Qed.

(** ** The row of a ray *)
Lemma put_length i v r : length (put i v r) = length r.
Proof. revert i; induction r; intros [|i]; cbn; auto. Qed.
Lemma put_same i v r : (i < length r)%nat -> nth i (put i v r) 0 = v.
Proof. revert i; induction r; intros [|i]; cbn; intros; try lia; auto. apply IHr; lia. Qed.
Lemma put_other i k v r : i <> k -> nth k (put i v r) 0 = nth k r 0.
Proof. revert i k; induction r; intros [|i] [|k]; cbn; intros; try lia; auto. Qed.
Lemma row_length n h : length (row_of n h) = n.
Proof.
  unfold row_of. assert (G : forall r, length (fold_left (fun r e => put (fst e) (snd e) r) h r) = length r).
  { induction h as [|e h IH]; intros r; cbn [fold_left]; [reflexivity|]. rewrite IH. apply put_length. }
  rewrite G. apply vzero_length.
Qed.
Lemma fold_put h : forall r k, (k < length r)%nat ->
  (forall v, In (k, v) h -> (forall v', In (k, v') h -> v' = v) -> nth k (fold_left (fun r e => put (fst e) (snd e) r) h r) 0 = v) /\
  ((forall v, ~ In (k, v) h) -> nth k (fold_left (fun r e => put (fst e) (snd e) r) h r) 0 = nth k r 0).
Proof.
  induction h as [|[i w] h IH]; intros r k Hk; cbn [fold_left fst snd]; [split; [intros v []|reflexivity]|].
  assert (Hk' : (k < length (put i w r))%nat) by (rewrite put_length; assumption).
  destruct (IH (put i w r) k Hk') as [IH1 IH2]. split.
  - intros v Hv HU.
    assert (D : (exists v', In (k, v') h) \/ (forall v', ~ In (k, v') h)).
    { clear. induction h as [|[j z] h IHh]; [right; intros v' []|]. destruct IHh as [[v' Hv']|N]; [left; exists v'; right; assumption|].
      destruct (Nat.eq_dec j k) as [->|Hj]; [left; exists z; left; reflexivity|right].
      intros v' [E|E]; [injection E; intros; contradiction|apply (N v' E)]. }
    destruct D as [[v' Hv']|N].
    + assert (v' = v) by (apply HU; right; assumption). subst v'. apply IH1; [assumption|]. intros; apply HU; right; assumption.
    + rewrite (IH2 N). destruct Hv as [E|E]; [|exfalso; apply (N v E)]. injection E as -> ->. apply put_same; assumption.
  - intros N. rewrite IH2 by (intros v Hv; apply (N v); right; assumption).
    apply put_other. intros ->. apply (N w). left; reflexivity.
Qed.
Lemma hits_in m T Rr i j v : In ((i, j), v) (hits m T Rr) <-> (i < ncx m)%nat /\ (j < ncy m)%nat /\ cell_length m T Rr i j = Some v.
Proof.
  unfold hits. rewrite in_flat_map. split.
  - intros (i' & Hi & H). apply in_flat_map in H. destruct H as (j' & Hj & H). apply in_seq in Hi, Hj.
    destruct (cell_length m T Rr i' j') eqn:E; [|destruct H]. destruct H as [H|[]]. injection H as -> -> ->. split; [lia|]. split; [lia|]. exact E.
  - intros (Hi & Hj & E). exists i. split; [apply in_seq; lia|]. apply in_flat_map. exists j. split; [apply in_seq; lia|]. rewrite E. left; reflexivity.
Qed.
Lemma key_inj nx i j i' j' : (i < nx)%nat -> (i' < nx)%nat -> (i + j * nx = i' + j' * nx)%nat -> i = i' /\ j = j'.
Proof.
  intros Hi Hi' E. assert (nx <> 0)%nat by lia. assert (j = j').
  { assert (A := Nat.div_add i j nx H). assert (B := Nat.div_add i' j' nx H). rewrite (Nat.div_small i) in A by assumption. rewrite (Nat.div_small i') in B by assumption. rewrite E in A. lia. }
  subst; lia.
Qed.
Lemma hits_row m T Rr i j : (i < ncx m)%nat -> (j < ncy m)%nat ->
  nth (i + j * ncx m) (row_of (ncells m) (map (fun e => (fst (fst e) + snd (fst e) * ncx m, snd e)%nat) (hits m T Rr))) 0 =
  match cell_length m T Rr i j with Some v => v | None => 0 end.
Proof.
  intros Hi Hj. unfold row_of.
  assert (Hk : (i + j * ncx m < length (vzero (ncells m)))%nat) by (rewrite vzero_length; unfold ncells; nia).
  match goal with |- context[fold_left _ ?h _] => destruct (fold_put h _ _ Hk) as [F1 F2] end.
  assert (K : forall v, In ((i + j * ncx m)%nat, v) (map (fun e => (fst (fst e) + snd (fst e) * ncx m, snd e)%nat) (hits m T Rr)) <-> cell_length m T Rr i j = Some v).
  { intros v. rewrite in_map_iff. split.
    - intros (((i', j'), w) & E & H). cbn in E. injection E as E ->. apply hits_in in H. destruct H as (Hi' & Hj' & H).
      destruct (key_inj _ _ _ _ _ Hi' Hi E) as [-> ->]. assumption.
    - intros E. exists ((i, j), v). split; [reflexivity|]. apply hits_in. auto. }
  destruct (cell_length m T Rr i j) as [v|] eqn:E.
  - apply F1; [apply K; reflexivity|]. intros v' Hv'. apply K in Hv'. congruence.
  - rewrite F2; [apply nth_repeat|]. intros v Hv. apply K in Hv. discriminate.
Qed.

Lemma line_row m T Rr h : line_integral m T Rr = Ok h -> forall i j, (i < ncx m)%nat -> (j < ncy m)%nat ->
  nth (i + j * ncx m) (row_of (ncells m) h) 0 = match cell_length m T Rr i j with Some v => v | None => 0 end.
Proof.
  unfold line_integral. intros H i j Hi Hj. destruct (hits m T Rr) as [|e l] eqn:E; [discriminate|]. rewrite <- E in H.
  injection H as <-. apply hits_row; assumption.
Qed.
Lemma mesh_x m i : good_mesh m -> (i < ncx m)%nat -> nth i (nodes_x m) 0 < nth (S i) (nodes_x m) 0.
Proof. intros (Gx & _) Hi. apply increasing_nth; [assumption|]. unfold ncx in Hi. lia. Qed.
Lemma mesh_y m i : good_mesh m -> (i < ncy m)%nat -> nth i (nodes_y m) 0 < nth (S i) (nodes_y m) 0.
Proof. intros (_ & Gy & _) Hi. apply increasing_nth; [assumption|]. unfold ncy in Hi. lia. Qed.
Lemma line_is_row m P Q h : good_mesh m -> 0 < dist2 P Q -> line_integral m P Q = Ok h -> is_ray_row m P Q (row_of (ncells m) h).
Proof.
  intros G HM H. split; [apply row_length|]. intros i j Hi Hj. rewrite (line_row _ _ _ _ H) by assumption.
  unfold cell_length. rewrite !Nat.add_1_r. fold (dvec P Q).
  pose proof (lic_spec P Q _ _ _ _ HM (Rlt_le _ _ (mesh_x m i G Hi)) (Rlt_le _ _ (mesh_y m j G Hj))) as S.
  destruct (length_in_cell _ _ _ _ _ _) as [L|]; [left; exact S|right; split; [exact S|reflexivity]].
Qed.
(** ** Uniqueness of the row *)
Lemma stretch_unique P Q x0 x1 y0 y1 lo hi lo' hi' : stretch P Q x0 x1 y0 y1 lo hi -> stretch P Q x0 x1 y0 y1 lo' hi' -> lo = lo' /\ hi = hi'.
Proof.
  intros [L H] [L' H'].
  assert (A := proj1 (H' lo) (proj2 (H lo) (conj (Rle_refl _) L))). assert (B := proj1 (H' hi) (proj2 (H hi) (conj L (Rle_refl _)))).
  assert (C := proj1 (H lo') (proj2 (H' lo') (conj (Rle_refl _) L'))). assert (D := proj1 (H hi') (proj2 (H' hi') (conj L' (Rle_refl _)))). lra.
Qed.
Lemma row_len m P Q r i j : good_mesh m -> 0 < dist2 P Q -> is_ray_row m P Q r -> (i < ncx m)%nat -> (j < ncy m)%nat ->
  nth (i + j * ncx m) r 0 = len P Q (nth i (nodes_x m) 0) (nth (i + 1) (nodes_x m) 0) (nth j (nodes_y m) 0) (nth (j + 1) (nodes_y m) 0).
Proof.
  intros G HM [_ H] Hi Hj. rewrite !Nat.add_1_r. unfold len.
  pose proof (lic_spec P Q _ _ _ _ HM (Rlt_le _ _ (mesh_x m i G Hi)) (Rlt_le _ _ (mesh_y m j G Hj))) as S.
  destruct (length_in_cell _ _ _ _ _ _) as [L|].
  - destruct S as (lo & hi & S & ->). destruct (H i j Hi Hj) as [(lo' & hi' & S' & ->)|[N _]].
    + destruct (stretch_unique _ _ _ _ _ _ _ _ _ _ S S') as [-> ->]. reflexivity.
    + exfalso. destruct S as [L S]. destruct (proj2 (S lo) (conj (Rle_refl _) L)) as [A B]. apply (N lo A B).
  - destruct (H i j Hi Hj) as [(lo' & hi' & S' & ->)|[_ E]]; [|exact E].
    exfalso. destruct S' as [L S']. destruct (proj2 (S' lo') (conj (Rle_refl _) L)) as [A B]. apply (S lo' A B).
Qed.
Lemma row_sum m P Q r : good_mesh m -> 0 < dist2 P Q -> off_grid m P Q -> is_ray_row m P Q r ->
  vsum r = len P Q (first_node (nodes_x m)) (last_node (nodes_x m)) (first_node (nodes_y m)) (last_node (nodes_y m)).
Proof.
  intros G HM [Ox Oy] HR. rewrite vsum_nth. rewrite (proj1 HR). unfold ncells. rewrite vsum_block.
  pose proof G as (Gx & Gy & Lx & Ly).
  assert (I0 : forall k, (k < length (nodes_x m))%nat -> nth 0 (nodes_x m) 0 <= nth k (nodes_x m) 0).
  { intros [|k] Hk; [lra|]. left. apply increasing_nth; [assumption|lia]. }
  assert (J0 : forall k, (k < length (nodes_y m))%nat -> nth 0 (nodes_y m) 0 <= nth k (nodes_y m) 0).
  { intros [|k] Hk; [lra|]. left. apply increasing_nth; [assumption|lia]. }
  rewrite (vsum_ext _ (fun j => len P Q (first_node (nodes_x m)) (last_node (nodes_x m)) (nth j (nodes_y m) 0) (nth (j + 1) (nodes_y m) 0))).
  - unfold ncy. rewrite (telescope (fun a b => len P Q (first_node (nodes_x m)) (last_node (nodes_x m)) a b)); [reflexivity|assumption|].
    intros k Hk. apply len_add_y; [assumption|apply I0; lia| |].
    + split; [apply J0; lia|left; apply increasing_nth; [assumption|lia]].
    + intros E. apply Oy; [assumption|lia].
  - intros j Hj. apply in_seq in Hj.
    rewrite (vsum_ext _ (fun i => len P Q (nth i (nodes_x m) 0) (nth (i + 1) (nodes_x m) 0) (nth j (nodes_y m) 0) (nth (j + 1) (nodes_y m) 0))).
    + unfold ncx. rewrite (telescope (fun a b => len P Q a b (nth j (nodes_y m) 0) (nth (j + 1) (nodes_y m) 0))); [reflexivity|assumption|].
      intros k Hk. apply len_add_x; [assumption| |rewrite Nat.add_1_r; left; apply mesh_y; [assumption|lia]|].
      * split; [apply I0; lia|left; apply increasing_nth; [assumption|lia]].
      * intros E. apply Ox; [assumption|lia].
    + intros i Hi. apply in_seq in Hi. apply row_len; try assumption; lia.
Qed.
Lemma point_in_rect x0 x1 y0 y1 P Q t : 0 < dist2 P Q -> in_rect x0 x1 y0 y1 P -> in_rect x0 x1 y0 y1 Q -> 0 <= t <= dist2 P Q -> in_rect x0 x1 y0 y1 (point_at P Q t).
Proof.
  intros HM [A B] [C D] Ht. unfold in_rect, point_at. cbn [fst snd]. set (M := dist2 P Q) in *.
  assert (E : forall a b, a + t * ((b - a) / M) = (1 - t / M) * a + t / M * b) by (intros; field; lra). rewrite !E.
  assert (0 <= t / M <= 1).
  { split; [apply Rmult_le_pos; [lra|left; apply Rinv_0_lt_compat; assumption]|].
    apply (Rmult_le_reg_r M); [assumption|]. unfold Rdiv. rewrite Rmult_assoc, Rinv_l by lra. lra. }
  set (u := t / M) in *. clearbody u. split; split; nra.
Qed.
Lemma len_whole P Q x0 x1 y0 y1 : 0 < dist2 P Q -> x0 <= x1 -> y0 <= y1 -> in_rect x0 x1 y0 y1 P -> in_rect x0 x1 y0 y1 Q -> len P Q x0 x1 y0 y1 = dist2 P Q.
Proof.
  intros HM Hx Hy HP HQ. unfold len. pose proof (lic_spec P Q _ _ _ _ HM Hx Hy) as S. destruct (length_in_cell _ _ _ _ _ _) as [L|].
  - destruct S as (lo & hi & [Llo S] & ->).
    assert (A : lo <= 0 <= hi) by (apply S; split; [lra|apply point_in_rect; try assumption; lra]).
    assert (B : lo <= dist2 P Q <= hi) by (apply S; split; [lra|apply point_in_rect; try assumption; lra]).
    destruct (proj2 (S lo) (conj (Rle_refl _) Llo)). destruct (proj2 (S hi) (conj Llo (Rle_refl _))). lra.
  - exfalso. apply (S 0); [lra|apply point_in_rect; try assumption; lra].
Qed.
Lemma mesh_box m : good_mesh m -> first_node (nodes_x m) < last_node (nodes_x m) /\ first_node (nodes_y m) < last_node (nodes_y m).
Proof. intros (Gx & Gy & Lx & Ly). split; apply increasing_nth; try assumption; lia. Qed.
Lemma c60_total m P Q r : good_mesh m -> 0 < dist2 P Q -> off_grid m P Q -> is_ray_row m P Q r ->
  inside m P -> inside m Q -> vsum r = dist2 P Q.
Proof.
  intros G HM O HR HP HQ. rewrite (row_sum _ _ _ _ G HM O HR). destruct (mesh_box m G). apply len_whole; try assumption; lra.
Qed.
Lemma c60_within m P Q r : good_mesh m -> 0 < dist2 P Q -> off_grid m P Q -> is_ray_row m P Q r ->
  (exists lo hi, stretch P Q (first_node (nodes_x m)) (last_node (nodes_x m)) (first_node (nodes_y m)) (last_node (nodes_y m)) lo hi /\ vsum r = hi - lo) \/
  (misses P Q (first_node (nodes_x m)) (last_node (nodes_x m)) (first_node (nodes_y m)) (last_node (nodes_y m)) /\ vsum r = 0).
Proof.
  intros G HM O HR. rewrite (row_sum _ _ _ _ G HM O HR). destruct (mesh_box m G) as [A B]. unfold len.
  pose proof (lic_spec P Q _ _ _ _ HM (Rlt_le _ _ A) (Rlt_le _ _ B)) as S. destruct (length_in_cell _ _ _ _ _ _); [left; exact S|right; split; [exact S|reflexivity]].
Qed.
Lemma row_nonneg m P Q r : good_mesh m -> 0 < dist2 P Q -> is_ray_row m P Q r -> Forall (Rle 0) r.
Proof.
  intros G HM HR. apply Forall_forall. intros x Hx. destruct (In_nth _ _ 0 Hx) as (k & Hk & <-).
  rewrite (proj1 HR) in Hk. unfold ncells in Hk. assert (ncx m <> 0)%nat by nia.
  assert (E := Nat.div_mod k (ncx m) H). rewrite E. replace (ncx m * (k / ncx m) + k mod ncx m)%nat with (k mod ncx m + (k / ncx m) * ncx m)%nat by lia.
  assert (k mod ncx m < ncx m)%nat by (apply Nat.mod_upper_bound; assumption).
  assert (k / ncx m < ncy m)%nat by (apply Nat.div_lt_upper_bound; [assumption|lia]).
  rewrite (row_len _ _ _ _ _ _ G HM HR) by assumption. rewrite !Nat.add_1_r.
  apply len_nonneg; [assumption|left; apply mesh_x; assumption|left; apply mesh_y; assumption].
Qed.
(** Traveltimes stay between the extreme slownesses times the distance. *)
Lemma c60_bounds m P Q r sl lo hi : good_mesh m -> 0 < dist2 P Q -> off_grid m P Q -> is_ray_row m P Q r ->
  inside m P -> inside m Q -> length sl = ncells m -> Forall (fun x => lo <= x <= hi) sl ->
  lo * dist2 P Q <= dot r sl <= hi * dist2 P Q.
Proof.
  intros G HM O HR HP HQ HL HS. rewrite <- (c60_total m P Q r) by assumption.
  pose proof (row_nonneg _ _ _ _ G HM HR) as N. rewrite <- (proj1 HR) in HL. clear - N HL HS.
  revert sl HL HS; induction N as [|a r Ha N IH]; intros [|b sl] HL HS; cbn in *; try lia; [lra|].
  pose proof (Forall_inv HS). pose proof (Forall_inv_tail HS). specialize (IH sl (ltac:(lia)) H0). cbn in H. nra.
Qed.
