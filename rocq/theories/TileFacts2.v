(** The mesh itself as a tile, and cases. *)
From Verif Require Import Vec Tile SpecTile TileFacts.
Local Open Scope R_scope.

Lemma holds_range cs s n i : map gl cs = seq s n -> (i < s)%nat -> holds cs i = false.
Proof.
  intros E H. unfold holds. destruct (existsb _ cs) eqn:X; auto. apply existsb_exists in X as (c & Hc & X).
  apply andb_prop in X as [_ X]. apply Nat.eqb_eq in X.
  assert (In (gl c) (seq s n)) as HI by (rewrite <- E; now apply in_map). apply in_seq in HI. lia.
Qed.
Lemma same_mesh_aux cs : forall u s, map gl cs = seq s (length cs) -> Forall (fun c => 0 < gv c) cs -> length u = length cs ->
  map (fun i => inside cs u i / nth (i - s) (map gv cs) 0) (filter (holds cs) (seq s (length cs))) = compress (map ga cs) u.
Proof.
  induction cs as [|c cs IH]; intros [|x u] s E F L; cbn [length] in L; try discriminate; auto.
  cbn [length map seq] in E. injection E as E1 E2. inversion_clear F as [|? ? Hc F'].
  cbn [length seq map compress filter]. pose proof (holds_range cs (S s) (length cs) s E2 ltac:(lia)) as Hs.
  assert (Hd : holds (c :: cs) s = ga c).
  { unfold holds in *. cbn [existsb]. rewrite Hs, E1, Nat.eqb_refl. destruct (ga c); auto. }
  assert (T : map (fun i => inside (c :: cs) (x :: u) i / nth (i - s) (gv c :: map gv cs) 0) (filter (holds (c :: cs)) (seq (S s) (length cs)))
              = compress (map ga cs) u).
  { rewrite <- (IH u (S s) E2 F' ltac:(lia)).
    replace (filter (holds (c :: cs)) (seq (S s) (length cs))) with (filter (holds cs) (seq (S s) (length cs))).
    - apply map_ext_in; intros i Hi. apply filter_In in Hi as [Hi _]. apply in_seq in Hi. cbn [inside].
      replace (Nat.eqb (gl c) i) with false by (symmetry; apply Nat.eqb_neq; lia). rewrite Bool.andb_false_r, Rplus_0_l.
      replace (i - s)%nat with (S (i - S s)) by lia. reflexivity.
    - apply filter_ext_in; intros i Hi. apply in_seq in Hi. unfold holds; cbn [existsb].
      replace (Nat.eqb (gl c) i) with false by (symmetry; apply Nat.eqb_neq; lia). now rewrite Bool.andb_false_r. }
  rewrite Hd. destruct (ga c) eqn:Ga; auto. cbn [map]. rewrite T. f_equal.
  cbn [inside]. rewrite Ga, E1, Nat.eqb_refl, (inside_empty _ _ _ Hs), Nat.sub_diag. cbn [andb nth]. field. lra.
Qed.
Lemma tile_same_mesh cs tol u : map gl cs = seq 0 (length cs) -> Forall (fun c => 0 < gv c) cs -> 0 < tol -> length u = length cs ->
  exists P, tile_map cs (map gv cs) tol 1 = Ok P /\ tile_apply (n_active cs) P (on_active cs u) = Ok (on_active cs u).
Proof.
  intros E F T L.
  assert (M : meshes cs (map gv cs)).
  { split; [|apply Forall_map; auto]. apply Forall_forall; intros c Hc. split; [rewrite Forall_forall in F; auto|].
    rewrite map_length. assert (In (gl c) (seq 0 (length cs))) as HI by (rewrite <- E; now apply in_map). apply in_seq in HI; lia. }
  destruct (tile_one cs (map gv cs) tol u M T L) as (P & HP & HA). exists P; split; auto. rewrite HA. f_equal.
  unfold on_active. rewrite <- (same_mesh_aux cs u 0 E F L). unfold tiles. rewrite map_length.
  apply map_ext; intros i. now rewrite Nat.sub_0_r.
Qed.

(** Two cells in a coarse one, one of them inactive *)
Lemma half_meshes : meshes [mkG 1 0 true; mkG 1 0 false] [2].
Proof. split; repeat constructor; cbn; lra || lia. Qed.
Lemma tile_half : exists P, tile_map [mkG 1 0 true; mkG 1 0 false] [2] 1 1 = Ok P /\ tile_apply 1 P [1] = Ok [1 / 2].
Proof.
  destruct (tile_one [mkG 1 0 true; mkG 1 0 false] [2] 1 [1; 7] half_meshes ltac:(lra) eq_refl) as (P & HP & HA).
  exists P; split; auto. change (n_active _) with 1%nat in HA. change (on_active _ _) with [1] in HA. rewrite HA. f_equal.
  change (tiles _ _) with [0%nat]. cbn. f_equal. field.
Qed.
Lemma tile_constant_refuted : ~ (forall cs lv tol c, meshes cs lv -> 0 < tol -> exists P y, tile_map cs lv tol 1 = Ok P /\
  tile_apply (n_active cs) P (on_active cs (map (fun _ => c) cs)) = Ok y /\ Forall (fun x => x = c) y).
Proof.
  intros H. destruct (H _ _ 1 1 half_meshes ltac:(lra)) as (P & y & HP & Hy & HF).
  destruct tile_half as (P' & HP' & Hy'). rewrite HP' in HP; injection HP as <-.
  change (n_active _) with 1%nat in Hy. change (on_active _ _) with [1] in Hy. rewrite Hy' in Hy; injection Hy as <-.
  inversion_clear HF. lra.
Qed.

(** Four cells, two components: the coarse cell 0 holds the first two, the last cell is inactive. *)
Lemma four_meshes : meshes [mkG 1 0 true; mkG 3 0 true; mkG 2 1 true; mkG 2 2 false] [4; 2; 2].
Proof. split; repeat constructor; cbn; lra || lia. Qed.
Lemma tile_four : exists P, tile_map [mkG 1 0 true; mkG 3 0 true; mkG 2 1 true; mkG 2 2 false] [4; 2; 2] 1 2 = Ok P /\
  tile_apply 6 P [5; 1; 7; 0; 4; 2] = Ok [2; 7; 3; 2].
Proof.
  destruct (tile_average _ _ 1 [[5; 1; 7; 9]; [0; 4; 2; 9]] four_meshes ltac:(lra) ltac:(discriminate) ltac:(repeat constructor)) as (P & HP & HA).
  exists P; split; auto. change (length _ * n_active _)%nat with 6%nat in HA. change (concat (map (on_active _) _)) with [5; 1; 7; 0; 4; 2] in HA.
  rewrite HA. f_equal. change (tiles _ _) with [0%nat; 1%nat]. cbn. repeat f_equal; field.
Qed.
