(** Proofs about the model builders. *)
From Coq Require Import Sorted.
From Verif Require Import Py Vec SensW SensWFacts SpecSensW ModelBuilder SpecModelBuilder.
Local Open Scope R_scope.

Lemma rleb_iff a b : rleb a b = true <-> a <= b.
Proof. unfold rleb. destruct (Rle_dec a b); split; try discriminate; auto; contradiction. Qed.
Lemma rltb_iff a b : rltb a b = true <-> a < b.
Proof. unfold rltb. destruct (Rlt_dec a b); split; try discriminate; auto; contradiction. Qed.
Lemma inside_between a b x : inside1 (Rmin a b) (Rmax a b) x = true <-> between a b x.
Proof.
  unfold inside1, between. rewrite andb_true_iff, !rleb_iff.
  destruct (Rle_dec a b); [rewrite Rmin_left, Rmax_right by lra|rewrite Rmin_right, Rmax_left by lra]; lra.
Qed.
Lemma in_where b i : In i (where_true b) <-> (i < length b)%nat /\ nth i b false = true.
Proof.
  unfold where_true. rewrite filter_In, in_seq. intuition lia.
Qed.
Lemma nth_mapseq {B} (g : nat -> B) n i d : (i < n)%nat -> nth i (map g (seq 0 n)) d = g i.
Proof.
  intros H. rewrite (nth_indep _ d (g O)) by (rewrite map_length, seq_length; assumption).
  rewrite (map_nth g), seq_nth by assumption. reflexivity.
Qed.
Lemma assign_spec model ind v : (forall i, In i ind -> (i < length model)%nat) ->
  exists m, assign model ind v = Ok m /\ length m = length model /\
    forall i, (i < length model)%nat -> (In i ind -> nth i m 0 = v) /\ (~ In i ind -> nth i m 0 = nth i model 0).
Proof.
  intros H. unfold assign.
  assert (forallb (fun i => Nat.ltb i (length model)) ind = true) as ->.
  { apply forallb_forall. intros i Hi. apply Nat.ltb_lt. auto. }
  eexists. split; [reflexivity|]. split; [rewrite map_length, seq_length; reflexivity|].
  intros i Hi. rewrite (nth_mapseq (fun i => if existsb (Nat.eqb i) ind then v else nth i model 0)) by assumption. cbn beta.
  destruct (existsb (Nat.eqb i) ind) eqn:E.
  - split; [reflexivity|]. intros N. exfalso. apply N. apply existsb_exists in E as (j & Hj & Ej). apply Nat.eqb_eq in Ej. congruence.
  - split; [|reflexivity]. intros Hin. exfalso.
    assert (existsb (Nat.eqb i) ind = true) by (apply existsb_exists; exists i; split; [assumption|apply Nat.eqb_refl]). congruence.
Qed.
Lemma nth_mapl {A B} (f : A -> B) l i d d' : (i < length l)%nat -> nth i (map f l) d' = f (nth i l d).
Proof. intros H. rewrite (nth_indep _ d' (f d)) by (rewrite map_length; assumption). apply map_nth. Qed.

Lemma len1 (l : vec) : length l = 1%nat -> exists a, l = [a].
Proof. destruct l as [|a [|]]; cbn; intros; try lia. eauto. Qed.
Lemma len2 (l : vec) : length l = 2%nat -> exists a b, l = [a; b].
Proof. destruct l as [|a [|b [|]]]; cbn; intros; try lia. eauto. Qed.
Lemma len3 (l : vec) : length l = 3%nat -> exists a b c, l = [a; b; c].
Proof. destruct l as [|a [|b [|c [|]]]]; cbn; intros; try lia. eauto. Qed.

Lemma mod_self_mul n d : (0 < d)%nat -> Nat.eqb ((n * d) mod d) 0 = true.
Proof. intros H. rewrite Nat.mod_mul by lia. reflexivity. Qed.
Lemma block_indices dim c p q : mesh_cells dim c -> length p = dim -> length q = dim ->
  exists ind, get_indices_block p q c = Ok ind /\
    forall i, In i ind <-> (i < n_cells c)%nat /\ in_block p q (centre c i).
Proof.
  intros Hc Lp Lq. destruct c as [x|d rows]; cbn [mesh_cells] in Hc.
  - subst dim. destruct (len1 p Lp) as (a & ->). destruct (len1 q Lq) as (b & ->).
    eexists. split; [cbn [get_indices_block length Nat.eqb negb size]; rewrite Nat.mod_1_r; reflexivity|].
    intros i. rewrite in_where, map_length. cbn [n_cells centre zipw nth]. split; intros [Hi H]; (split; [assumption|]).
    + rewrite (nth_mapl _ _ _ 0) in H by assumption. apply inside_between in H. intros [|k] Hk; [exact H|cbn in Hk; lia].
    + rewrite (nth_mapl _ _ _ 0) by assumption. apply inside_between. exact (H 0%nat ltac:(cbn; lia)).
  - destruct Hc as (-> & [->| ->] & HF).
    + destruct (len2 p Lp) as (a & b & ->). destruct (len2 q Lq) as (a' & b' & ->).
      eexists. split; [cbn [get_indices_block length Nat.eqb negb size]; rewrite mod_self_mul by lia; cbn [negb Nat.ltb Nat.leb]; reflexivity|].
      intros i. rewrite in_where, map_length. cbn [n_cells centre zipw nth]. split; intros [Hi H]; (split; [assumption|]).
      * rewrite (nth_mapl _ _ _ []) in H by assumption. apply andb_true_iff in H as [H0 H1]. apply inside_between in H0, H1.
        intros [|[|k]] Hk; [exact H0|exact H1|cbn in Hk; lia].
      * rewrite (nth_mapl _ _ _ []) by assumption. apply andb_true_iff. split; apply inside_between; [exact (H 0%nat ltac:(cbn; lia))|exact (H 1%nat ltac:(cbn; lia))].
    + destruct (len3 p Lp) as (a & b & e & ->). destruct (len3 q Lq) as (a' & b' & e' & ->).
      eexists. split; [cbn [get_indices_block length Nat.eqb negb size]; rewrite mod_self_mul by lia; cbn [negb Nat.ltb Nat.leb]; reflexivity|].
      intros i. rewrite in_where, map_length. cbn [n_cells centre zipw nth]. split; intros [Hi H]; (split; [assumption|]).
      * rewrite (nth_mapl _ _ _ []) in H by assumption. apply andb_true_iff in H as [H H2]. apply andb_true_iff in H as [H0 H1]. apply inside_between in H0, H1, H2.
        intros [|[|[|k]]] Hk; [exact H0|exact H1|exact H2|cbn in Hk; lia].
      * rewrite (nth_mapl _ _ _ []) by assumption. rewrite !andb_true_iff. repeat split; apply inside_between;
          [exact (H 0%nat ltac:(cbn; lia))|exact (H 1%nat ltac:(cbn; lia))|exact (H 2%nat ltac:(cbn; lia))].
Qed.
Lemma c39_block dim c p q model v : mesh_cells dim c -> length p = dim -> length q = dim -> length model = n_cells c ->
  exists m, add_block c model p q v = Ok m /\ length m = n_cells c /\
    forall i, (i < n_cells c)%nat -> (in_block p q (centre c i) -> nth i m 0 = v) /\ (~ in_block p q (centre c i) -> nth i m 0 = nth i model 0).
Proof.
  intros Hc Lp Lq Lm. destruct (block_indices dim c p q Hc Lp Lq) as (ind & E & HI).
  destruct (assign_spec model ind v) as (m & Em & Ll & H).
  { intros i Hi. apply HI in Hi as [Hi _]. lia. }
  exists m. split; [unfold add_block; rewrite E; exact Em|]. split; [lia|].
  intros i Hi. destruct (H i ltac:(lia)) as [H1 H2]. split; intros K; [apply H1, HI; auto|apply H2]. intros N. apply HI in N as [_ N]. contradiction.
Qed.
Lemma c39_create_block dim c p q b v : mesh_cells dim c -> length p = dim -> length q = dim ->
  exists m, create_block c p q b v = Ok m /\ length m = n_cells c /\
    forall i, (i < n_cells c)%nat -> (in_block p q (centre c i) -> nth i m 0 = v) /\ (~ in_block p q (centre c i) -> nth i m 0 = b).
Proof.
  intros Hc Lp Lq. destruct (c39_block dim c p q (vconst (n_cells c) b) v Hc Lp Lq (vconst_length _ _)) as (m & E & L & H).
  exists m. split; [exact E|]. split; [assumption|]. intros i Hi. destruct (H i Hi) as [H1 H2]. split; [assumption|].
  intros K. rewrite (H2 K). unfold vconst. apply nth_repeat_lt || idtac. rewrite (nth_indep _ 0 b) by (rewrite repeat_length; assumption). apply nth_repeat.
Qed.
Lemma zipw_same (f : R -> R -> R) p q p' q' : (forall x y, f x y = f y x) -> length p = length q -> same_block p q p' q' -> zipw f p' q' = zipw f p q.
Proof.
  intros Hf L (L1 & L2 & H). apply vec_ext; [rewrite !zipw_length; congruence|].
  intros i Hi. rewrite zipw_length in Hi by congruence. rewrite !zipw_nth by congruence.
  destruct (H i) as [[-> ->]|[-> ->]]; [reflexivity|apply Hf].
Qed.
Lemma c39_corners c p q p' q' : length p = length q -> same_block p q p' q' -> get_indices_block p' q' c = get_indices_block p q c.
Proof.
  intros L S. pose proof S as (L1 & L2 & _). unfold get_indices_block. rewrite L2, L1.
  rewrite (zipw_same Rmin p q p' q' Rmin_comm L S), (zipw_same Rmax p q p' q' Rmax_comm L S). reflexivity.
Qed.
Lemma c39_dimension_refuted : ~ forall d rows p q, Forall (fun r : vec => length r = d) rows -> length p = length q -> length p <> d ->
  exists e, get_indices_block p q (C2 d rows) = Err e.
Proof.
  intros H. destruct (H 3%nat [[0; 0; 0]; [0; 0; 5]] [0; 0] [1; 1]) as [e He]; [repeat constructor|reflexivity|cbn; lia|].
  cbn in He. discriminate.
Qed.

(** Sphere *)
Lemma dist1 a b : distance [a] [b] = Rabs (a - b).
Proof. unfold distance. cbn. rewrite <- sqrt_Rsqr_abs. f_equal. unfold Rsqr. ring. Qed.
Lemma c39_sphere dim rows center radius : grid dim rows -> rows <> [] -> length center = dim ->
  exists b, get_indices_sphere center radius (C2 dim rows) = Ok b /\ length b = length rows /\
    forall i, (i < length rows)%nat -> (nth i b false = true <-> distance center (nth i rows []) < radius).
Proof.
  intros [Hd HF] Hne Lc. destruct rows as [|r0 rows0]; [contradiction|]. set (rows := r0 :: rows0) in *.
  unfold get_indices_sphere. fold rows. subst dim. rewrite Nat.eqb_refl. cbn [negb].
  assert (HL : forall i, (i < length rows)%nat -> length (nth i rows []) = length center).
  { intros i Hi. rewrite Forall_forall in HF. apply HF, nth_In. assumption. }
  destruct (length center) as [|[|[|[|]]]] eqn:EL; try lia; (eexists; split; [reflexivity|]; split; [apply map_length|]); intros i Hi; rewrite (nth_mapl _ _ _ []) by assumption; rewrite rltb_iff; specialize (HL i Hi).
  - destruct (len1 _ EL) as (a & ->). destruct (len1 _ HL) as (x & ->). cbn [nth]. rewrite dist1. reflexivity.
  - destruct (len2 _ EL) as (a & b & ->). destruct (len2 _ HL) as (x & y & ->). unfold distance. cbn [nth vsub zipw dot].
    replace ((a - x) * (a - x) + ((b - y) * (b - y) + 0)) with ((a - x) ^ 2 + (b - y) ^ 2) by ring. reflexivity.
  - destruct (len3 _ EL) as (a & b & e & ->). destruct (len3 _ HL) as (x & y & z & ->). unfold distance. cbn [nth vsub zipw dot].
    replace ((a - x) * (a - x) + ((b - y) * (b - y) + ((e - z) * (e - z) + 0))) with ((a - x) ^ 2 + (b - y) ^ 2 + (e - z) ^ 2) by ring. reflexivity.
Qed.

(** Two layers *)
Lemma c39_two_layers dim rows depth top bottom first : (dim = 2 \/ dim = 3)%nat -> Forall (fun r => length r = dim) (first :: rows) ->
  let lst := last (first :: rows) [] in
  (forall r k, In r (first :: rows) -> (S k < dim)%nat -> nth k first 0 <= nth k r 0 <= nth k lst 0) ->
  (forall r, In r (first :: rows) -> height dim first <= height dim r <= height dim lst) ->
  exists m, create_2_layer_model (C2 dim (first :: rows)) depth top bottom = Ok m /\ length m = S (length rows) /\
    (0 <= depth <= height dim lst - height dim first ->
     forall i, (i < S (length rows))%nat ->
       (height dim (nth i (first :: rows) []) <= height dim lst - depth -> nth i m 0 = top) /\
       (height dim lst - depth < height dim (nth i (first :: rows) []) -> nth i m 0 = bottom)).
Proof.
  intros Hd HF lst Hh Hz. set (all := first :: rows) in *.
  assert (Hlast : In lst all).
  { unfold lst, all. assert (G : forall (l : list vec) a, In (last (a :: l) []) (a :: l)).
    { induction l as [|b l IH]; intros a; [left; reflexivity|]. right. apply (IH b). } apply G. }
  assert (Lf : length first = dim) by (rewrite Forall_forall in HF; apply HF; left; reflexivity).
  assert (Ll : length lst = dim) by (rewrite Forall_forall in HF; apply HF; assumption).
  assert (Ec : forall r, length r = dim -> corner dim r = r).
  { intros r Lr. unfold corner. rewrite firstn_all2 by lia. replace (dim - 3)%nat with O by lia. apply app_nil_r. }
  assert (Lm : length (last_minus depth lst) = dim).
  { destruct Hd as [E|E]; rewrite E in Ll.
    - destruct (len2 _ Ll) as (a & b & ->). cbn. lia.
    - destruct (len3 _ Ll) as (a & b & e & ->). cbn. lia. }
  assert (Hc : mesh_cells dim (C2 dim all)) by (split; [reflexivity|]; split; assumption).
  destruct (block_indices dim (C2 dim all) first (last_minus depth lst) Hc Lf Lm) as (ind & E & HI).
  destruct (assign_spec (vconst (length all) bottom) ind top) as (m & Em & Lmm & H).
  { intros i Hi. apply HI in Hi as [Hi _]. rewrite vconst_length. exact Hi. }
  exists m. split; [|split].
  - unfold create_2_layer_model. fold all. assert (Nat.eqb dim 0 = false) as -> by (apply Nat.eqb_neq; lia).
    change (last (first :: rows) []) with lst. unfold all at 1. cbn iota. fold all. rewrite !Ec by assumption. fold lst. rewrite E. exact Em.
  - rewrite Lmm, vconst_length. reflexivity.
  - intros Hdep i Hi.
    assert (Hin : In (nth i all []) all) by (apply nth_In; exact Hi).
    assert (Lr : length (nth i all []) = dim) by (rewrite Forall_forall in HF; apply HF; exact Hin).
    pose proof (Hz _ Hin) as Hzr. pose proof (fun k => Hh _ k Hin) as Hhr.
    destruct (H i) as [H1 H2]; [rewrite vconst_length; exact Hi|].
    assert (K : In i ind <-> height dim (nth i all []) <= height dim lst - depth).
    { rewrite HI. cbn [n_cells centre]. clear H1 H2 H HI.
      set (r := nth i all []) in *. clearbody r lst. unfold height in *.
      destruct Hd as [->| ->].
      - destruct (len2 _ Lf) as (a & b & ->). destruct (len2 _ Ll) as (a' & b' & ->). destruct (len2 _ Lr) as (x & y & ->).
        specialize (Hhr 0%nat ltac:(lia)). cbn in *. split.
        + intros [_ HB]. specialize (HB 1%nat ltac:(cbn; lia)). cbn in HB. destruct HB; lra.
        + intros Hy. split; [exact Hi|]. intros [|[|k]] Hk; cbn in Hk; [| |lia]; cbn; left; lra.
      - destruct (len3 _ Lf) as (a & b & e & ->). destruct (len3 _ Ll) as (a' & b' & e' & ->). destruct (len3 _ Lr) as (x & y & z & ->).
        pose proof (Hhr 0%nat ltac:(lia)) as Hx. specialize (Hhr 1%nat ltac:(lia)). cbn in *. split.
        + intros [_ HB]. specialize (HB 2%nat ltac:(cbn; lia)). cbn in HB. destruct HB; lra.
        + intros Hy. split; [exact Hi|]. intros [|[|[|k]]] Hk; cbn in Hk; [| | |lia]; cbn; left; lra. }
    split; intros Hy.
    + apply H1, K, Hy.
    + rewrite H2; [|intros N; apply K in N; lra]. unfold vconst. rewrite (nth_indep _ 0 bottom) by (rewrite repeat_length; exact Hi). apply nth_repeat.
Qed.
Lemma c39_two_layers_refuted : ~ forall dim rows depth top bottom m i j, mesh_cells dim (C2 dim rows) ->
  create_2_layer_model (C2 dim rows) depth top bottom = Ok m -> 0 < depth ->
  (i < length rows)%nat -> (j < length rows)%nat ->
  nth i m 0 = top -> nth j m 0 = bottom -> height dim (nth j rows []) <= height dim (nth i rows []).
Proof.
  intros H.
  destruct (c39_two_layers 2 [[0; 2]] 1 10 20 [0; 0]) as (m & E & L & Hm).
  - left; reflexivity.
  - repeat constructor.
  - intros r k [<-|[<-|[]]] Hk; (destruct k; [cbn; lra|lia]).
  - intros r [<-|[<-|[]]]; unfold height; cbn; lra.
  - specialize (Hm ltac:(unfold height; cbn; lra)).
    destruct (Hm 0%nat ltac:(cbn; lia)) as [A _]. destruct (Hm 1%nat ltac:(cbn; lia)) as [_ B].
    specialize (H 2%nat [[0; 0]; [0; 2]] 1 10 20 m 0%nat 1%nat). unfold height in *. cbn in *.
    assert (2 <= 0); [|lra]. apply H.
    + split; [reflexivity|]. split; [left; reflexivity|repeat constructor].
    + exact E.
    + lra.
    + lia.
    + lia.
    + apply A. lra.
    + apply B. lra.
Qed.
Lemma c39_two_layers_1d rows depth top bottom m : create_2_layer_model (C2 1 rows) depth top bottom <> Ok m.
Proof.
  destruct rows as [|r rows]; cbn [create_2_layer_model]; [discriminate|]. cbn [Nat.eqb]. intros H.
  destruct (get_indices_block (corner 1 r) (last_minus depth (corner 1 (last (r :: rows) []))) (C2 1 (r :: rows))) as [ind|e] eqn:E; [|discriminate].
  unfold get_indices_block in E.
  destruct (negb (Nat.eqb (length (corner 1 r)) _)); [discriminate|]. destruct (Nat.eqb (length (corner 1 r)) 0); [discriminate|].
  destruct (negb _) in E; [discriminate|]. destruct (length (corner 1 r)) as [|[|[|[|]]]]; try discriminate.
Qed.

(** Layers *)
Lemma layer_loop_spec z : forall tops vals model, length tops = length vals -> length model = length z ->
  exists m, layer_loop z tops vals model = Ok m /\ length m = length z /\
    forall i, (i < length z)%nat ->
      (forall k, (k < length tops)%nat -> nth i z 0 <= nth k tops 0 -> (forall j, (k < j < length tops)%nat -> nth j tops 0 < nth i z 0) -> nth i m 0 = nth k vals 0) /\
      ((forall k, (k < length tops)%nat -> nth k tops 0 < nth i z 0) -> nth i m 0 = nth i model 0).
Proof.
  induction tops as [|t tops IH]; intros [|v vals] model L Lm; cbn in L; try lia.
  - exists model. split; [reflexivity|]. split; [assumption|]. intros i Hi. split; [intros k Hk; cbn in Hk; lia|reflexivity].
  - cbn [layer_loop]. set (model' := zipw _ z model).
    assert (Lm' : length model' = length z) by (unfold model'; apply zipw_length; congruence).
    destruct (IH vals model' ltac:(lia) Lm') as (m & E & Ll & H). exists m. split; [assumption|]. split; [assumption|].
    intros i Hi. destruct (H i Hi) as [H1 H2].
    assert (En : nth i model' 0 = if Rle_dec (nth i z 0) t then v else nth i model 0).
    { unfold model'. rewrite zipw_nth by congruence. reflexivity. }
    split.
    + intros [|k] Hk Hz Hj; cbn [nth] in *.
      * rewrite H2; [rewrite En; destruct (Rle_dec (nth i z 0) t); [reflexivity|contradiction]|].
        intros k Hk'. apply (Hj (S k)). cbn. lia.
      * apply H1; [cbn in Hk; lia|assumption|]. intros j Hjj. apply (Hj (S j)). cbn. lia.
    + intros Ha. rewrite H2; [rewrite En|intros k Hk; apply (Ha (S k)); cbn; lia].
      specialize (Ha 0%nat ltac:(cbn; lia)). cbn in Ha. destruct (Rle_dec (nth i z 0) t); [lra|reflexivity].
Qed.
Lemma insert_last x l : Forall (fun y => y < x) l -> insert x l = l ++ [x].
Proof.
  induction 1 as [|y l Hy Hl IH]; [reflexivity|]. cbn [insert app]. destruct (Rle_dec x y); [lra|]. rewrite IH. reflexivity.
Qed.
Lemma rsort_desc l : top_down l -> rsort l = rev l.
Proof.
  induction 1 as [|x l HS IH HF]; [reflexivity|]. cbn [rsort rev]. rewrite IH. apply insert_last.
  apply Forall_rev. eapply Forall_impl; [|exact HF]. intros y Hy. unfold Rgt in Hy. exact Hy.
Qed.
Lemma rsort_asc l : bottom_up l -> rsort l = l.
Proof.
  induction 1 as [|x l HS IH HF]; [reflexivity|]. cbn [rsort]. rewrite IH. destruct l as [|y l]; [reflexivity|].
  cbn [insert]. inversion HF; subst. destruct (Rle_dec x y); [reflexivity|lra].
Qed.
Lemma rsort_asc_le l : StronglySorted Rle l -> rsort l = l.
Proof.
  induction 1 as [|x l HS IH HF]; [reflexivity|]. cbn [rsort]. rewrite IH. destruct l as [|y l]; [reflexivity|].
  cbn [insert]. inversion HF; subst. destruct (Rle_dec x y); [reflexivity|lra].
Qed.
Lemma norm2_self v : norm2 (vsub v v) = 0.
Proof.
  unfold norm2. replace (vsum (map (fun x => x * x) (vsub v v))) with 0; [apply sqrt_0|].
  induction v as [|x v IH]; [reflexivity|]. cbn in *. rewrite <- IH. ring.
Qed.
Lemma descending_ok tops : top_down tops -> descending tops = true.
Proof. intros H. unfold descending. rewrite rsort_desc, rev_involutive, norm2_self by assumption. apply rltb_iff. lra. Qed.
Lemma top_down_nth tops : top_down tops -> forall i j, (i < j < length tops)%nat -> nth j tops 0 < nth i tops 0.
Proof.
  induction 1 as [|x l HS IH HF]; intros i j H; [cbn in H; lia|].
  cbn [length] in H. destruct i as [|i], j as [|j]; cbn [nth]; try lia.
  - rewrite Forall_forall in HF. assert (Hj : (j < length l)%nat) by lia. specialize (HF (nth j l 0) (nth_In l 0 Hj)). unfold Rgt in HF. exact HF.
  - apply IH. lia.
Qed.
Lemma heights_ok dim rows : grid dim rows -> heights (C2 dim rows) = Ok (map (height dim) rows).
Proof. intros [Hd _]. unfold heights, height. destruct dim as [|[|[|[|]]]]; try lia; reflexivity. Qed.
Lemma layers_of tops vals dim rows : grid dim rows -> top_down tops -> length tops = length vals ->
  exists m, layer_loop (map (height dim) rows) tops vals (vzero (length rows)) = Ok m /\ length m = length rows /\
    forall i, (i < length rows)%nat ->
      (forall k, in_layer tops k (height dim (nth i rows [])) -> nth i m 0 = nth k vals 0) /\
      (above_all tops (height dim (nth i rows [])) -> nth i m 0 = 0).
Proof.
  intros HG HT HL.
  destruct (layer_loop_spec (map (height dim) rows) tops vals (vzero (length rows)) HL) as (m & Em & Lm & H).
  { rewrite vzero_length, map_length. reflexivity. }
  exists m. split; [exact Em|]. rewrite map_length in *. split; [exact Lm|].
  intros i Hi. destruct (H i Hi) as [H1 H2]. rewrite (nth_mapl (height dim) rows i []) in H1, H2 by assumption. split.
  - intros k (Hk & Hz & Hn). apply H1; [assumption|assumption|]. intros j Hj.
    destruct (Nat.eq_dec j (S k)) as [->|]; [apply Hn; lia|].
    apply Rlt_trans with (nth (S k) tops 0); [apply top_down_nth; [assumption|lia]|apply Hn; lia].
  - intros HA. rewrite H2; [|exact HA]. unfold vzero, vconst. rewrite nth_repeat. reflexivity.
Qed.
Lemma c39_layers dim rows tops vals : grid dim rows -> top_down tops -> length tops = length vals ->
  exists m, create_layers_model (C2 dim rows) tops vals = Ok m /\ length m = length rows /\
    forall i, (i < length rows)%nat ->
      (forall k, in_layer tops k (height dim (nth i rows [])) -> nth i m 0 = nth k vals 0) /\
      (above_all tops (height dim (nth i rows [])) -> nth i m 0 = 0).
Proof.
  intros HG HT HL. destruct (layers_of tops vals dim rows HG HT HL) as (m & E & K). exists m. split; [|exact K].
  unfold create_layers_model. rewrite descending_ok by assumption. cbn [bind]. rewrite heights_ok by assumption. cbn [bind fst snd]. rewrite map_length. exact E.
Qed.
Lemma vsum_sq_nonneg (w : vec) : 0 <= vsum (map (fun x => x * x) w).
Proof. induction w; cbn; [lra|nra]. Qed.
Lemma vsum_sq_ge v i : (i < length v)%nat -> nth i v 0 * nth i v 0 <= vsum (map (fun x => x * x) v).
Proof.
  revert i; induction v as [|x v IH]; intros i Hi; [cbn in Hi; lia|].
  assert (P : forall w : vec, 0 <= vsum (map (fun x => x * x) w)) by (induction w; cbn; [lra|nra]).
  destruct i as [|i]; cbn; [specialize (P v); lra|]. specialize (IH i ltac:(cbn in Hi; lia)). nra.
Qed.
Lemma norm2_ge v i : (i < length v)%nat -> Rabs (nth i v 0) <= norm2 v.
Proof.
  intros Hi. unfold norm2. rewrite <- sqrt_Rsqr_abs. apply sqrt_le_1_alt. apply vsum_sq_ge. assumption.
Qed.
Lemma not_descending tops : bottom_up tops -> (0 < length tops)%nat -> 1e-20 <= last tops 0 - nth 0 tops 0 -> descending tops = false.
Proof.
  intros HB HL HG. unfold descending. rewrite rsort_asc by assumption.
  destruct (rltb (norm2 (vsub (rev tops) tops)) 1e-20) eqn:E; [|reflexivity]. apply rltb_iff in E.
  assert (L : length (rev tops) = length tops) by apply rev_length.
  pose proof (norm2_ge (vsub (rev tops) tops) 0) as H. unfold vsub in *. rewrite zipw_length in H by congruence. rewrite L in H. specialize (H HL).
  rewrite zipw_nth in H by (rewrite ?L; try assumption; congruence).
  assert (EL : nth 0 (rev tops) 0 = last tops 0).
  { destruct (exists_last (l := tops)) as (l' & x & ->); [destruct tops; cbn in HL; [lia|discriminate]|].
    rewrite rev_app_distr, last_last. reflexivity. }
  rewrite EL in H. rewrite Rabs_pos_eq in H by lra. lra.
Qed.
Lemma top_down_rev tops : bottom_up tops -> top_down (rev tops).
Proof.
  induction 1 as [|x l HS IH HF]; [constructor|]. cbn [rev].
  assert (G : forall a, top_down a -> Forall (fun y => x < y) a -> top_down (a ++ [x])).
  { induction 1 as [|y a HSa IHa HFa]; intros HX; cbn [app]; [repeat constructor|]. inversion HX; subst.
    constructor; [apply IHa; assumption|]. apply Forall_app. split; [assumption|]. repeat constructor. unfold Rgt. assumption. }
  apply G; [assumption|]. apply Forall_rev. assumption.
Qed.
Lemma c39_layers_up dim rows tops vals : grid dim rows -> bottom_up tops -> (0 < length tops)%nat -> 1e-20 <= last tops 0 - nth 0 tops 0 ->
  StronglySorted Rle vals -> length tops = length vals ->
  exists m, create_layers_model (C2 dim rows) tops vals = Ok m /\ length m = length rows /\
    forall i, (i < length rows)%nat ->
      (forall k, in_layer (rev tops) k (height dim (nth i rows [])) -> nth i m 0 = nth k (rev vals) 0) /\
      (above_all tops (height dim (nth i rows [])) -> nth i m 0 = 0).
Proof.
  intros HG HB HN HE HV HL.
  destruct (layers_of (rev tops) (rev vals) dim rows HG (top_down_rev _ HB)) as (m & E & Lm & K); [rewrite !rev_length; assumption|].
  exists m. split; [|split; [assumption|]].
  - unfold create_layers_model. rewrite not_descending by assumption. rewrite HL, Nat.eqb_refl. cbn [bind].
    rewrite heights_ok by assumption. cbn [bind fst snd]. rewrite rsort_asc, rsort_asc_le, map_length by assumption. exact E.
  - intros i Hi. destruct (K i Hi) as [K1 K2]. split; [assumption|]. intros HA. apply K2. intros k Hk. rewrite rev_length in Hk.
    rewrite rev_nth by assumption. apply HA. lia.
Qed.
Lemma c39_layers_refuted : ~ forall dim rows tops vals m i k, grid dim rows -> bottom_up tops -> length tops = length vals ->
  create_layers_model (C2 dim rows) tops vals = Ok m -> (i < length rows)%nat ->
  in_layer (rev tops) k (height dim (nth i rows [])) -> nth i m 0 = nth k (rev vals) 0.
Proof.
  intros H. set (rows := [[/ 2]] : list vec). set (tops := [0; 1]). set (vals := [2; 1]).
  assert (HG : grid 1 rows) by (split; [lia|repeat constructor]).
  assert (HB : bottom_up tops) by (repeat constructor; lra).
  assert (ED : descending tops = false) by (apply not_descending; [assumption|cbn; lia|change (last tops 0 - nth 0 tops 0) with (1 - 0); lra]).
  destruct (layers_of [1; 0] [2; 1] 1 rows HG) as (m & E & Lm & K); [repeat constructor; unfold Rgt; lra|reflexivity|].
  assert (EM : create_layers_model (C2 1 rows) tops vals = Ok m).
  { unfold create_layers_model. rewrite ED. cbn [length Nat.eqb tops vals bind]. rewrite heights_ok by assumption. cbn [bind fst snd].
    rewrite rsort_asc by assumption. assert (rsort vals = [1; 2]) as ->.
    { unfold vals. cbn [rsort insert]. destruct (Rle_dec 2 1); [lra|]. reflexivity. }
    cbn [rev app tops]. rewrite map_length. exact E. }
  assert (I : in_layer (rev tops) 0 (height 1 (nth 0 rows []))).
  { split; [cbn; lia|]. unfold height. cbn. split; [lra|intros; lra]. }
  specialize (H 1%nat rows tops vals m 0%nat 0%nat HG HB eq_refl EM ltac:(cbn; lia) I).
  destruct (K 0%nat ltac:(cbn; lia)) as [K1 _]. specialize (K1 0%nat I). rewrite K1 in H. cbn in H. lra.
Qed.

(** Ellipse *)
Lemma ellipse_range slope D : 0 < ellipse_value slope D < 1.
Proof.
  unfold ellipse_value. pose proof (atan_bound ((D - 1) * slope)) as H. pose proof PI_RGT_0 as P. set (a := atan _) in *.
  assert (E : - a * (2 / PI) / 2 = - (a / PI)) by (field; lra). rewrite E.
  assert (B : - (1 / 2) < a / PI < 1 / 2).
  { split; apply (Rmult_lt_reg_r PI); try assumption; unfold Rdiv; rewrite (Rmult_assoc a), Rinv_l by lra; lra. }
  lra.
Qed.
Lemma ellipse_half slope D : 0 < slope -> (1 / 2 < ellipse_value slope D <-> D < 1).
Proof.
  intros Hs. unfold ellipse_value. pose proof PI_RGT_0 as P.
  assert (E : forall a, - a * (2 / PI) / 2 = - (a / PI)) by (intros; field; lra). rewrite E.
  split; intros H.
  - destruct (Rlt_dec D 1); [assumption|exfalso].
    assert (0 <= atan ((D - 1) * slope)).
    { destruct (Req_dec D 1) as [->|]; [replace ((1 - 1) * slope) with 0 by ring; rewrite atan_0; lra|].
      left. rewrite <- atan_0. apply atan_increasing. apply Rmult_lt_0_compat; lra. }
    assert (0 <= atan ((D - 1) * slope) / PI) by (apply Rmult_le_pos; [assumption|left; apply Rinv_0_lt_compat; assumption]). lra.
  - assert (atan ((D - 1) * slope) < 0) by (rewrite <- atan_0; apply atan_increasing; nra).
    assert (0 < / PI) by (apply Rinv_0_lt_compat; assumption). unfold Rdiv. nra.
Qed.
Lemma sqrt_lt_1_iff x : 0 <= x -> (sqrt x < 1 <-> x < 1).
Proof.
  intros Hx. split; intros H.
  - rewrite <- sqrt_1 in H. apply sqrt_lt_0_alt in H. exact H.
  - rewrite <- sqrt_1. apply sqrt_lt_1_alt. lra.
Qed.
Lemma c39_ellipse2 cx cy cz a b c slope theta x y : 0 < slope -> a <> 0 -> b <> 0 ->
  let v := nth 0 (create_ellipse 2 [cx; cy; cz] [a; b; c] slope theta [[x; y]]) 0 in
  0 < v < 1 /\ (1 / 2 < v <-> in_ellipse2 cx cy a b theta x y).
Proof.
  intros Hs Ha Hb v. unfold v, create_ellipse. cbn [map nth]. split; [apply ellipse_range|].
  rewrite ellipse_half by assumption. unfold norm2, ellipse_coords, in_ellipse2.
  replace (- theta * PI / 180) with (- (theta * PI / 180)) by field. set (t := theta * PI / 180).
  rewrite sqrt_lt_1_iff by apply vsum_sq_nonneg.
  cbn [rotation firstn map mv dot vsub zipw vsum]. rewrite cos_neg, sin_neg.
  match goal with |- ?A < 1 <-> ?B < 1 => replace A with B; [reflexivity|] end. field. split; assumption.
Qed.
Lemma c39_ellipse3 cx cy cz a b c slope theta x y z : 0 < slope -> a <> 0 -> b <> 0 -> c <> 0 ->
  let v := nth 0 (create_ellipse 3 [cx; cy; cz] [a; b; c] slope theta [[x; y; z]]) 0 in
  0 < v < 1 /\ (1 / 2 < v <-> in_ellipse3 cx cy cz a b c theta x y z).
Proof.
  intros Hs Ha Hb Hc v. unfold v, create_ellipse. cbn [map nth]. split; [apply ellipse_range|].
  rewrite ellipse_half by assumption. unfold norm2, ellipse_coords, in_ellipse3.
  replace (- theta * PI / 180) with (- (theta * PI / 180)) by field. set (t := theta * PI / 180).
  rewrite sqrt_lt_1_iff by apply vsum_sq_nonneg.
  cbn [rotation firstn map mv dot vsub zipw vsum]. rewrite cos_neg, sin_neg.
  match goal with |- ?A < 1 <-> ?B < 1 => replace A with B; [reflexivity|] end. field. repeat split; assumption.
Qed.
(** Rescaling *)
Lemma c39_rescale mi b0 b1 : mi <> [] -> b0 < b1 ->
  (rescale mi b0 b1 = None <-> forall x y, In x mi -> In y mi -> x = y) /\
  forall m, rescale mi b0 b1 = Some m -> length m = length mi /\ least m b0 /\ greatest m b1.
Proof.
  intros Hne Hb. pose proof (vmax_greatest mi Hne) as [HM1 HM2]. pose proof (vmin_least mi Hne) as [Hm1 Hm2].
  unfold rescale. destruct (Req_EM_T (vmax mi - vmin mi) 0) as [E|N].
  - split; [|discriminate]. split; [|reflexivity]. intros _ x y Hx Hy.
    pose proof (HM2 x Hx). pose proof (HM2 y Hy). pose proof (Hm2 x Hx). pose proof (Hm2 y Hy). lra.
  - split; [split; [discriminate|]; intros H; exfalso; apply N; rewrite (H (vmax mi) (vmin mi)) by assumption; ring|].
    intros m [= <-]. split; [apply map_length|].
    assert (P : 0 < vmax mi - vmin mi) by (pose proof (Hm2 _ HM1); lra).
    split; split.
    + apply in_map_iff. exists (vmin mi). split; [field; lra|assumption].
    + intros y Hy. apply in_map_iff in Hy as (x & <- & Hx). pose proof (Hm2 x Hx).
      assert (0 <= (x - vmin mi) / (vmax mi - vmin mi)) by (apply Rmult_le_pos; [lra|left; apply Rinv_0_lt_compat; assumption]). nra.
    + apply in_map_iff. exists (vmax mi). split; [field; lra|assumption].
    + intros y Hy. apply in_map_iff in Hy as (x & <- & Hx). pose proof (HM2 x Hx).
      assert ((x - vmin mi) / (vmax mi - vmin mi) <= 1) by (apply (Rmult_le_reg_r (vmax mi - vmin mi)); [assumption|]; unfold Rdiv; rewrite Rmult_assoc, Rinv_l by lra; lra). nra.
Qed.
Lemma c39_ellipse_cells d center anisotropy slope theta rows i : (i < length rows)%nat ->
  nth i (create_ellipse d center anisotropy slope theta rows) 0 = nth 0 (create_ellipse d center anisotropy slope theta [nth i rows []]) 0.
Proof. intros H. unfold create_ellipse. rewrite (nth_mapl _ _ _ []) by assumption. reflexivity. Qed.
Lemma c39_ellipse_all2 cx cy cz a b c slope theta rows : 0 < slope -> a <> 0 -> b <> 0 -> Forall (fun r => length r = 2%nat) rows ->
  let m := create_ellipse 2 [cx; cy; cz] [a; b; c] slope theta rows in
  length m = length rows /\ forall i, (i < length rows)%nat ->
    0 < nth i m 0 < 1 /\ (1 / 2 < nth i m 0 <-> in_ellipse2 cx cy a b theta (nth 0 (nth i rows []) 0) (nth 1 (nth i rows []) 0)).
Proof.
  intros Hs Ha Hb HF m. split; [apply map_length|]. intros i Hi. unfold m. rewrite c39_ellipse_cells by assumption.
  rewrite Forall_forall in HF. destruct (len2 _ (HF _ (nth_In rows [] Hi))) as (x & y & ->). apply c39_ellipse2; assumption.
Qed.
Lemma c39_ellipse_all3 cx cy cz a b c slope theta rows : 0 < slope -> a <> 0 -> b <> 0 -> c <> 0 -> Forall (fun r => length r = 3%nat) rows ->
  let m := create_ellipse 3 [cx; cy; cz] [a; b; c] slope theta rows in
  length m = length rows /\ forall i, (i < length rows)%nat ->
    0 < nth i m 0 < 1 /\ (1 / 2 < nth i m 0 <-> in_ellipse3 cx cy cz a b c theta (nth 0 (nth i rows []) 0) (nth 1 (nth i rows []) 0) (nth 2 (nth i rows []) 0)).
Proof.
  intros Hs Ha Hb Hc HF m. split; [apply map_length|]. intros i Hi. unfold m. rewrite c39_ellipse_cells by assumption.
  rewrite Forall_forall in HF. destruct (len3 _ (HF _ (nth_In rows [] Hi))) as (x & y & z & ->). apply c39_ellipse3; assumption.
Qed.
