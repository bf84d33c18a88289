(** Proofs about the index-routing maps. *)
From Coq Require Import ZArith String.
From Verif Require Import Py Vec VecDeriv Frechet MapsM MapsFacts MapsIdx SpecMapsIdx.
Local Open Scope R_scope.

(** ** Sparse matrices from triplets *)
Lemma coo_mat nr nc l : is_mat nr nc (coo nr nc l).
Proof.
  split; [unfold coo; rewrite map_length, seq_length; reflexivity|]. apply Forall_map, Forall_forall. intros. rewrite map_length, seq_length. reflexivity.
Qed.
Lemma dot_map_add {A} (f g : A -> R) l v : dot (map (fun j => f j + g j) l) v = dot (map f l) v + dot (map g l) v.
Proof. revert v; induction l as [|x l IH]; intros [|y v]; cbn; try ring. rewrite IH. ring. Qed.
Lemma dot_map_zero {A} (l : list A) v : dot (map (fun _ => 0) l) v = 0.
Proof. revert v; induction l as [|x l IH]; intros [|y v]; cbn; try ring. rewrite IH. ring. Qed.
Lemma dot_map_single k s n c v : length v = n -> (s <= k < s + n)%nat ->
  dot (map (fun j => if Nat.eqb k j then c else 0) (seq s n)) v = c * nth (k - s) v 0.
Proof.
  revert s v; induction n as [|n IH]; intros s [|y v] L H; cbn in *; try lia. destruct (Nat.eqb_spec k s) as [->|E].
  - rewrite Nat.sub_diag. replace (dot _ v) with 0; [ring|]. symmetry. transitivity (dot (map (fun _ => 0) (seq (S s) n)) v); [|apply dot_map_zero]. f_equal.
    apply map_ext_in. intros j Hj. apply in_seq in Hj. destruct (Nat.eqb_spec s j); [lia|reflexivity].
  - rewrite IH by lia. replace (k - s)%nat with (S (k - S s)) by lia. ring.
Qed.
Definition in_shape (nr nc : nat) (t : nat * nat * R) : Prop := (fst (fst t) < nr)%nat /\ (snd (fst t) < nc)%nat.
Lemma mv_coo nr nc l v : length v = nc -> Forall (in_shape nr nc) l ->
  mv (coo nr nc l) v = map (fun i => vsum (map (fun t => if Nat.eqb (fst (fst t)) i then snd t * nth (snd (fst t)) v 0 else 0) l)) (seq 0 nr).
Proof.
  intros Lv Hl. unfold coo, mv. rewrite map_map. apply map_ext. intros i. induction Hl as [|[[r c] x] l [Hr Hc] Hl IH].
  - unfold entry. cbn. apply dot_map_zero.
  - cbn [map vsum fst snd]. rewrite <- IH. unfold entry at 1. cbn [map vsum fst snd].
    change (fun j => (if Nat.eqb r i && Nat.eqb c j then x else 0) + _) with (fun j => (if Nat.eqb r i && Nat.eqb c j then x else 0) + entry l i j).
    rewrite dot_map_add. f_equal. cbn in Hc. destruct (Nat.eqb r i); cbn [andb]; [|apply dot_map_zero].
    rewrite (dot_map_single c 0 nc x v) by (try assumption; lia). rewrite Nat.sub_0_r. reflexivity.
Qed.
Lemma bil_coo nr nc l u v : length u = nr -> length v = nc -> Forall (in_shape nr nc) l ->
  dot u (mv (coo nr nc l) v) = vsum (map (fun t => snd t * nth (fst (fst t)) u 0 * nth (snd (fst t)) v 0) l).
Proof.
  intros Lu Lv Hl. rewrite mv_coo by assumption. rewrite dot_comm. induction Hl as [|[[r c] x] l [Hr Hc] Hl IH].
  - cbn. apply dot_map_zero.
  - cbn [map vsum fst snd] in *.
    rewrite (dot_map_add (fun i => if Nat.eqb r i then x * nth c v 0 else 0)). rewrite IH. f_equal.
    rewrite (dot_map_single r 0 nr _ u) by (try assumption; lia). rewrite Nat.sub_0_r. ring.
Qed.
Lemma row_sel_shape s n nc cols : (s + length cols <= n)%nat -> Forall (fun c => (c < nc)%nat) cols ->
  Forall (in_shape n nc) (map (fun rc => (fst rc, snd rc, 1)) (combine (seq s (length cols)) cols)).
Proof.
  intros H Hc. apply Forall_map, Forall_forall. intros [r c] Hin. split; cbn.
  - apply in_combine_l, in_seq in Hin. lia.
  - apply in_combine_r in Hin. rewrite Forall_forall in Hc. auto.
Qed.
Lemma mv_row_sel nc cols v : length v = nc -> Forall (fun c => (c < nc)%nat) cols ->
  mv (coo (length cols) nc (row_sel cols)) v = map (fun c => nth c v 0) cols.
Proof.
  intros Lv Hc. apply dot_ext; [rewrite mv_length, map_length; apply coo_mat|]. intros u Lu. rewrite mv_length in Lu.
  assert (Lu' : length u = length cols) by (rewrite Lu; apply coo_mat). clear Lu.
  rewrite dot_comm, bil_coo by (first [assumption|apply row_sel_shape; [lia|assumption]]).
  unfold row_sel. rewrite map_map. cbn [fst snd].
  assert (G : forall s cols (u w : vec), length u = length cols -> (forall i, (i < length cols)%nat -> nth (s + i) w 0 = nth i u 0) ->
    vsum (map (fun x => 1 * nth (fst x) w 0 * nth (snd x) v 0) (combine (seq s (length cols)) cols)) = dot (map (fun c => nth c v 0) cols) u).
  { clear. intros s cols; revert s. induction cols as [|c cols IH]; intros s [|y u] w L H; cbn in *; try lia; [reflexivity|].
    rewrite (IH (S s) u w) by (try lia; intros i Hi; rewrite <- (H (S i)) by lia; f_equal; lia).
    specialize (H O ltac:(lia)). rewrite Nat.add_0_r in H. rewrite H. ring. }
  apply G; auto.
Qed.

(** ** Masks *)
Lemma filter_map_S (p : nat -> bool) l : filter p (map S l) = map S (filter (fun i => p (S i)) l).
Proof. induction l as [|k l IH]; cbn; [reflexivity|]. rewrite IH. destruct (p (S k)); reflexivity. Qed.
Lemma where_cons x b : where_ (x :: b) = (if x then [O] else []) ++ map S (where_ b).
Proof.
  unfold where_. cbn [length seq]. rewrite <- seq_shift. cbn [filter]. rewrite filter_map_S. cbn [nth]. destruct x; reflexivity.
Qed.
Lemma where_count b : length (where_ b) = count b.
Proof. induction b as [|[|] b IH]; [reflexivity| |]; rewrite where_cons; cbn; rewrite map_length, IH; reflexivity. Qed.
Lemma where_lt b : Forall (fun i => (i < length b)%nat) (where_ b).
Proof. apply Forall_forall. intros i Hi. apply filter_In in Hi as [Hi _]. apply in_seq in Hi. lia. Qed.
Lemma pick_where b u : length u = length b -> map (fun i => nth i u 0) (where_ b) = pick b u.
Proof.
  revert u; induction b as [|x b IH]; intros [|y u] L; cbn in L; try lia; [reflexivity|].
  rewrite where_cons, map_app, map_map. cbn [nth]. rewrite IH by lia. destruct x; reflexivity.
Qed.
Lemma pick_length b u : length u = length b -> length (pick b u) = count b.
Proof. intros L. rewrite <- pick_where by assumption. rewrite map_length. apply where_count. Qed.
Lemma merge_length b on off : length (merge b on off) = length b.
Proof. revert on off; induction b as [|[|] b IH]; intros; cbn; [reflexivity| |]; rewrite IH; reflexivity. Qed.
Lemma dot_merge b on u : length u = length b -> length on = count b -> dot u (merge b on (vzero (length b))) = dot (pick b u) on.
Proof.
  intros Lu Lo.
  assert (G : forall z, (forall k, nth k z 0 = 0) -> dot u (merge b on z) = dot (pick b u) on).
  { revert u on Lu Lo. induction b as [|x b IH]; intros [|y u] on Lu Lo z Hz; cbn in Lu; try lia; [reflexivity|]. destruct x; cbn in *.
    - destruct on as [|o on]; cbn in *; [lia|]. rewrite IH; auto; lia.
    - replace (hd 0 z) with 0 by (specialize (Hz O); destruct z; cbn in *; lra). rewrite IH; auto; [ring|].
      intros k. specialize (Hz (S k)). destruct z; cbn in *; [destruct k; reflexivity|assumption]. }
  apply G. intros k. unfold vzero, vconst. destruct (Nat.ltb_spec k (length b)); [apply nth_repeat|]. apply nth_overflow. rewrite repeat_length. assumption.
Qed.
Lemma merge_zero_ext b on z : (forall k, nth k z 0 = 0) -> merge b on z = merge b on (vzero (length b)).
Proof.
  revert on z; induction b as [|x b IH]; intros on z Hz; [reflexivity|].
  assert (Z0 : hd 0 z = 0) by (specialize (Hz O); destruct z; cbn in *; lra).
  assert (Zt : forall k, nth k (tl z) 0 = 0) by (intros k; specialize (Hz (S k)); destruct z; cbn in *; [destruct k; reflexivity|assumption]).
  destruct x; cbn [merge].
  - f_equal. rewrite IH by assumption. symmetry. apply IH. intros k.
    unfold vzero, vconst. cbn [length]. destruct (Nat.ltb_spec k (S (length b))); [apply nth_repeat|]. apply nth_overflow. rewrite repeat_length. lia.
  - cbn. rewrite Z0. f_equal. apply IH. assumption.
Qed.
Lemma inject_shape b : Forall (in_shape (length b) (count b)) (map (fun rc => (snd rc, fst rc, 1)) (combine (seq 0 (length (where_ b))) (where_ b))).
Proof.
  apply Forall_map, Forall_forall. intros [r c] Hin. split; cbn.
  - apply in_combine_r in Hin. pose proof (where_lt b) as H. rewrite Forall_forall in H. auto.
  - apply in_combine_l, in_seq in Hin. rewrite where_count in Hin. lia.
Qed.
Definition good_inject (b : list bool) (s : inject) : Prop := ij_active s = b /\ ij_rows s = where_ b /\ ij_nP0 s = count b.
Lemma bil_inject b s u m : good_inject b s -> length u = length b -> length m = count b -> dot u (mv (inject_P s) m) = dot (pick b u) m.
Proof.
  intros (E1 & E2 & E3) Lu Lm. unfold inject_P. rewrite E1, E2, E3. rewrite bil_coo by (try assumption; apply inject_shape).
  rewrite map_map. cbn [fst snd].
  rewrite <- pick_where by assumption. rewrite <- where_count in Lm. revert m Lm. generalize (where_ b) as l. intros l.
  assert (G : forall s l m w, length m = length l -> (forall i, (i < length l)%nat -> nth (s + i) w 0 = nth i m 0) ->
    vsum (map (fun x => 1 * nth (snd x) u 0 * nth (fst x) w 0) (combine (seq s (length l)) l)) = dot (map (fun c => nth c u 0) l) m).
  { clear. intros s l; revert s. induction l as [|c l IH]; intros s [|y m] w L H; cbn in *; try lia; [reflexivity|].
    rewrite (IH (S s) m w) by (try lia; intros i Hi; rewrite <- (H (S i)) by lia; f_equal; lia).
    specialize (H O ltac:(lia)). rewrite Nat.add_0_r in H. rewrite H. ring. }
  intros m Lm. apply G; auto.
Qed.
Lemma mv_inject b s m : good_inject b s -> length m = count b -> mv (inject_P s) m = merge b m (vzero (length b)).
Proof.
  intros G Lm. assert (LP : length (mv (inject_P s) m) = length b).
  { rewrite mv_length. unfold inject_P. destruct G as (-> & _). apply coo_mat. }
  apply dot_ext; [rewrite merge_length; assumption|]. intros u Lu. rewrite LP in Lu.
  rewrite !(dot_comm _ u). rewrite (bil_inject b) by assumption. symmetry. apply dot_merge; assumption.
Qed.
Lemma put_S x a idx vals : put (x :: a) (map S idx) vals = x :: put a idx vals.
Proof. unfold put. revert a vals; induction idx as [|i idx IH]; intros a [|v vals]; cbn; try reflexivity. apply IH. Qed.
Lemma count_neg b : (count b + count (map negb b) = length b)%nat.
Proof. induction b as [|[|] b IH]; cbn; [reflexivity| |]; rewrite <- IH; lia. Qed.
Lemma put_merge b vals : length vals = count (map negb b) ->
  put (vzero (length b)) (where_ (map negb b)) vals = merge b (vzero (length b)) vals.
Proof.
  intros L.
  assert (G : forall b vals z, length vals = count (map negb b) -> (forall k, nth k z 0 = 0) ->
     put (vzero (length b)) (where_ (map negb b)) vals = merge b z vals).
  { clear. induction b as [|x b IH]; intros vals z L Hz.
    - unfold put. cbn. destruct vals; reflexivity.
    - cbn [map length]. rewrite where_cons. change (vzero (S (length b))) with (0 :: vzero (length b)).
      assert (Z0 : hd 0 z = 0) by (specialize (Hz O); destruct z; cbn in *; lra).
      assert (Zt : forall k, nth k (tl z) 0 = 0) by (intros k; specialize (Hz (S k)); destruct z; cbn in *; [destruct k; reflexivity|assumption]).
      destruct x; cbn [negb app merge].
      + rewrite put_S, Z0. f_equal. apply IH; assumption.
      + cbn in L. destruct vals as [|v vals]; cbn in L; [lia|]. cbn [hd tl].
        transitivity (put (v :: vzero (length b)) (map S (where_ (map negb b))) vals); [reflexivity|].
        rewrite put_S. f_equal. apply IH; [lia|assumption]. }
  apply G; [assumption|]. intros k. unfold vzero, vconst. destruct (Nat.ltb_spec k (length b)); [apply nth_repeat|]. apply nth_overflow. rewrite repeat_length. assumption.
Qed.
Lemma merge_add b on off : length on = count b -> length off = count (map negb b) ->
  vadd (merge b on (vzero (length b))) (merge b (vzero (length b)) off) = merge b on off.
Proof.
  intros L1 L2.
  assert (G : forall b on off z z', length on = count b -> length off = count (map negb b) ->
    (forall k, nth k z 0 = 0) -> (forall k, nth k z' 0 = 0) -> vadd (merge b on z) (merge b z' off) = merge b on off).
  { clear. assert (T : forall z, (forall k, nth k z 0 = 0) -> hd 0 z = 0 /\ forall k, nth k (tl z) 0 = 0).
    { intros z Hz. split; [specialize (Hz O); destruct z; cbn in *; lra|]. intros k; specialize (Hz (S k)); destruct z; cbn in *; [destruct k; reflexivity|assumption]. }
    induction b as [|x b IH]; intros on off z z' L1 L2 Hz Hz'; [reflexivity|].
    destruct (T z Hz) as [A B]. destruct (T z' Hz') as [A' B']. unfold vadd in *. destruct x; cbn in *.
    - rewrite A', Rplus_0_r. f_equal. apply IH; auto. destruct on; cbn in *; lia.
    - rewrite A, Rplus_0_l. f_equal. apply IH; auto. destruct off; cbn in *; lia. }
  assert (Zv : forall k, nth k (vzero (length b)) 0 = 0).
  { intros k. unfold vzero, vconst. destruct (Nat.ltb_spec k (length b)); [apply nth_repeat|]. apply nth_overflow. rewrite repeat_length. assumption. }
  apply G; auto.
Qed.
Lemma inject_init_spec b v s : inject_init b v = Ok s <->
  length (inactive_vals (count (map negb b)) v) = count (map negb b) /\
  s = mkInject b (where_ b) (count b) (merge b (vzero (length b)) (inactive_vals (count (map negb b)) v)).
Proof.
  unfold inject_init, set_inactive. rewrite where_count. pose proof (count_neg b) as C.
  replace (length b - count b)%nat with (count (map negb b)) by lia. fold (inactive_vals (count (map negb b)) v).
  destruct (Nat.eqb_spec (length (inactive_vals (count (map negb b)) v)) (count (map negb b))) as [E|E]; cbn [bind].
  - rewrite put_merge by assumption. split; [intros [= <-]; auto|intros [_ ->]; reflexivity].
  - split; [discriminate|tauto].
Qed.
Lemma inject_value b v s m : inject_init b v = Ok s -> length m = count b ->
  inject_apply s m = Ok (merge b m (inactive_vals (count (map negb b)) v)).
Proof.
  intros H Lm. apply inject_init_spec in H as [L ->]. unfold inject_apply, inject_nP. cbn [ij_active ij_nP0 ij_inactive]. rewrite where_count, Lm, Nat.eqb_refl.
  rewrite (mv_inject b) by (first [assumption|split; [reflexivity|split; reflexivity]]). rewrite merge_add by assumption. reflexivity.
Qed.
Lemma inject_inverse_spec b v s u : inject_init b v = Ok s -> length u = length b -> inject_inverse s u = Ok (pick b u).
Proof.
  intros H Lu. apply inject_init_spec in H as [L ->]. unfold inject_inverse. cbn [ij_active ij_nP0]. rewrite Lu, Nat.eqb_refl. f_equal.
  set (s := mkInject _ _ _ _). assert (G : good_inject b s) by (repeat split).
  assert (HM : is_mat (length b) (count b) (inject_P s)) by apply coo_mat.
  apply dot_ext; [rewrite (mtv_length (length b)) by assumption; rewrite pick_length by assumption; reflexivity|].
  intros w Lw. rewrite (mtv_length (length b)) in Lw by assumption.
  rewrite <- (mv_mtv_adjoint (length b) (count b)) by assumption. apply bil_inject; assumption.
Qed.
Lemma pick_merge b on off : length on = count b -> pick b (merge b on off) = on.
Proof.
  revert on off; induction b as [|[|] b IH]; intros on off L; cbn in *.
  - destruct on; [reflexivity|discriminate].
  - destruct on as [|x on]; cbn in *; [discriminate|]. rewrite IH by lia. reflexivity.
  - apply IH. assumption.
Qed.
Lemma merge_pick b u : length u = length b -> merge b (pick b u) (pick (map negb b) u) = u.
Proof.
  revert u; induction b as [|x b IH]; intros [|y u] L; cbn in *; try lia; [reflexivity|].
  destruct x; cbn; rewrite IH by lia; reflexivity.
Qed.
Lemma pick_merge_off b on off : length off = count (map negb b) -> pick (map negb b) (merge b on off) = off.
Proof.
  revert on off; induction b as [|[|] b IH]; intros on off L; cbn in *.
  - destruct off; [reflexivity|discriminate].
  - apply IH. assumption.
  - destruct off as [|x off]; cbn in *; [discriminate|]. rewrite IH by lia. reflexivity.
Qed.
Lemma inject_round_1 b v s m : inject_init b v = Ok s -> length m = count b ->
  exists y, inject_apply s m = Ok y /\ inject_inverse s y = Ok m.
Proof.
  intros H Lm. eexists. split; [eapply inject_value; eassumption|]. erewrite inject_inverse_spec by (try eassumption; apply merge_length).
  rewrite pick_merge by assumption. reflexivity.
Qed.
Lemma inject_round_2 b v s u : inject_init b v = Ok s -> length u = length b ->
  pick (map negb b) u = inactive_vals (count (map negb b)) v ->
  exists m, inject_inverse s u = Ok m /\ inject_apply s m = Ok u.
Proof.
  intros H Lu E. eexists. split; [eapply inject_inverse_spec; eassumption|].
  erewrite inject_value by (try eassumption; apply pick_length; assumption). rewrite <- E, merge_pick by assumption. reflexivity.
Qed.
Lemma inject_linear b v s : inject_init b v = Ok s -> linear_part (count b) (length b) (inject_apply s) (inject_P s).
Proof.
  intros H. assert (H0 := H). apply inject_init_spec in H as [L ->]. set (s := mkInject _ _ _ _) in *.
  split; [apply coo_mat|]. intros m h Lm Lh. 
  assert (A : forall x, length x = count b -> inject_apply s x = Ok (vadd (mv (inject_P s) x) (ij_inactive s))).
  { intros x Lx. unfold inject_apply, inject_nP. cbn [s ij_active ij_nP0]. rewrite where_count, Lx, Nat.eqb_refl. reflexivity. }
  do 2 eexists. split; [apply A; assumption|]. split; [apply A; rewrite vadd_length; congruence|].
  rewrite mv_vadd by congruence. rewrite <- !vadd_assoc. f_equal. apply vadd_comm.
Qed.
(** Reassigning the active cells: the matrix and the inactive values stay behind. *)
Lemma inject_stale : exists s s', inject_init [true; false] (Scalar 7) = Ok s /\ inject_set_active s [false; true] = Ok s' /\
  inject_nP s' = 1%nat /\ forall x, inject_apply s' [x] = Ok [1 * x + 0 + 0; 0 * x + 0 + 7].
Proof. do 2 eexists. split; [reflexivity|]. split; [reflexivity|]. split; [reflexivity|]. intros x. cbn. repeat (f_equal; try ring). Qed.

(** ** Projection *)
Lemma proj_checked_spec nP l sel p : proj_checked nP l sel = Ok p <->
  l <> [] /\ Forall (fun z => (0 <= z < Z.of_nat nP)%Z) l /\ p = mkProj nP (sel (map Z.to_nat l)) (map Z.to_nat l).
Proof.
  unfold proj_checked. destruct l as [|z0 l0]; [split; [discriminate|tauto]|]. set (l := z0 :: l0).
  destruct (forallb (fun z => Z.ltb z (Z.of_nat nP)) l) eqn:E1.
  - destruct (forallb (fun z => Z.leb 0 z) l) eqn:E2.
    + rewrite forallb_forall in E1, E2. split.
      * intros [= <-]. split; [discriminate|]. split; [|reflexivity]. apply Forall_forall. intros z Hz.
        apply E1 in Hz as H1. apply E2 in Hz as H2. apply Z.ltb_lt in H1. apply Z.leb_le in H2. lia.
      * intros (_ & _ & ->). reflexivity.
    + split; [discriminate|]. intros (_ & H & _). exfalso. rewrite <- not_true_iff_false in E2. apply E2.
      apply forallb_forall. intros z Hz. rewrite Forall_forall in H. apply Z.leb_le. apply H in Hz. lia.
  - split; [discriminate|]. intros (_ & H & _). exfalso. rewrite <- not_true_iff_false in E1. apply E1.
    apply forallb_forall. intros z Hz. rewrite Forall_forall in H. apply Z.ltb_lt. apply H in Hz. lia.
Qed.
Lemma map_to_of l : map Z.to_nat (map Z.of_nat l) = l.
Proof. rewrite map_map. rewrite <- (map_id l) at 2. apply map_ext. intros. apply Nat2Z.id. Qed.
Lemma to_nat_lt nP l : Forall (fun z => (0 <= z < Z.of_nat nP)%Z) l -> Forall (fun c => (c < nP)%nat) (map Z.to_nat l).
Proof. intros H. apply Forall_map. eapply Forall_impl; [|exact H]. cbn. intros. lia. Qed.
Lemma proj_cols_matrix nP cols m : length m = nP -> Forall (fun c => (c < nP)%nat) cols ->
  mv (coo (length cols) nP (row_sel cols)) m = map (fun c => nth c m 0) cols.
Proof. apply mv_row_sel. Qed.
Lemma proj_linear_gen p : pj_sel p = inl (pj_cols p) -> Forall (fun c => (c < pj_np p)%nat) (pj_cols p) ->
  linear_part (pj_np p) (length (pj_cols p)) (proj_apply p) (proj_P p) /\
  forall m, length m = pj_np p -> proj_apply p m = Ok (mv (proj_P p) m).
Proof.
  intros Es Hc.
  assert (A : forall m, length m = pj_np p -> proj_apply p m = Ok (mv (proj_P p) m)).
  { intros m Lm. unfold proj_apply, proj_value, proj_P. rewrite Lm, Nat.eqb_refl, Es. rewrite mv_row_sel by assumption. reflexivity. }
  split; [|exact A]. split; [apply coo_mat|]. intros m h Lm Lh. do 2 eexists. split; [apply A; assumption|].
  split; [apply A; rewrite vadd_length; congruence|]. apply mv_vadd. congruence.
Qed.
Lemma proj_ints nP l : (exists p, proj_init nP (IInts l) = Ok p) <-> l <> [] /\ Forall (fun z => (0 <= z < Z.of_nat nP)%Z) l.
Proof.
  cbn [proj_init]. split.
  - intros [p H]. apply proj_checked_spec in H. tauto.
  - intros [H1 H2]. eexists. apply proj_checked_spec. auto.
Qed.
Lemma proj_ints_value nP l p m : proj_init nP (IInts l) = Ok p -> length m = nP ->
  proj_apply p m = Ok (map (fun z => nth (Z.to_nat z) m 0) l) /\
  linear_part nP (length l) (proj_apply p) (proj_P p).
Proof.
  cbn [proj_init]. intros H Lm. apply proj_checked_spec in H as (_ & Hl & ->).
  destruct (proj_linear_gen (mkProj nP (inl (map Z.to_nat l)) (map Z.to_nat l)) eq_refl (to_nat_lt _ _ Hl)) as [HL HV].
  cbn [pj_np pj_cols] in *. split; [|rewrite map_length in HL; exact HL]. unfold proj_apply, proj_value. cbn [pj_np pj_sel]. rewrite Lm, Nat.eqb_refl, map_map. reflexivity.
Qed.
Lemma proj_mask_value nP b p m : length b = nP -> proj_init nP (IMask b) = Ok p -> length m = nP ->
  proj_apply p m = Ok (pick b m) /\ linear_part nP (count b) (proj_apply p) (proj_P p).
Proof.
  cbn [proj_init]. intros Lb H Lm. apply proj_checked_spec in H as (_ & Hl & ->). rewrite map_to_of in *.
  apply to_nat_lt in Hl. rewrite map_to_of in Hl.
  destruct (proj_linear_gen (mkProj nP (inl (where_ b)) (where_ b)) eq_refl Hl) as [HL HV].
  cbn [pj_np pj_cols] in *. split; [|rewrite where_count in HL; exact HL]. unfold proj_apply, proj_value. cbn [pj_np pj_sel].
  rewrite Lm, Nat.eqb_refl. rewrite pick_where by congruence. reflexivity.
Qed.
(** A list of Python booleans: values picked by mask, matrix by 0/1 columns. *)
Lemma proj_bools : exists p, proj_init 3 (IBools [true; false; true]) = Ok p /\
  forall a b c, proj_apply p [a; b; c] = Ok [a; c] /\ mv (proj_P p) [a; b; c] = [b; a; b].
Proof. eexists. split; [reflexivity|]. intros a b c. split; [reflexivity|]. cbn. change (Pos.to_nat 1) with 1%nat. cbn. f_equal; [ring|f_equal; [ring|f_equal; ring]]. Qed.

(** ** Wires *)
Lemma slice_list_in n s k : (0 <= s)%Z -> (0 <= k)%Z -> (s + k <= Z.of_nat n)%Z -> slice_list n s (s + k) = seq (Z.to_nat s) (Z.to_nat k).
Proof.
  intros Hs Hk Hn. unfold slice_list, clamp. destruct (Z.ltb_spec s 0); [lia|]. destruct (Z.ltb_spec (s + k) 0); [lia|].
  rewrite !Z.min_l by lia. f_equal. lia.
Qed.
Lemma firstn_skipn_seq (m : vec) s n : (s + n <= length m)%nat -> map (fun i => nth i m 0) (seq s n) = firstn n (skipn s m).
Proof.
  revert s; induction n as [|n IH]; intros s H; cbn [seq map firstn]; [reflexivity|].
  rewrite IH by lia. assert (E : skipn s m = nth s m 0 :: skipn (S s) m).
  { clear -H. revert s H; induction m as [|x m IH]; intros [|s] H; cbn in *; try lia; [reflexivity|]. apply IH. lia. }
  rewrite E. reflexivity.
Qed.
Fixpoint pieces (m : vec) (args : list (string * Z)) : list (string * vec) :=
  match args with [] => [] | (s, n) :: args' => (s, firstn (Z.to_nat n) m) :: pieces (skipn (Z.to_nat n) m) args' end.
Lemma zsum_nonneg l : Forall (fun z => (0 < z)%Z) l -> (0 <= zsum l)%Z.
Proof. intros H. induction H; cbn; [lia|]. fold (zsum l). lia. Qed.
Lemma wires_go_ok nP args : Forall (fun a => (0 < snd a)%Z) args -> forall start, (0 <= start)%Z -> (start + zsum (map snd args) <= Z.of_nat nP)%Z ->
  exists ws, wires_go nP start args = Ok ws /\ forall m, length m = nP -> wires_apply ws m = Ok (pieces (skipn (Z.to_nat start) m) args).
Proof.
  induction 1 as [|[s n] args Hn H IH]; intros start Hs Hsum; [exists []; split; reflexivity|].
  cbn in Hn. cbn [map snd zsum fold_right] in Hsum. fold (zsum (map snd args)) in Hsum.
  assert (P : (0 <= zsum (map snd args))%Z) by (apply zsum_nonneg, Forall_map; assumption).
  destruct (IH (start + n)%Z) as (ws & E & HW); [lia|lia|]. cbn [wires_go].
  set (p := mkProj nP (inl (seq (Z.to_nat start) (Z.to_nat n))) (seq (Z.to_nat start) (Z.to_nat n))).
  assert (Ep : proj_init nP (ISlice start (start + n)) = Ok p).
  { cbn [proj_init]. rewrite slice_list_in by lia. apply proj_checked_spec. rewrite map_to_of. split; [|split; [|reflexivity]].
    - destruct (Z.to_nat n) eqn:En; [lia|]. discriminate.
    - apply Forall_map, Forall_forall. intros i Hi. apply in_seq in Hi. lia. }
  rewrite Ep. cbn [bind]. rewrite E. cbn [bind]. eexists. split; [reflexivity|]. intros m Lm. cbn [wires_apply mapM].
  assert (Ea : proj_apply p m = Ok (firstn (Z.to_nat n) (skipn (Z.to_nat start) m))).
  { unfold proj_apply, proj_value. cbn [p pj_np pj_sel]. rewrite Lm, Nat.eqb_refl. rewrite firstn_skipn_seq by lia. reflexivity. }
  cbn [snd fst]. rewrite Ea. cbn [bind]. specialize (HW m Lm). unfold wires_apply in HW. rewrite HW. cbn [bind pieces].
  do 3 f_equal. rewrite skipn_skipn. f_equal. lia.
Qed.
Lemma nodupb_ok l : nodupb l = true <-> NoDup l.
Proof.
  induction l as [|x l IH]; cbn; [split; constructor|]. rewrite andb_true_iff, negb_true_iff, IH, NoDup_cons_iff.
  rewrite <- not_true_iff_false, existsb_exists. split; intros [H1 H2]; (split; [|assumption]).
  - intros Hin. apply H1. exists x. split; [assumption|apply String.eqb_refl].
  - intros (y & Hy & E). apply String.eqb_eq in E as ->. contradiction.
Qed.
Lemma pieces_spec args m : Forall (fun a => (0 < snd a)%Z) args -> Z.of_nat (length m) = zsum (map snd args) ->
  concat (map snd (pieces m args)) = m /\ map fst (pieces m args) = map fst args /\
  map (fun p => Z.of_nat (length (snd p))) (pieces m args) = map snd args.
Proof.
  intros H. revert m. induction H as [|[s n] args Hn H IH]; intros m Lm; cbn in *.
  - destruct m; [auto|cbn in Lm; lia].
  - fold (zsum (map snd args)) in Lm. assert (P : (0 <= zsum (map snd args))%Z) by (apply zsum_nonneg, Forall_map; assumption).
    destruct (IH (skipn (Z.to_nat n) m)) as (A & B & C); [rewrite skipn_length; lia|].
    rewrite A, B, C, firstn_skipn. split; [reflexivity|]. split; [reflexivity|]. f_equal. rewrite firstn_length. lia.
Qed.
Lemma wires_ok args m : good_wires args -> Z.of_nat (length m) = zsum (map snd args) ->
  exists ws ps, wires_init args = Ok ws /\ wires_apply ws m = Ok ps /\ concat (map snd ps) = m /\
    map fst ps = map fst args /\ map (fun p => Z.of_nat (length (snd p))) ps = map snd args.
Proof.
  intros [Hp Hn] Lm. destruct (wires_go_ok (length m) args Hp 0%Z) as (ws & E & HW); [lia|lia|].
  exists ws, (pieces m args). unfold wires_init. rewrite <- Lm, Nat2Z.id, E. cbn [bind].
  apply nodupb_ok in Hn as ->. split; [reflexivity|]. split; [apply HW; reflexivity|]. apply pieces_spec; assumption.
Qed.
Lemma wires_duplicate args : Forall (fun a => (0 < snd a)%Z) args -> ~ NoDup (map fst args) -> wires_init args = Err ValueError.
Proof.
  intros Hp Hn. unfold wires_init. 
  assert (P : (0 <= zsum (map snd args))%Z) by (apply zsum_nonneg, Forall_map; assumption).
  destruct (wires_go_ok (Z.to_nat (zsum (map snd args))) args Hp 0%Z) as (ws & -> & _); [lia|lia|]. cbn [bind].
  destruct (nodupb (map fst args)) eqn:E; [apply nodupb_ok in E; contradiction|reflexivity].
Qed.
Lemma wires_zero_length s args : wires_init ((s, 0%Z) :: args) = Err ValueError.
Proof.
  unfold wires_init. cbn [wires_go proj_init]. replace (slice_list _ 0 (0 + 0)) with (@nil nat); [reflexivity|].
  unfold slice_list, clamp. cbn. rewrite Z.min_l by lia. reflexivity.
Qed.
(** A negative length is accepted. *)
Lemma wires_negative : exists ws, wires_init [("a"%string, (-1)%Z); ("b"%string, 3%Z)] = Ok ws /\
  forall x y, wires_apply ws [x; y] = Ok [("a"%string, [x]); ("b"%string, [y])].
Proof. eexists. split; [reflexivity|]. reflexivity. Qed.

(** ** Surjections *)
Lemma sfull_ok nC : linear_part 1 nC (sfull_apply nC) (sfull_P nC) /\ forall x, exists y, sfull_apply nC [x] = Ok y /\ y = repeat x nC.
Proof.
  split.
  - split; [split; [unfold sfull_P; rewrite map_length, seq_length; reflexivity|apply Forall_map, Forall_forall; reflexivity]|].
    intros [|m [|]] [|h [|]] L1 L2; try discriminate. cbn. do 2 eexists. split; [reflexivity|]. split; [reflexivity|].
    unfold sfull_P, mv, vconst. rewrite map_map. generalize 0%nat. induction nC as [|n IH]; intros k; cbn; [reflexivity|].
    unfold vadd in *. cbn. f_equal; [ring|apply IH].
  - intros x. eexists. split; [reflexivity|]. unfold vconst. induction nC; cbn; [reflexivity|]. f_equal; [ring|assumption].
Qed.
Lemma repeat_nth_layers (rep : nat) (m : list R) c k d : (c < rep)%nat -> (k < length m)%nat ->
  nth (c + rep * k) (flat_map (fun x => repeat x rep) m) d = nth k m d.
Proof.
  intros Hc. revert k; induction m as [|x m IH]; intros k Hk; cbn in *; [lia|]. destruct k as [|k].
  - rewrite app_nth1 by (rewrite repeat_length; lia). rewrite Nat.mul_0_r, Nat.add_0_r.
    rewrite nth_indep with (d' := x) by (rewrite repeat_length; assumption). apply nth_repeat.
  - rewrite app_nth2 by (rewrite repeat_length; lia). rewrite repeat_length. replace (c + rep * S k - rep)%nat with (c + rep * k)%nat by lia.
    apply IH. lia.
Qed.
Lemma flat_repeat_length {A} (m : list A) rep : length (flat_map (fun x => repeat x rep) m) = (rep * length m)%nat.
Proof. induction m; cbn; [lia|]. rewrite app_length, repeat_length, IHm. lia. Qed.
Lemma mv_kron A rep v : mv (kron_col A rep) v = flat_map (fun x => repeat x rep) (mv A v).
Proof.
  unfold kron_col, mv. induction A as [|r A IH]; cbn; [reflexivity|]. rewrite map_app, IH. f_equal.
  clear IH. induction rep; cbn; [reflexivity|]. f_equal. assumption.
Qed.
Lemma svert_ok nz rep m : length m = nz -> exists y, svert_apply nz rep m = Ok y /\ length y = (rep * nz)%nat /\
  forall c k, (c < rep)%nat -> (k < nz)%nat -> nth (c + rep * k) y 0 = nth k m 0.
Proof.
  intros Lm. unfold svert_apply. rewrite Lm, Nat.eqb_refl. eexists. split; [reflexivity|]. split; [rewrite flat_repeat_length; congruence|].
  intros c k Hc Hk. apply repeat_nth_layers; [assumption|congruence].
Qed.
Lemma svert_linear nz rep : linear_part nz (rep * nz) (svert_apply nz rep) (svert_P nz rep).
Proof.
  split.
  - split; [unfold svert_P, kron_col; rewrite flat_repeat_length; f_equal; apply eye_mat|]. apply Forall_forall. intros r Hr.
    apply in_flat_map in Hr as (r' & Hr' & Hin). apply repeat_spec in Hin as ->. pose proof (eye_mat nz) as [_ HE].
    rewrite Forall_forall in HE. auto.
  - intros m h Lm Lh. unfold svert_apply. rewrite vadd_length by congruence. rewrite Lm, Nat.eqb_refl.
    do 2 eexists. split; [reflexivity|]. split; [reflexivity|]. unfold svert_P. rewrite mv_kron, mv_eye by assumption.
    assert (L : length m = length h) by congruence. clear Lm Lh. revert h L; induction m as [|x m IH]; intros [|y h] L; cbn in *; try lia; [reflexivity|].
    rewrite IH by lia. clear. generalize (flat_map (fun x => repeat x rep) m), (flat_map (fun x => repeat x rep) h). intros a b.
    induction rep; cbn; [reflexivity|]. unfold vadd in *. f_equal. assumption.
Qed.
Lemma nth_flat_blocks {A} (g : nat -> list A) s n w i k d : (forall j, length (g j) = w) -> (k < n)%nat -> (i < w)%nat ->
  nth (i + w * k) (flat_map g (seq s n)) d = nth i (g (s + k)%nat) d.
Proof.
  intros Hg. revert s k; induction n as [|n IH]; intros s k Hk Hi; [lia|]. cbn. destruct k as [|k].
  - rewrite app_nth1 by (rewrite Hg; lia). f_equal; [lia|]. f_equal. lia.
  - rewrite app_nth2 by (rewrite Hg; lia). rewrite Hg. replace (i + w * S k - w)%nat with (i + w * k)%nat by lia.
    rewrite IH by lia. f_equal. f_equal. lia.
Qed.
Lemma flat_blocks_length {A} (g : nat -> list A) l w : (forall j, length (g j) = w) -> length (flat_map g l) = (w * length l)%nat.
Proof. intros Hg. induction l; cbn; [lia|]. rewrite app_length, Hg, IHl. lia. Qed.
Lemma nth_fravel {A} nx ny nz (f : nat -> nat -> nat -> A) i j k d : (i < nx)%nat -> (j < ny)%nat -> (k < nz)%nat ->
  nth (i + nx * (j + ny * k)) (fravel nx ny nz f) d = f i j k.
Proof.
  intros Hi Hj Hk. unfold fravel. replace (i + nx * (j + ny * k))%nat with ((i + nx * j) + (nx * ny) * k)%nat by lia.
  rewrite nth_flat_blocks with (w := (nx * ny)%nat); [|intros; rewrite flat_blocks_length with (w := nx); [rewrite seq_length; reflexivity|intros; rewrite map_length, seq_length; reflexivity]|assumption|].
  - rewrite nth_flat_blocks with (w := nx); [|intros; rewrite map_length, seq_length; reflexivity|assumption|assumption]. cbn.
    rewrite nth_indep with (d' := f O (0 + j)%nat (0 + k)%nat) by (rewrite map_length, seq_length; assumption).
    rewrite (map_nth (fun i => f i j k) (seq 0 nx) O). rewrite seq_nth by assumption. reflexivity.
  - assert (nx * (j + 1) <= nx * ny)%nat by (apply Nat.mul_le_mono_l; lia). lia.
Qed.
Lemma fravel_length {A} nx ny nz (f : nat -> nat -> nat -> A) : length (fravel nx ny nz f) = (nx * ny * nz)%nat.
Proof.
  unfold fravel. rewrite flat_blocks_length with (w := (nx * ny)%nat); [rewrite seq_length; reflexivity|].
  intros. rewrite flat_blocks_length with (w := nx); [rewrite seq_length; reflexivity|]. intros; rewrite map_length, seq_length; reflexivity.
Qed.
(** Which entry of the 2-D model each cell (i, j, k) receives. *)
Definition src (nx ny : nat) (n : normal) (i j k : nat) : nat :=
  match n with NZ => i + nx * j | NY => i + nx * k | NX => j + ny * k end%nat.
Lemma s23_fravel {A} (d : A) nx ny nz n m : s23 d nx ny nz n m = fravel nx ny nz (fun i j k => nth (src nx ny n i j k) m d).
Proof. destruct n; reflexivity. Qed.
Lemma src_lt nx ny nz n i j k : (i < nx)%nat -> (j < ny)%nat -> (k < nz)%nat -> (src nx ny n i j k < s23_nP nx ny nz n)%nat.
Proof.
  intros Hi Hj Hk. destruct n; cbn.
  - assert (ny * (k + 1) <= ny * nz)%nat by (apply Nat.mul_le_mono_l; lia). lia.
  - assert (nx * (k + 1) <= nx * nz)%nat by (apply Nat.mul_le_mono_l; lia). lia.
  - assert (nx * (j + 1) <= nx * ny)%nat by (apply Nat.mul_le_mono_l; lia). lia.
Qed.
Lemma s23_ok nx ny nz n m : length m = s23_nP nx ny nz n -> exists y, s23_apply nx ny nz n m = Ok y /\ length y = (nx * ny * nz)%nat /\
  forall i j k, (i < nx)%nat -> (j < ny)%nat -> (k < nz)%nat -> nth (i + nx * (j + ny * k)) y 0 = nth (src nx ny n i j k) m 0.
Proof.
  intros Lm. unfold s23_apply. rewrite Lm, Nat.eqb_refl. eexists. split; [reflexivity|]. rewrite s23_fravel.
  split; [apply fravel_length|]. intros. apply (nth_fravel nx ny nz (fun i j k => nth (src nx ny n i j k) m 0)); assumption.
Qed.
Lemma fravel_map {A B} nx ny nz (g : A -> B) f f' : (forall i j k, (i < nx)%nat -> (j < ny)%nat -> (k < nz)%nat -> g (f i j k) = f' i j k) ->
  map g (fravel nx ny nz f) = fravel nx ny nz f'.
Proof.
  intros H. unfold fravel. rewrite flat_map_concat_map, concat_map, map_map, flat_map_concat_map. f_equal. apply map_ext_in. intros k Hk.
  rewrite flat_map_concat_map, concat_map, map_map, flat_map_concat_map. f_equal. apply map_ext_in. intros j Hj.
  rewrite map_map. apply map_ext_in. intros i Hi. apply in_seq in Hi, Hj, Hk. apply H; lia.
Qed.
Lemma s23_matrix nx ny nz n m : length m = s23_nP nx ny nz n -> s23_apply nx ny nz n m = Ok (mv (s23_P nx ny nz n) m).
Proof.
  intros Lm. unfold s23_apply, s23_P. rewrite Lm, Nat.eqb_refl. f_equal. set (cols := s23 O nx ny nz n _).
  assert (Lc : length cols = (nx * ny * nz)%nat) by (unfold cols; rewrite s23_fravel; apply fravel_length).
  rewrite <- Lc. 
  assert (Ec : cols = fravel nx ny nz (fun i j k => src nx ny n i j k)).
  { unfold cols. rewrite s23_fravel. rewrite <- (map_id (fravel nx ny nz (fun i j k => nth _ _ _))). apply fravel_map. intros i j k Hi Hj Hk.
    rewrite seq_nth by (apply src_lt; assumption). reflexivity. }
  rewrite mv_row_sel; [|assumption|].
  - rewrite Ec, s23_fravel. symmetry. apply fravel_map. reflexivity.
  - rewrite Ec. apply Forall_forall. intros c Hin. unfold fravel in Hin. apply in_flat_map in Hin as (k & Hk & Hin).
    apply in_flat_map in Hin as (j & Hj & Hin). apply in_map_iff in Hin as (i & <- & Hi). apply in_seq in Hi, Hj, Hk. apply src_lt; lia.
Qed.
Lemma s23_linear nx ny nz n : linear_part (s23_nP nx ny nz n) (nx * ny * nz) (s23_apply nx ny nz n) (s23_P nx ny nz n).
Proof.
  split; [apply coo_mat|]. intros m h Lm Lh. do 2 eexists. split; [apply s23_matrix; assumption|].
  split; [apply s23_matrix; rewrite vadd_length; congruence|]. apply mv_vadd. congruence.
Qed.
(** SurjectUnits *)
Lemma vsum_where ind i c : (i < length ind)%nat -> vsum (map (fun r => if Nat.eqb r i then c else 0) (where_ ind)) = if nth i ind false then c else 0.
Proof.
  intros Hi. unfold where_.
  assert (G : forall s n, vsum (map (fun r => if Nat.eqb r i then c else 0) (filter (fun i => nth i ind false) (seq s n)))
     = if (Nat.leb s i && Nat.ltb i (s + n))%bool then (if nth i ind false then c else 0) else 0).
  { intros s n; revert s; induction n as [|n IH]; intros s; cbn [seq filter map vsum].
    - destruct (Nat.leb_spec s i), (Nat.ltb_spec i (s + 0)); cbn; try reflexivity. lia.
    - destruct (Nat.eq_dec s i) as [->|E].
      + replace (Nat.leb i i && Nat.ltb i (i + S n))%bool with true by (symmetry; rewrite Nat.leb_refl; cbn; apply Nat.ltb_lt; lia).
        assert (E0 : forall l, Forall (fun r => i < r)%nat l -> vsum (map (fun r => if Nat.eqb r i then c else 0) l) = 0).
        { clear. induction 1; cbn; [reflexivity|]. rewrite IHForall. destruct (Nat.eqb_spec x i); [lia|ring]. }
        assert (F : Forall (fun r => i < r)%nat (filter (fun i => nth i ind false) (seq (S i) n))).
        { apply Forall_forall. intros r Hr. apply filter_In in Hr as [Hr _]. apply in_seq in Hr. lia. }
        destruct (nth i ind false); cbn [map vsum]; rewrite E0 by assumption; rewrite ?Nat.eqb_refl; ring.
      + assert (R : vsum (map (fun r => if Nat.eqb r i then c else 0) (if nth s ind false then s :: filter (fun i => nth i ind false) (seq (S s) n) else filter (fun i => nth i ind false) (seq (S s) n)))
          = vsum (map (fun r => if Nat.eqb r i then c else 0) (filter (fun i => nth i ind false) (seq (S s) n)))).
        { destruct (nth s ind false); [|reflexivity]. cbn. destruct (Nat.eqb_spec s i); [contradiction|ring]. }
        rewrite R, IH. destruct (Nat.leb_spec s i), (Nat.leb_spec (S s) i), (Nat.ltb_spec i (s + S n)), (Nat.ltb_spec i (S s + n)); cbn; try reflexivity; lia. }
  rewrite G. replace (Nat.leb 0 i && Nat.ltb i (0 + length ind))%bool with true; [reflexivity|]. symmetry. cbn. apply Nat.ltb_lt. assumption.
Qed.
Lemma units_shape nr units ii nc : Forall (fun ind => length ind = nr) units -> (ii + length units <= nc)%nat ->
  Forall (in_shape nr nc) (unit_triplets ii units).
Proof.
  intros H. revert ii; induction H as [|ind us L H IH]; intros ii Hn; cbn in *; [constructor|]. apply Forall_app. split; [|apply IH; lia].
  apply Forall_map, Forall_forall. intros r Hr. pose proof (where_lt ind) as F. rewrite Forall_forall in F. apply F in Hr. split; cbn; lia.
Qed.
Lemma sunits_ok units m nr : units <> [] -> Forall (fun ind => length ind = nr) units -> length m = length units ->
  exists y, sunits_apply units m = Ok y /\ length y = nr /\
  forall i, (i < nr)%nat -> nth i y 0 = vsum (map (fun um => if nth i (fst um) false then snd um else 0) (combine units m)).
Proof.
  intros Hne HL Lm. unfold sunits_apply. rewrite <- Lm, Nat.eqb_refl. eexists. split; [reflexivity|].
  assert (Hh : length (hd [] units) = nr) by (destruct HL; [congruence|cbn; assumption]).
  unfold sunits_P. rewrite Hh, <- Lm.
  rewrite mv_coo by (first [reflexivity|apply units_shape; [assumption|lia]]). rewrite map_length, seq_length. split; [reflexivity|].
  intros i Hi. rewrite nth_indep with (d' := (fun i => vsum (map (fun t => if Nat.eqb (fst (fst t)) i then snd t * nth (snd (fst t)) m 0 else 0) (unit_triplets 0 units))) O)
    by (rewrite map_length, seq_length; assumption).
  rewrite (map_nth (fun i => vsum (map (fun t => if Nat.eqb (fst (fst t)) i then snd t * nth (snd (fst t)) m 0 else 0) (unit_triplets 0 units)))).
  rewrite seq_nth by assumption. cbn [Nat.add].
  assert (G : forall us ii (w : vec), Forall (fun ind => length ind = nr) us -> length w = length us -> (forall k, (k < length us)%nat -> nth (ii + k) m 0 = nth k w 0) ->
    vsum (map (fun t => if Nat.eqb (fst (fst t)) i then snd t * nth (snd (fst t)) m 0 else 0) (unit_triplets ii us))
    = vsum (map (fun um => if nth i (fst um) false then snd um else 0) (combine us w))).
  { clear -Hi. assert (VA : forall a b, vsum (a ++ b) = vsum a + vsum b) by (induction a; intros; cbn; [ring|]; rewrite IHa; ring).
    induction us as [|ind us IH]; intros ii [|x w] HF Lw HW; cbn in Lw; try lia; [reflexivity|].
    inversion HF; subst. cbn [unit_triplets combine map vsum fst snd]. rewrite map_app, VA, map_map. cbn [fst snd]. f_equal.
    - rewrite vsum_where by assumption. specialize (HW O ltac:(cbn; lia)). cbn in HW. rewrite Nat.add_0_r in HW. rewrite HW. destruct (nth i ind false); ring.
    - apply IH; [assumption|lia|]. intros k Hk. specialize (HW (S k) ltac:(cbn; lia)). cbn [nth] in HW. rewrite <- HW. f_equal. lia. }
  apply G; auto.
Qed.
Lemma sunits_linear units nr : units <> [] -> Forall (fun ind => length ind = nr) units ->
  linear_part (length units) nr (sunits_apply units) (sunits_P units).
Proof.
  intros Hne HL. assert (Hh : length (hd [] units) = nr) by (destruct HL; [congruence|cbn; assumption]).
  split; [unfold sunits_P; rewrite Hh; apply coo_mat|]. intros m h Lm Lh. unfold sunits_apply.
  rewrite vadd_length by congruence. rewrite Lm, Nat.eqb_refl. do 2 eexists. split; [reflexivity|]. split; [reflexivity|].
  apply mv_vadd. congruence.
Qed.
Lemma s23_cells nx ny nz n m : length m = s23_nP nx ny nz n ->
  exists y, s23_apply nx ny nz n m = Ok y /\ length y = (nx * ny * nz)%nat /\
  forall i j k, (i < nx)%nat -> (j < ny)%nat -> (k < nz)%nat ->
    nth (i + nx * (j + ny * k)) y 0 =
    match n with NZ => nth (i + nx * j) m 0 | NY => nth (i + nx * k) m 0 | NX => nth (j + ny * k) m 0 end.
Proof.
  intros L. destruct (s23_ok nx ny nz n m L) as (y & E & Ly & H). exists y. split; [assumption|]. split; [assumption|].
  intros i j k Hi Hj Hk. rewrite H by assumption. destruct n; reflexivity.
Qed.
