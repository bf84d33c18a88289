(** Proofs about meta simulations. *)
From Coq Require Import Lra.
From Verif Require Import Py Vec Meta SpecMeta.
Local Open Scope R_scope.

Lemma veqb_eq a b : veqb a b = true <-> a = b.
Proof.
  revert b; induction a as [|x a IH]; intros [|y b]; cbn; try (split; congruence). destruct (Req_EM_T x y) as [->|N]; [rewrite IH; split; congruence|]. split; [discriminate|congruence].
Qed.
Section P.
Context {F : Type}.
Implicit Types (sims : list (@msim F)) (maps : list mmap) (s : @msim F).

Definition synced maps (st : mst) : Prop :=
  match m_model st with None => True | Some m => m_inner st = map (fun p => Some (p_f p m)) maps end.
Lemma set_synced maps st m : synced maps st -> synced maps (set_model maps st m) /\ m_model (set_model maps st m) = Some m /\
  m_inner (set_model maps st m) = map (fun p => Some (p_f p m)) maps.
Proof.
  unfold synced, set_model. destruct (m_model st) as [old|] eqn:E; [|cbn; auto]. destruct (veqb old m) eqn:V; [|cbn; auto].
  apply veqb_eq in V as ->. rewrite E. auto.
Qed.
Lemma step_synced n sims maps st o : synced maps st -> match o with MTouch _ _ => False | _ => True end -> synced maps (meta_step n sims maps st o).
Proof.
  intros H T. destruct o as [m|m|m f|m v f|m w f|m W f|i x]; cbn [meta_step]; try contradiction; try (apply set_synced, H).
  - destruct f, m; cbn; try exact H. apply set_synced, H.
  - unfold meta_jtjdiag. pose proof (set_synced maps st m H) as (S1 & S2 & S3). destruct (m_jtj (set_model maps st m)); [exact S1|].
    destruct (bind _ _); [|exact S1]. unfold synced. cbn. rewrite S2. exact S3.
Qed.
Lemma sum_step_synced n nD sims maps st o : synced maps st -> match o with MTouch _ _ => False | _ => True end -> synced maps (sum_step n nD sims maps st o).
Proof.
  intros H T. destruct o as [m|m|m f|m v f|m w f|m W f|i x]; cbn [sum_step]; try contradiction; try (apply set_synced, H).
  - destruct f, m; cbn; try exact H. apply set_synced, H.
  - unfold sum_jtjdiag. pose proof (set_synced maps st m H) as (S1 & S2 & S3). destruct (m_jtj (set_model maps st m)); [exact S1|].
    destruct (bind _ _); [|exact S1]. unfold synced. cbn. rewrite S2. exact S3.
Qed.
Lemma sum_run_synced n nD sims maps ops : no_touch ops -> synced maps (sum_run n nD sims maps ops).
Proof.
  intros H. assert (G : forall st, synced maps st -> synced maps (fold_left (sum_step n nD sims maps) ops st)).
  { induction ops as [|o ops IH]; intros st S; [exact S|]. cbn [fold_left]. apply IH; [intros q Hq; apply H; right; exact Hq|]. apply sum_step_synced; [exact S|]. apply H. left. reflexivity. }
  apply G. exact I.
Qed.
Lemma run_synced n sims maps ops : no_touch ops -> synced maps (meta_run n sims maps ops).
Proof.
  intros H. assert (G : forall st, synced maps st -> synced maps (fold_left (meta_step n sims maps) ops st)).
  { induction ops as [|o ops IH]; intros st S; [exact S|]. cbn [fold_left]. apply IH; [intros q Hq; apply H; right; exact Hq|]. apply step_synced; [exact S|]. apply H. left. reflexivity. }
  apply G. exact I.
Qed.
Definition own_fields sims maps (m : vec) : list F := each (fun s p => s_fields s (p_f p m)) sims maps.
Lemma inner_fields_ok m : forall sims maps, length sims = length maps -> inner_fields sims (map (fun p => Some (p_f p m)) maps) = Ok (own_fields sims maps m).
Proof. induction sims as [|s sims IH]; intros [|p maps] L; try discriminate; [reflexivity|]. cbn. rewrite (IH maps) by (cbn in L; congruence). reflexivity. Qed.
Lemma zip_ok {A} m (g : mmap -> msim -> vec -> F -> A) : forall sims maps, length sims = length maps ->
  mapM (fun q : mmap * msim * option vec * F => let '(p, s, x, u) := q in do x <- need x; Ok (g p s x u)) (zip4 maps sims (map (fun p => Some (p_f p m)) maps) (own_fields sims maps m)) =
  Ok (each (fun s p => g p s (p_f p m) (s_fields s (p_f p m))) sims maps).
Proof. induction sims as [|s sims IH]; intros [|p maps] L; try discriminate; [reflexivity|]. cbn. unfold own_fields in IH. rewrite (IH maps) by (cbn in L; congruence). reflexivity. Qed.
(** The same when the meta model is consulted too. *)
Lemma zip_ok2 {A} m (g : mmap -> msim -> vec -> F -> vec -> A) : forall sims maps, length sims = length maps ->
  mapM (fun q : mmap * msim * option vec * F => let '(p, s, x, u) := q in do x <- need x; do mm <- need (Some m); Ok (g p s x u mm)) (zip4 maps sims (map (fun p => Some (p_f p m)) maps) (own_fields sims maps m)) =
  Ok (each (fun s p => g p s (p_f p m) (s_fields s (p_f p m)) m) sims maps).
Proof. intros. apply (zip_ok m (fun p s x u => g p s x u m)). assumption. Qed.
Lemma dpred_ok maps sims st m : synced maps st -> length sims = length maps -> snd (meta_dpred sims maps st (Some m) None) = Ok (concat (each (fun s p => part_dpred s p m) sims maps)).
Proof.
  intros S L. unfold meta_dpred. cbn [snd get_f]. destruct (set_synced maps st m S) as (_ & _ & ->). rewrite inner_fields_ok by exact L. cbn [bind].
  rewrite (zip_ok m (fun p s x u => s_dpred s x u)) by exact L. reflexivity.
Qed.
Lemma Jvec_ok maps sims st m v : synced maps st -> length sims = length maps -> snd (meta_Jvec sims maps st m v None) = Ok (concat (each (fun s p => part_Jvec s p m v) sims maps)).
Proof.
  intros S L. unfold meta_Jvec. cbn [snd get_f]. destruct (set_synced maps st m S) as (_ & -> & ->). rewrite inner_fields_ok by exact L. cbn [bind].
  rewrite (zip_ok2 m (fun p s x u mm => sJvec s x u (mv (p_J p mm) v))) by exact L. reflexivity.
Qed.
(** ** Adjoint *)
Lemma offset_cons s sims i : offset (s :: sims) (S i) = (s_nD s + offset sims i)%nat.
Proof. reflexivity. Qed.
Lemma slice_0 s sims w : slice (s :: sims) 0 w = firstn (s_nD s) w.
Proof. unfold slice. rewrite offset_cons. unfold offset. cbn [firstn map list_sum fold_right skipn]. f_equal. lia. Qed.
Lemma slice_S s sims i w : slice (s :: sims) (S i) w = slice sims i (skipn (s_nD s) w).
Proof. unfold slice. rewrite !offset_cons, skipn_skipn. f_equal; [lia|]. f_equal. lia. Qed.
Lemma jt_loop_shift n s sims mm w : forall q i, jt_loop n (s :: sims) mm w (S i) q = jt_loop n sims mm (skipn (s_nD s) w) i q.
Proof.
  induction q as [|[[[p t] x] u] q IH]; intros i; cbn [jt_loop]; [reflexivity|]. rewrite IH, slice_S. reflexivity.
Qed.
Lemma jtj_loop_shift n s sims mm w : forall q i, jtj_loop n (s :: sims) mm w (S i) q = jtj_loop n sims mm (skipn (s_nD s) w) i q.
Proof.
  induction q as [|[[[p t] x] u] q IH]; intros i; cbn [jtj_loop]; [reflexivity|]. rewrite IH, slice_S. reflexivity.
Qed.
Lemma dot_app a b c d : length a = length c -> dot (a ++ b) (c ++ d) = dot a c + dot b d.
Proof. revert c; induction a as [|x a IH]; intros [|y c] L; try discriminate; cbn; [lra|]. rewrite IH by (cbn in L; congruence). lra. Qed.
Lemma shaped_cons n m s sims p maps : all_shaped n m (s :: sims) (p :: maps) -> shaped n m s p /\ all_shaped n m sims maps.
Proof. intros [L H]. split; [apply (H (s, p)); left; reflexivity|]. split; [cbn in L; congruence|]. intros q Hq. apply H. right. exact Hq. Qed.
Lemma part_length n m s p v : shaped n m s p -> length (part_Jvec s p m v) = s_nD s.
Proof. intros (_ & [L _] & _). unfold part_Jvec. rewrite mv_length. exact L. Qed.
Lemma adj_part n m s p v w : shaped n m s p -> length v = n -> length w = s_nD s ->
  dot (part_Jvec s p m v) w = dot v (mtv n (p_J p m) (sJtvec s (p_f p m) (s_fields s (p_f p m)) w)).
Proof.
  intros (Hp & Hs & _) Hv Hw. unfold part_Jvec, sJtvec. rewrite dot_comm.
  rewrite (mv_mtv_adjoint (s_nD s) (s_nP s)); [|exact Hs|exact Hw|rewrite mv_length; apply Hp].
  rewrite (mv_mtv_adjoint (s_nP s) n); [apply dot_comm|exact Hp|apply (mtv_length (s_nD s)), Hs|exact Hv].
Qed.
Lemma jt_ok n m v : length v = n -> forall sims maps w, all_shaped n m sims maps -> length w = total_nD sims ->
  exists g, jt_loop n sims (Some m) w 0 (zip4 maps sims (map (fun p => Some (p_f p m)) maps) (own_fields sims maps m)) = Ok g /\ length g = n /\
    dot (concat (each (fun s p => part_Jvec s p m v) sims maps)) w = dot v g.
Proof.
  intros Hv. induction sims as [|s sims IH]; intros [|p maps] w Hs Hw; try (destruct Hs; discriminate).
  - exists (vzero n). cbn. split; [reflexivity|]. split; [apply vzero_length|]. rewrite dot_zero_r. reflexivity.
  - apply shaped_cons in Hs as [H1 H2]. unfold total_nD in Hw. cbn [map list_sum fold_right] in Hw.
    destruct (IH maps (skipn (s_nD s) w) H2) as (g & E & Lg & A); [rewrite skipn_length, Hw; unfold total_nD, list_sum; lia|].
    cbn [own_fields each map zip4 jt_loop need bind]. rewrite jt_loop_shift. unfold own_fields in E. rewrite E. cbn [bind]. eexists. split; [reflexivity|].
    rewrite slice_0. assert (L1 : length (firstn (s_nD s) w) = s_nD s) by (rewrite firstn_length; lia).
    set (g1 := mtv n (p_J p m) _). assert (Lg1 : length g1 = n) by (apply (mtv_length (s_nP s)), H1). split; [rewrite vadd_length; congruence|].
    cbn [each concat]. rewrite <- (firstn_skipn (s_nD s) w) at 1. rewrite dot_app by (rewrite (part_length n m s p v H1); congruence).
    rewrite A, dot_vadd_r by congruence. f_equal. apply adj_part; assumption.
Qed.
Lemma Jtvec_ok n maps sims st st' m v w : synced maps st -> synced maps st' -> all_shaped n m sims maps -> length v = n -> length w = total_nD sims ->
  exists j g, snd (meta_Jvec sims maps st m v None) = Ok j /\ snd (meta_Jtvec n sims maps st' m w None) = Ok g /\ length j = total_nD sims /\ length g = n /\ dot j w = dot v g.
Proof.
  intros S S' H Hv Hw. destruct (jt_ok n m v Hv sims maps w H Hw) as (g & E & Lg & A). pose proof H as [L _]. exists (concat (each (fun s p => part_Jvec s p m v) sims maps)), g.
  split; [apply Jvec_ok; [exact S|exact L]|]. split.
  - unfold meta_Jtvec. cbn [snd get_f]. destruct (set_synced maps st' m S') as (_ & -> & ->). rewrite inner_fields_ok by exact L. exact E.
  - split; [|split; assumption]. clear - H. revert maps H. induction sims as [|s sims IH]; intros [|p maps] H; try (destruct H; discriminate); [reflexivity|].
    apply shaped_cons in H as [H1 H2]. cbn [each concat]. rewrite app_length, (part_length n m s p v H1), IH by exact H2. reflexivity.
Qed.
(** ** Diagonal *)
Lemma dot_unit n c : forall r : vec, length r = n -> (c < n)%nat -> dot r (unit_at n c) = nth c r 0.
Proof.
  unfold unit_at. intros r Hr Hc. assert (G : forall r k, dot r (map (fun j => if Nat.eqb j c then 1 else 0) (seq k (length r))) = if (k <=? c)%nat then nth (c - k) r 0 else 0).
  { clear. induction r as [|x r IH]; intros k; cbn [length seq map dot].
    - destruct (k <=? c)%nat; [destruct (c - k)%nat|]; reflexivity.
    - rewrite IH. destruct (Nat.eqb_spec k c) as [->|N].
      + rewrite Nat.leb_refl, Nat.sub_diag. destruct (Nat.leb_spec (S c) c); [lia|]. cbn. lra.
      + destruct (Nat.leb_spec k c), (Nat.leb_spec (S k) c); try lia; [|lra]. replace (c - k)%nat with (S (c - S k)) by lia. cbn. lra. }
  rewrite <- Hr. rewrite G. cbn. rewrite Nat.sub_0_r. reflexivity.
Qed.
Definition col (c : nat) (P : mat) : vec := map (fun r => nth c r 0) P.
Lemma mv_unit k n P c : is_mat k n P -> (c < n)%nat -> mv P (unit_at n c) = col c P.
Proof. intros [_ H] Hc. unfold mv, col. apply map_ext_in. intros r Hr. apply dot_unit; [|exact Hc]. rewrite Forall_forall in H. apply H, Hr. Qed.
(** A vector with at most one nonzero entry. *)
Definition single (a : vec) : Prop := forall i j, nth i a 0 <> 0 -> nth j a 0 <> 0 -> i = j.
Lemma single_dot a : single a -> a = vzero (length a) \/ exists k, (k < length a)%nat /\ (forall b : vec, length b = length a -> dot b a = nth k b 0 * nth k a 0) /\ forall i, i <> k -> nth i a 0 = 0.
Proof.
  intros H. induction a as [|x a IH]; [left; reflexivity|]. destruct (Req_EM_T x 0) as [->|N].
  - destruct IH as [E|(k & Hk & D & Z)].
    + intros i j Hi Hj. specialize (H (S i) (S j) Hi Hj). congruence.
    + left. cbn. rewrite E at 1. reflexivity.
    + right. exists (S k). split; [cbn; lia|]. split; [|intros [|i] Hi; cbn; [reflexivity|apply Z; congruence]]. intros [|y b] Hb; try discriminate. cbn. rewrite D by (cbn in Hb; congruence). lra.
  - right. exists 0%nat. assert (Z : forall i, i <> 0%nat -> nth i (x :: a) 0 = 0).
    { intros i Hi. destruct (Req_EM_T (nth i (x :: a) 0) 0) as [E|E]; [exact E|]. exfalso. apply Hi. apply H; [exact E|exact N]. }
    split; [cbn; lia|]. split; [|exact Z]. intros [|y b] Hb; try discriminate. cbn. assert (E : dot b a = 0); [|lra].
    assert (Z' : forall i, nth i a 0 = 0) by (intros i; apply (Z (S i)); lia). clear - Z' Hb. cbn in Hb. injection Hb as Hb. revert b Hb. induction a as [|z a IH]; intros [|y' b] L; try discriminate; [reflexivity|].
    cbn. rewrite (IH (fun i => Z' (S i)) b) by (cbn in L; congruence). specialize (Z' O). cbn in Z'. rewrite Z'. lra.
Qed.
Lemma one_output_single n P c : one_output n P -> (c < n)%nat -> single (col c P).
Proof.
  intros H Hc i j Hi Hj. assert (G : forall i, nth i (col c P) 0 = nth c (nth i P []) 0).
  { intros k. unfold col. destruct (Nat.lt_ge_cases k (length P)) as [L|L].
    - rewrite (nth_indep _ 0 (nth c [] 0)) by (rewrite map_length; exact L). rewrite (map_nth (fun r : vec => nth c r 0)). reflexivity.
    - rewrite (nth_overflow (map _ P)) by (rewrite map_length; exact L). rewrite (nth_overflow P) by exact L. destruct c; reflexivity. }
  apply (H c); [exact Hc|rewrite <- G; exact Hi|rewrite <- G; exact Hj].
Qed.
Lemma sum_scale {A} (f : A -> R) c l : vsum (map (fun q => c * f q) l) = c * vsum (map f l).
Proof. induction l; cbn; [lra|]. rewrite IHl. lra. Qed.
(** Weighted rows applied to a single-entry vector. *)
Lemma weighted_single J w a : (forall r, In r J -> length r = length a) -> forall k, (forall b : vec, length b = length a -> dot b a = nth k b 0 * nth k a 0) ->
  sqnorm (vmul w (mv J a)) = vsum (map (fun p => (fst p * nth k (snd p) 0) ^ 2) (combine w J)) * (nth k a 0) ^ 2.
Proof.
  intros HJ k D. revert w; induction J as [|r J IH]; intros [|x w]; cbn; try lra. unfold sqnorm in IH. unfold vmul, mv in IH. rewrite IH by (intros q Hq; apply HJ; right; exact Hq).
  rewrite D by (apply HJ; left; reflexivity). cbn. lra.
Qed.
Lemma vsum_nonneg l : (forall x, In x l -> 0 <= x) -> 0 <= vsum l.
Proof. induction l as [|x l IH]; intros H; cbn; [lra|]. assert (0 <= x) by (apply H; left; reflexivity). assert (0 <= vsum l) by (apply IH; intros y Hy; apply H; right; exact Hy). lra. Qed.
Lemma push_nth n d P c : (c < n)%nat -> nth c (push_diag n d P) 0 = vsum (map (fun q => (sqrt (fst q) * snd q) ^ 2) (combine d (col c P))).
Proof.
  intros H. unfold push_diag. set (g := fun c : nat => vsum _). rewrite (nth_indep _ 0 (g O)) by (rewrite map_length, seq_length; exact H). rewrite (map_nth g (seq 0 n) O c), seq_nth by exact H.
  unfold g, col. cbn [plus]. f_equal. clear. revert P; induction d as [|x d IH]; intros [|r P]; cbn; try reflexivity. f_equal. apply IH.
Qed.
Lemma sum_single d a k : (k < length a)%nat -> length d = length a -> (forall i, i <> k -> nth i a 0 = 0) -> (forall x, In x d -> 0 <= x) ->
  vsum (map (fun q => (sqrt (fst q) * snd q) ^ 2) (combine d a)) = nth k d 0 * nth k a 0 ^ 2.
Proof.
  revert d k; induction a as [|x a IH]; intros [|y d] k Hk L Z P; cbn in Hk, L; try lia; try discriminate. cbn [combine map vsum fst snd]. destruct k as [|k].
  - assert (E : vsum (map (fun q : R * R => (sqrt (fst q) * snd q) ^ 2) (combine d a)) = 0).
    { assert (Z' : forall i, nth i a 0 = 0) by (intros i; apply (Z (S i)); lia). clear - Z'. revert d; induction a as [|z a IH]; intros [|y d]; cbn [combine map vsum]; try reflexivity.
      rewrite (IH (fun i => Z' (S i)) d). specialize (Z' O). cbn in Z' |- *. rewrite Z'. lra. }
    rewrite E. cbn [nth]. assert (0 <= y) by (apply P; left; reflexivity). rewrite Rpow_mult_distr. rewrite pow2_sqrt by assumption. lra.
  - cbn [nth]. rewrite (IH d k); [|lia|congruence|intros i Hi; apply (Z (S i)); congruence|intros q Hq; apply P; right; exact Hq].
    pose proof (Z O ltac:(lia)) as Z0. cbn in Z0. rewrite Z0. lra.
Qed.
Lemma sJtJ_nonneg s x (u : F) w : forall y, In y (sJtJ s x u w) -> 0 <= y.
Proof. intros y H. unfold sJtJ in H. apply in_map_iff in H as (k & <- & _). apply vsum_nonneg. intros z Hz. apply in_map_iff in Hz as (q & <- & _). apply pow2_ge_0. Qed.
Lemma sJtJ_nth s x (u : F) w k : (k < s_nP s)%nat -> nth k (sJtJ s x u w) 0 = vsum (map (fun p => (fst p * nth k (snd p) 0) ^ 2) (combine w (s_J s x u))).
Proof.
  intros H. unfold sJtJ. set (g := fun k : nat => vsum _). rewrite (nth_indep _ 0 (g O)) by (rewrite map_length, seq_length; exact H). rewrite (map_nth g (seq 0 (s_nP s)) O k), seq_nth by exact H. reflexivity.
Qed.
Lemma zero_mv J k : mv J (vzero k) = vzero (length J).
Proof. induction J as [|r J IH]; [reflexivity|]. cbn. rewrite dot_zero_r. f_equal. exact IH. Qed.
Lemma sq_zero w k : sqnorm (vmul w (vzero k)) = 0.
Proof. revert w; induction k as [|k IH]; intros [|x w]; cbn; try reflexivity. unfold sqnorm, vmul, vzero, vconst in IH. rewrite IH. lra. Qed.
Lemma push_zero d k : vsum (map (fun q => (sqrt (fst q) * snd q) ^ 2) (combine d (vzero k))) = 0.
Proof. revert d; induction k as [|k IH]; intros [|x d]; cbn [vzero vconst repeat combine map vsum]; try reflexivity. fold (vconst k 0). fold (vzero k). rewrite IH. cbn. lra. Qed.
Lemma diag_part n m s p w c : shaped n m s p -> one_output n (p_J p m) -> (c < n)%nat ->
  nth c (push_diag n (sJtJ s (p_f p m) (s_fields s (p_f p m)) w) (p_J p m)) 0 = sqnorm (vmul w (part_Jvec s p m (unit_at n c))).
Proof.
  intros (Hp & Hs & _) Ho Hc. rewrite push_nth by exact Hc. unfold part_Jvec. rewrite (mv_unit (s_nP s) n _ c Hp Hc).
  assert (Lc : length (col c (p_J p m)) = s_nP s) by (unfold col; rewrite map_length; apply Hp).
  destruct (single_dot _ (one_output_single n _ c Ho Hc)) as [E|(k & Hk & D & Z)].
  - rewrite E. rewrite zero_mv, sq_zero, push_zero. reflexivity.
  - rewrite (sum_single _ _ k Hk); [|rewrite Lc; unfold sJtJ; rewrite map_length, seq_length; reflexivity|exact Z|apply sJtJ_nonneg].
    rewrite (weighted_single _ _ _ ) with (k := k); [|intros r Hr; destruct Hs as [_ Hs]; rewrite Forall_forall in Hs; rewrite (Hs r Hr); congruence|exact D].
    rewrite sJtJ_nth by lia. reflexivity.
Qed.
Lemma vmul_app a b c d : length a = length c -> vmul (a ++ b) (c ++ d) = vmul a c ++ vmul b d.
Proof. revert c; induction a as [|x a IH]; intros [|y c] L; try discriminate; [reflexivity|]. cbn. f_equal. apply IH. cbn in L. congruence. Qed.
Lemma sq_app a b : sqnorm (a ++ b) = sqnorm a + sqnorm b.
Proof. unfold sqnorm. apply dot_app. reflexivity. Qed.
Lemma diag_ok n m c : (c < n)%nat -> forall sims maps W, all_shaped n m sims maps -> (forall p, In p maps -> one_output n (p_J p m)) -> length W = total_nD sims ->
  exists d, jtj_loop n sims (Some m) W 0 (zip4 maps sims (map (fun p => Some (p_f p m)) maps) (own_fields sims maps m)) = Ok d /\ length d = n /\
    nth c d 0 = sqnorm (vmul W (concat (each (fun s p => part_Jvec s p m (unit_at n c)) sims maps))).
Proof.
  intros Hc. induction sims as [|s sims IH]; intros [|p maps] W Hs Ho Hw; try (destruct Hs; discriminate).
  - exists (vzero n). cbn. split; [reflexivity|]. split; [apply vzero_length|]. unfold vzero, vconst. rewrite nth_repeat. destruct W; reflexivity.
  - apply shaped_cons in Hs as [H1 H2]. unfold total_nD in Hw. cbn [map list_sum fold_right] in Hw.
    destruct (IH maps (skipn (s_nD s) W) H2) as (d & E & Ld & A); [intros q Hq; apply Ho; right; exact Hq|rewrite skipn_length, Hw; unfold total_nD, list_sum; lia|].
    cbn [own_fields each map zip4 jtj_loop need bind]. rewrite jtj_loop_shift. unfold own_fields in E. rewrite E. cbn [bind]. eexists. split; [reflexivity|].
    rewrite slice_0. assert (L1 : length (firstn (s_nD s) W) = s_nD s) by (rewrite firstn_length; lia).
    set (d1 := push_diag _ _ _). assert (Ld1 : length d1 = n) by (unfold d1, push_diag; rewrite map_length, seq_length; reflexivity). split; [rewrite vadd_length; congruence|].
    cbn [each concat]. replace (vmul W) with (vmul (firstn (s_nD s) W ++ skipn (s_nD s) W)) by (rewrite firstn_skipn; reflexivity). rewrite vmul_app by (rewrite (part_length n m s p _ H1); congruence). rewrite sq_app, <- A.
    unfold vadd. rewrite zipw_nth by (rewrite ?Ld1; congruence || exact Hc). f_equal. apply diag_part; [exact H1|apply Ho; left; reflexivity|exact Hc].
Qed.
Lemma jtjdiag_ok n maps sims st st' m W c : synced maps st -> synced maps st' -> m_model st' <> Some m \/ m_jtj st' = None ->
  all_shaped n m sims maps -> (forall p, In p maps -> one_output n (p_J p m)) -> length W = total_nD sims -> (c < n)%nat ->
  exists d j, snd (meta_jtjdiag n sims maps st' m W None) = Ok d /\ snd (meta_Jvec sims maps st m (unit_at n c) None) = Ok j /\
    nth c d 0 = sqnorm (vmul W j).
Proof.
  intros S S' Hn H Ho Hw Hc. destruct (diag_ok n m c Hc sims maps W H Ho Hw) as (d & E & Ld & A). pose proof H as [L _].
  exists d, (concat (each (fun s p => part_Jvec s p m (unit_at n c)) sims maps)). split; [|split; [apply Jvec_ok; [exact S|exact L]|exact A]].
  unfold meta_jtjdiag. destruct (set_synced maps st' m S') as (_ & E1 & E2).
  assert (J0 : m_jtj (set_model maps st' m) = None).
  { unfold set_model. destruct (m_model st') as [old|]; [|reflexivity]. destruct (veqb old m) eqn:V; [|reflexivity]. apply veqb_eq in V as ->. destruct Hn as [Hn|Hn]; [congruence|exact Hn]. }
  rewrite J0. cbn [get_f]. rewrite E1, E2. rewrite inner_fields_ok by exact L. cbn [bind]. rewrite E. reflexivity.
Qed.
End P.
