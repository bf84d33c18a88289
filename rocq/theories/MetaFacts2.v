(** Proofs about summed and repeated simulations, and derivatives of the stacked data. *)
From Coq Require Import Lra.
From Verif Require Import Py Vec VecDeriv Frechet Meta SpecMeta MetaFacts.
Local Open Scope R_scope.

Lemma norm1_app a b : norm1 (a ++ b) = norm1 a + norm1 b.
Proof. induction a as [|x a IH]; cbn; [lra|]. rewrite IH. lra. Qed.
Lemma vsub_app a b c d : length a = length c -> vsub (a ++ b) (c ++ d) = vsub a c ++ vsub b d.
Proof. revert c; induction a as [|x a IH]; intros [|y c] L; try discriminate; [reflexivity|]. cbn. f_equal. apply IH. cbn in L. congruence. Qed.
Lemma mv_app A B v : mv (A ++ B) v = mv A v ++ mv B v.
Proof. unfold mv. apply map_app. Qed.
Lemma app_mat k1 k2 n A B : is_mat k1 n A -> is_mat k2 n B -> is_mat (k1 + k2) n (A ++ B).
Proof. intros [L1 F1] [L2 F2]. split; [rewrite app_length; congruence|]. apply Forall_app. split; assumption. Qed.
Lemma frechet_stack n k1 k2 f g x J K : frechet n k1 f x J -> frechet n k2 g x K -> frechet n (k1 + k2) (fun y => f y ++ g y) x (J ++ K).
Proof.
  intros (Lx & HJ & Lf & Hf) (_ & HK & Lg & Hg). split; [exact Lx|]. split; [apply app_mat; assumption|]. split; [intros y Ly; rewrite app_length, Lf, Lg by exact Ly; reflexivity|].
  intros eps He. destruct (Hf (eps / 2)) as (d1 & D1 & B1); [lra|]. destruct (Hg (eps / 2)) as (d2 & D2 & B2); [lra|].
  exists (Rmin d1 d2). split; [apply Rmin_pos; assumption|]. intros h Lh Hh. pose proof (Rmin_l d1 d2). pose proof (Rmin_r d1 d2).
  specialize (B1 h Lh ltac:(lra)). specialize (B2 h Lh ltac:(lra)). rewrite mv_app. assert (Lxh : length (vadd x h) = n) by (rewrite vadd_length; congruence).
  rewrite vsub_app by (rewrite !Lf; auto). rewrite vsub_app by (rewrite vsub_length, mv_length by (rewrite !Lf; auto); rewrite Lf by exact Lxh; symmetry; apply HJ).
  rewrite norm1_app. lra.
Qed.
Section P.
Context {F : Type}.
Implicit Types (sims : list (@msim F)) (maps : list mmap) (s : @msim F).

Lemma part_frechet n m s p : part_diff n m s p -> frechet n (s_nD s) (part_dpred s p) m (mm n (s_J s (p_f p m) (s_fields s (p_f p m))) (p_J p m)).
Proof. intros [H1 H2]. apply (frechet_comp n (s_nP s) (s_nD s) (p_f p) (fun x => s_dpred s x (s_fields s x)) m _ _ H1 H2). Qed.
Lemma part_shaped n m s p : part_diff n m s p -> shaped n m s p.
Proof.
  intros [H1 H2]. pose proof (part_frechet n m s p (conj H1 H2)) as H3. destruct H1 as (Lm & M1 & _). destruct H2 as (_ & M2 & _). destruct H3 as (_ & _ & L & _). split; [exact M1|]. split; [exact M2|]. apply L, Lm.
Qed.
Lemma part_mv n m s p v : part_diff n m s p -> length v = n -> mv (mm n (s_J s (p_f p m) (s_fields s (p_f p m))) (p_J p m)) v = part_Jvec s p m v.
Proof. intros [(_ & M1 & _) (_ & M2 & _)] Lv. apply (mm_mv (s_nD s) (s_nP s) n); assumption. Qed.
Lemma stack_frechet n m : length m = n -> forall sims maps, length sims = length maps -> (forall q, In q (combine sims maps) -> part_diff n m (fst q) (snd q)) ->
  exists J, frechet n (total_nD sims) (fun y => concat (each (fun s p => part_dpred s p y) sims maps)) m J /\
    forall v, length v = n -> mv J v = concat (each (fun s p => part_Jvec s p m v) sims maps).
Proof.
  intros Lm. induction sims as [|s sims IH]; intros [|p maps] L H; try discriminate.
  - exists []. split; [|reflexivity]. split; [exact Lm|]. split; [split; [reflexivity|constructor]|]. split; [reflexivity|]. intros eps He. exists 1. split; [lra|]. intros h _ _. cbn. pose proof (norm1_nonneg h). nra.
  - destruct (IH maps) as (J & HJ & E); [cbn in L; congruence|intros q Hq; apply H; right; exact Hq|]. assert (Hp : part_diff n m s p) by (apply (H (s, p)); left; reflexivity).
    exists (mm n (s_J s (p_f p m) (s_fields s (p_f p m))) (p_J p m) ++ J). split.
    + apply (frechet_stack n (s_nD s) (total_nD sims) _ _ m _ J (part_frechet n m s p Hp) HJ).
    + intros v Lv. rewrite mv_app, E, part_mv by assumption. reflexivity.
Qed.
(** ** Sums *)
Lemma sum_dpred_ok nD maps sims st m : synced maps st -> length sims = length maps -> snd (sum_dpred nD sims maps st (Some m) None) = Ok (vsums nD (each (fun s p => part_dpred s p m) sims maps)).
Proof.
  intros S L. unfold sum_dpred. cbn [snd get_f]. destruct (set_synced maps st m S) as (_ & _ & ->). rewrite inner_fields_ok by exact L. cbn [bind].
  rewrite (zip_ok m (fun p s x u => s_dpred s x u)) by exact L. reflexivity.
Qed.
Lemma sum_Jvec_ok nD maps sims st m v : synced maps st -> length sims = length maps -> snd (sum_Jvec nD sims maps st m v None) = Ok (vsums nD (each (fun s p => part_Jvec s p m v) sims maps)).
Proof.
  intros S L. unfold sum_Jvec. cbn [snd get_f]. destruct (set_synced maps st m S) as (_ & -> & ->). rewrite inner_fields_ok by exact L. cbn [bind].
  rewrite (zip_ok2 m (fun p s x u mm => sJvec s x u (mv (p_J p mm) v))) by exact L. reflexivity.
Qed.
Definition part_Jtvec (n : nat) s (p : mmap) (m w : vec) : vec := mtv n (p_J p m) (sJtvec s (p_f p m) (s_fields s (p_f p m)) w).
Lemma sum_Jtvec_ok n maps sims st m w : synced maps st -> length sims = length maps -> snd (sum_Jtvec n sims maps st m w None) = Ok (vsums n (each (fun s p => part_Jtvec n s p m w) sims maps)).
Proof.
  intros S L. unfold sum_Jtvec. cbn [snd get_f]. destruct (set_synced maps st m S) as (_ & -> & ->). rewrite inner_fields_ok by exact L. cbn [bind].
  rewrite (zip_ok2 m (fun p s x u mm => mtv n (p_J p mm) (sJtvec s x u w))) by exact L. reflexivity.
Qed.
Lemma vsums_length n l : (forall a, In a l -> length a = n) -> length (vsums n l) = n.
Proof. induction l as [|a l IH]; intros H; cbn; [apply vzero_length|]. rewrite vadd_length; [apply H; left; reflexivity|]. rewrite IH by (intros b Hb; apply H; right; exact Hb). apply H. left. reflexivity. Qed.
Lemma each_in {A} (g : @msim F -> mmap -> A) : forall sims maps x, In x (each g sims maps) -> exists s p, In (s, p) (combine sims maps) /\ x = g s p.
Proof. induction sims as [|s sims IH]; intros [|p maps] x H; try contradiction. destruct H as [<-|H]; [exists s, p; split; [left|]; reflexivity|]. destruct (IH maps x H) as (s' & p' & I & E). exists s', p'. split; [right; exact I|exact E]. Qed.
Lemma sum_adjoint n nD m v w : length v = n -> length w = nD -> forall sims maps, all_shaped n m sims maps -> (forall s, In s sims -> s_nD s = nD) ->
  dot (vsums nD (each (fun s p => part_Jvec s p m v) sims maps)) w = dot v (vsums n (each (fun s p => part_Jtvec n s p m w) sims maps)).
Proof.
  intros Lv Lw. induction sims as [|s sims IH]; intros [|p maps] H Hn; try (destruct H; discriminate); [cbn; rewrite dot_zero_l, dot_zero_r; reflexivity|].
  apply shaped_cons in H as [H1 H2]. cbn [each vsums]. assert (Hs : s_nD s = nD) by (apply Hn; left; reflexivity).
  rewrite dot_vadd_l, dot_vadd_r.
  - rewrite IH by (exact H2 || intros t Ht; apply Hn; right; exact Ht). f_equal. apply adj_part; [exact H1|exact Lv|congruence].
  - rewrite vsums_length; [apply (mtv_length (s_nP s)), H1|]. intros a Ha. apply each_in in Ha as (t & q & I & ->). apply (mtv_length (s_nP t)). destruct H2 as [_ H2]. apply (H2 _ I).
  - rewrite vsums_length; [rewrite (part_length n m s p v H1); exact Hs|]. intros a Ha. apply each_in in Ha as (t & q & I & ->). destruct H2 as [_ H2]. rewrite (part_length n m t q v (H2 _ I)). apply Hn. right. apply in_combine_l in I. exact I.
Qed.
Lemma sum_Jt n nD maps sims st st' m v w : synced maps st -> synced maps st' -> all_shaped n m sims maps -> (forall s, In s sims -> s_nD s = nD) -> length v = n -> length w = nD ->
  exists j g, snd (sum_Jvec nD sims maps st m v None) = Ok j /\ snd (sum_Jtvec n sims maps st' m w None) = Ok g /\ dot j w = dot v g.
Proof.
  intros S S' H Hn Lv Lw. pose proof H as [L _]. eexists. eexists. split; [apply sum_Jvec_ok; assumption|]. split; [apply sum_Jtvec_ok; assumption|]. apply sum_adjoint; assumption.
Qed.
(** ** Repeated simulations *)
Lemma rset_ok st m : q_model (rset_model st m) = Some m.
Proof. unfold rset_model. destruct (q_model st) as [old|] eqn:E; [|reflexivity]. destruct (veqb old m) eqn:V; [|reflexivity]. apply veqb_eq in V as ->. exact E. Qed.
Lemma rep_fields_ok s m : forall maps i, snd (rep_fields s maps m i) = map (fun p => s_fields s (p_f p m)) maps.
Proof. induction maps as [|p maps IH]; intros i; [reflexivity|]. cbn. specialize (IH (Some (p_f p m))). destruct (rep_fields s maps m (Some (p_f p m))) as [j l]. cbn in IH |- *. rewrite IH. reflexivity. Qed.
Lemma rep_loop_ok {A} (g : mmap -> vec -> F -> A) s m : forall maps i, snd (rep_loop g maps m (map (fun p => s_fields s (p_f p m)) maps) i) = map (fun p => g p (p_f p m) (s_fields s (p_f p m))) maps.
Proof.
  induction maps as [|p maps IH]; intros i; [reflexivity|]. cbn. specialize (IH (Some (p_f p m))). destruct (rep_loop g maps m _ (Some (p_f p m))) as [j l]. cbn in IH |- *. rewrite IH. reflexivity.
Qed.
Lemma rep_run_ok {A} s maps st m (g : mmap -> vec -> F -> A) : q_model st = Some m -> snd (rep_run s maps st None g) = Ok (map (fun p => g p (p_f p m) (s_fields s (p_f p m))) maps).
Proof.
  intros E. unfold rep_run. rewrite E. pose proof (rep_fields_ok s m maps (q_inner st)) as Ef. destruct (rep_fields s maps m (q_inner st)) as [i f]. cbn in Ef. subst f.
  pose proof (rep_loop_ok g s m maps i) as El. destruct (rep_loop _ _ _ _ _) as [j l]. cbn in El |- *. subst l. reflexivity.
Qed.
Lemma rep_dpred_ok s maps st m : snd (rep_dpred s maps st (Some m) None) = Ok (concat (map (fun p => part_dpred s p m) maps)).
Proof.
  unfold rep_dpred. pose proof (rep_run_ok s maps (rset_model st m) m (fun p x u => s_dpred s x u) (rset_ok st m)) as E. destruct (rep_run _ _ _ _ _) as [st2 r]. cbn in E |- *. subst r. reflexivity.
Qed.
Lemma rep_Jvec_ok s maps st m v : snd (rep_Jvec s maps st m v None) = Ok (concat (map (fun p => part_Jvec s p m v) maps)).
Proof.
  unfold rep_Jvec. pose proof (rep_run_ok s maps (rset_model st m) m (fun p x u => sJvec s x u (mv (p_J p m) v)) (rset_ok st m)) as E. destruct (rep_run _ _ _ _ _) as [st2 r]. cbn in E |- *. subst r. reflexivity.
Qed.
End P.
