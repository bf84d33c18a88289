From Coq Require Import Reals Lra Lia Sorted.
From Verif Require Import Py Vec VecDeriv Frechet Joint Richards RichardsFacts RichardsFacts2 RichardsFacts3 LinSimFacts SolveDeriv DcFacts JointFacts PfFacts3 PfFacts4 SelfPotFacts Sip SpecSip SipFacts.
From Verif Require MisfitFacts.
Local Open Scope R_scope.

Definition estores (s : sip) (m : vec) : stores := (p_eta s m, (p_taui s m, p_c s m)).
Section S.
  Context (s : sip) (OK : sip_ok s).

  Lemma cellwise_len g e tau c t n : length e = n -> length tau = n -> length c = n -> length (cellwise s g e tau c t) = n.
  Proof. intros A B C. unfold cellwise. rewrite map_length, combine_length, combine_length. lia. Qed.
  Lemma cellwise_nth g e tau c t n i : length e = n -> length tau = n -> length c = n -> (i < n)%nat ->
    nth i (cellwise s g e tau c t) 0 = response (p_pulses s) (p_T s) (g (nth i e 0) (nth i tau 0) (nth i c 0)) t.
  Proof.
    intros A B C L. unfold cellwise. rewrite (nth_indep _ 0 ((fun x => response (p_pulses s) (p_T s) (g (fst x) (fst (snd x)) (snd (snd x))) t) (0, (0, 0)))) by (rewrite map_length, combine_length, combine_length; lia).
    rewrite (map_nth (fun x => response (p_pulses s) (p_T s) (g (fst x) (fst (snd x)) (snd (snd x))) t)). rewrite combine_nth by (rewrite combine_length; lia). cbn [fst snd]. rewrite combine_nth by lia. reflexivity.
  Qed.
  Lemma at_len g m t : length m = p_n s -> length (at_ s g (estores s m) t) = p_nc s.
  Proof. intros L. destruct OK as (M & _). destruct (M m L) as (A & B & C & _). apply cellwise_len; assumption. Qed.
  Lemma at_polar m t : length m = p_n s -> at_ s step_off (estores s m) t = polarization s m t.
  Proof.
    intros L. pose proof (at_len step_off m t L) as LA. destruct OK as (M & _). destruct (M m L) as (A & B & C & _). unfold polarization. apply (nth_ext _ _ 0 0); [rewrite LA, map_length, seq_length; reflexivity|]. rewrite LA. intros i Hi.
    unfold at_, estores. cbn [fst snd]. rewrite (cellwise_nth _ _ _ _ _ (p_nc s)) by assumption.
    set (f := fun j => signal (p_pulses s) (p_T s) (decay (nth j (p_eta s m) 0) (/ nth j (p_taui s m) 0) (nth j (p_c s m) 0)) t).
    assert (EN : nth i (map f (seq 0 (p_nc s))) 0 = f i) by (rewrite (nth_indep _ 0 (f O)) by (rewrite map_length, seq_length; exact Hi); rewrite (map_nth f), seq_nth by exact Hi; reflexivity). rewrite EN. unfold f. rewrite <- c89_stack. apply response_ext. intros x. apply step_decay.
  Qed.
  Lemma pderiv_len m v t : length m = p_n s -> length (pderiv s (estores s m) m v t) = p_nc s.
  Proof. intros L. pose proof (fun g => at_len g m t L) as LA. destruct OK as (M & _). destruct (M m L) as (_ & _ & _ & (A & _) & (B & _) & (C & _)). unfold pderiv. ln; auto. Qed.
  Lemma pderivT_len m w t : length m = p_n s -> length w = p_nc s -> length (pderivT s (estores s m) m w t) = p_n s.
  Proof. intros L Lw. pose proof (fun g => at_len g m t L) as LA. destruct OK as (M & _). destruct (M m L) as (_ & _ & _ & A & B & C). unfold pderivT. repeat apply ln_add; apply (mtv_length (p_nc s)); auto; apply ln_mul; auto. Qed.
  Lemma pderiv_adj m v w t : length m = p_n s -> length v = p_n s -> length w = p_nc s -> dot (pderivT s (estores s m) m w t) v = dot w (pderiv s (estores s m) m v t).
  Proof.
    intros L Lv Lw. pose proof (fun g => at_len g m t L) as LA. destruct OK as (M & _). destruct (M m L) as (_ & _ & _ & HA & HB & HC). unfold pderivT, pderiv.
    pose proof HA as [HA1 HA2]. pose proof HB as [HB1 HB2]. pose proof HC as [HC1 HC2].
    assert (G : forall D g, is_mat (p_nc s) (p_n s) D -> dot (mtv (p_n s) D (vmul (at_ s g (estores s m) t) w)) v = dot w (vmul (at_ s g (estores s m) t) (mv D v))).
    { intros D g HD. rewrite <- (mv_mtv_adjoint (p_nc s) (p_n s)); [|exact HD|apply ln_mul; auto|exact Lv]. apply MisfitFacts.dot_vmul_l. }
    assert (LM : forall D, is_mat (p_nc s) (p_n s) D -> length (mv D v) = p_nc s) by (intros D [HD _]; unfold mv; rewrite map_length; exact HD).
    assert (LV : forall D g, is_mat (p_nc s) (p_n s) D -> length (vmul (at_ s g (estores s m) t) (mv D v)) = p_nc s) by (intros D g HD; apply ln_mul; auto).
    assert (LT : forall D g, is_mat (p_nc s) (p_n s) D -> length (mtv (p_n s) D (vmul (at_ s g (estores s m) t) w)) = p_n s) by (intros D g HD; apply (mtv_length (p_nc s)); auto; apply ln_mul; auto).
    rewrite dot_vadd_l by (rewrite (ln_add (p_n s)) by auto; rewrite LT; auto). rewrite dot_vadd_l by (rewrite !LT; auto).
    rewrite dot_vadd_r by (rewrite (ln_add (p_nc s)) by auto; rewrite LV; auto). rewrite dot_vadd_r by (rewrite !LV; auto).
    rewrite !G by assumption. reflexivity.
  Qed.
  (** The derivative of the chargeability *)
  Lemma peta_deriv m h t : smooth s m -> positive (p_taui s m) -> 0 <= p_T s -> 0 < t -> length h = p_n s ->
    vderiv (p_nc s) (fun u => at_ s step_off (estores s (vadd m (vscale u h))) t) 0 (pderiv s (estores s m) m h t).
  Proof.
    intros (L & De & Dt & Dc) P HT Ht Lh. specialize (De h Lh). specialize (Dt h Lh). specialize (Dc h Lh).
    assert (E0 : vadd m (vscale 0 h) = m). { vext (p_n s). ring. }
    assert (LL : forall u, length (vadd m (vscale u h)) = p_n s) by (intros u; ln).
    pose proof OK as (M & _). split; [intros u; apply at_len, LL|]. split; [apply pderiv_len; exact L|]. intros i Hi.
    destruct De as (_ & L1 & De). destruct Dt as (_ & L2 & Dt). destruct Dc as (_ & L3 & Dc). specialize (De i Hi). specialize (Dt i Hi). specialize (Dc i Hi).
    destruct (M m L) as (LA & LB & LC & (Q1 & _) & (Q2 & _) & (Q3 & _)).
    eapply dpl_ext. { intros u. symmetry. destruct (M _ (LL u)) as (A & B & C & _). unfold at_, estores. cbn [fst snd]. apply (cellwise_nth _ _ _ _ _ (p_nc s)); assumption. }
    assert (EN : nth i (pderiv s (estores s m) m h t) 0 = response (p_pulses s) (p_T s) (fun t => step_off_eta (nth i (p_eta s m) 0) (nth i (p_taui s m) 0) (nth i (p_c s m) 0) t * nth i (mv (p_deta s m) h) 0 + step_off_taui (nth i (p_eta s m) 0) (nth i (p_taui s m) 0) (nth i (p_c s m) 0) t * nth i (mv (p_dtaui s m) h) 0 + step_off_c (nth i (p_eta s m) 0) (nth i (p_taui s m) 0) (nth i (p_c s m) 0) t * nth i (mv (p_dc s m) h) 0) t).
    { rewrite response_lin. rewrite <- !(cellwise_nth _ (p_eta s m) (p_taui s m) (p_c s m) t (p_nc s) i) by assumption.
      unfold pderiv. change (cellwise s ?g (p_eta s m) (p_taui s m) (p_c s m) t) with (at_ s g (estores s m) t). pose proof (fun g => at_len g m t L) as LT.
      nths (p_nc s). reflexivity. }
    rewrite EN. apply (response_deriv _ _ (fun u => step_off (nth i (p_eta s (vadd m (vscale u h))) 0) (nth i (p_taui s (vadd m (vscale u h))) 0) (nth i (p_c s (vadd m (vscale u h))) 0))); [exact Ht|exact HT|]. intros t' Ht'.
    pose proof (step_deriv (fun u => nth i (p_eta s (vadd m (vscale u h))) 0) (fun u => nth i (p_taui s (vadd m (vscale u h))) 0) (fun u => nth i (p_c s (vadd m (vscale u h))) 0) (nth i (mv (p_deta s m) h) 0) (nth i (mv (p_dtaui s m) h) 0) (nth i (mv (p_dc s m) h) 0) t' Ht') as SD. cbv beta in SD. rewrite E0 in SD. apply SD; [|exact De|exact Dt|exact Dc].
    unfold positive in P. rewrite Forall_forall in P. apply P. apply nth_In. lia.
  Qed.

  (** Results of a new object *)
  Lemma yset_ok st m : length m = p_n s -> yset s st m = (mkY (Some m) (y_stores st) (y_pred st) (y_J st), Ok tt).
  Proof. intros L. unfold yset. rewrite L, Nat.eqb_refl. reflexivity. Qed.
  Definition pred_with (z : R -> vec) (J : mat) : vec :=
    if stored s then concat (map (fun t => mv J (z t)) (unique_times s))
    else concat (map (fun t => concat (map (fun r => if has_time t (x_times r) then mv (x_G r) (z t) else []) (all_rx s))) (unique_times s)).
  Definition Jinv (st : ystate) : Prop := match y_J st with None => True | Some J => Jmat s = Ok J end.
  Lemma forward_direct st m : stored s = false -> length m = p_n s -> forward s st m = (mkY (Some m) (Some (estores s m)) (y_pred st) (y_J st), Ok (pred_with (at_ s step_off (estores s m)) [])).
  Proof. intros D L. unfold forward. rewrite yset_ok by exact L. unfold pred_with. rewrite D. reflexivity. Qed.
  Lemma yJ_with_ok st m J : length m = p_n s -> Jmat s = Ok J -> Jinv st -> yJ_with s st m = (mkY (Some m) (y_stores st) (y_pred st) (Some J), Ok J).
  Proof.
    intros L E I. unfold yJ_with. rewrite yset_ok by exact L. cbn [y_J y_model y_stores y_pred]. unfold Jinv in I. destruct (y_J st) as [J0|]; [|rewrite E; reflexivity]. assert (J0 = J) by congruence. subst. reflexivity.
  Qed.
  Lemma forward_stored st m J : stored s = true -> length m = p_n s -> Jmat s = Ok J -> Jinv st -> forward s st m = (mkY (Some m) (Some (estores s m)) (y_pred st) (Some J), Ok (pred_with (at_ s step_off (estores s m)) J)).
  Proof. intros D L E I. unfold forward. rewrite yset_ok by exact L. cbn [y_J y_model y_stores y_pred]. rewrite D. rewrite (yJ_with_ok _ _ J); [|exact L|exact E|exact I]. cbn [bind y_stores y_pred]. unfold pred_with. rewrite D. reflexivity. Qed.
  Lemma ygetJ_ok st m J g : stored s = true -> length m = p_n s -> Jmat s = Ok J -> Jinv st -> snd (ygetJ s st m g) = Ok J.
  Proof.
    intros D L E I. unfold ygetJ. rewrite yset_ok by exact L. unfold Jinv in I. cbn [y_J]. destruct (y_J st) as [J'|] eqn:EJ; [cbn; congruence|]. unfold ygiven. destruct g.
    - rewrite (yJ_with_ok _ _ J) by (first [assumption|exact Logic.I]). reflexivity.
    - unfold yfields. rewrite (forward_stored _ _ J) by (first [assumption|unfold Jinv; cbn; rewrite EJ; exact Logic.I]). rewrite (yJ_with_ok _ _ J) by (first [assumption|exact Logic.I]). reflexivity.
  Qed.
  Lemma ygetJ_stores st m J g : stored s = true -> length m = p_n s -> Jmat s = Ok J -> Jinv st ->
    y_stores (fst (ygetJ s st m g)) = match y_J st with Some _ => y_stores st | None => if g then y_stores st else Some (estores s m) end.
  Proof.
    intros D L E I. unfold ygetJ. rewrite yset_ok by exact L. unfold Jinv in I. cbn [y_J]. destruct (y_J st) as [J'|] eqn:EJ; [reflexivity|]. unfold ygiven. destruct g.
    - rewrite (yJ_with_ok _ _ J) by (first [assumption|exact Logic.I]). reflexivity.
    - unfold yfields. rewrite (forward_stored _ _ J) by (first [assumption|unfold Jinv; cbn; rewrite EJ; exact Logic.I]). rewrite (yJ_with_ok _ _ J) by (first [assumption|exact Logic.I]). reflexivity.
  Qed.
  Definition jvec_with (y : stores) (m v : vec) (J : mat) : vec :=
    if stored s then concat (map (fun t => mv J (pderiv s y m v t)) (unique_times s))
    else concat (map (fun t => concat (map (fun r => mv (x_G r) (pderiv s y m v t)) (all_rx s))) (unique_times s)).
  Lemma yJvec_direct st m v : stored s = false -> length m = p_n s -> snd (yJvec s st m v false) = Ok (jvec_with (estores s m) m v []).
  Proof. intros D L. unfold yJvec. rewrite yset_ok by exact L. rewrite D. unfold ygiven, yfields. rewrite forward_direct by assumption. unfold jvec_with. rewrite D. reflexivity. Qed.
  Lemma yJvec_stored st m v g J y : stored s = true -> length m = p_n s -> Jmat s = Ok J -> Jinv st -> y_stores (fst (ygetJ s (mkY (Some m) (y_stores st) (y_pred st) (y_J st)) m g)) = Some y ->
    snd (yJvec s st m v g) = Ok (jvec_with y m v J).
  Proof.
    intros D L E I HY. unfold yJvec. rewrite yset_ok by exact L. rewrite D. pose proof (ygetJ_ok (mkY (Some m) (y_stores st) (y_pred st) (y_J st)) m J g D L E I) as GJ. destruct (ygetJ s _ m g) as [st' rJ]. cbn [fst snd] in *. subst rJ. cbn [bind]. unfold need. rewrite HY. unfold jvec_with. rewrite D. reflexivity.
  Qed.
End S.
