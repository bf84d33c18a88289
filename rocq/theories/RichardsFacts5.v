From Verif Require Import Py Vec VecDeriv ParamFacts Joint Gncg NewtonFacts Empir SpecEmpir EmpirFacts Richards SpecRichards RichardsFacts RichardsFacts2 RichardsFacts3 RichardsFacts4.
From Coq Require Import Lra Lia.
Local Open Scope R_scope.

Lemma in_pairs fs : forall dts hn h dt, In (hn, h, dt) (pairs fs dts) -> In hn fs /\ In h fs /\ In dt dts.
Proof.
  induction fs as [|a fs IH]; intros dts hn h dt; [intros []|]. destruct fs as [|b fs], dts as [|d dts]; try (intros []).
  - injection H as <- <- <-. cbn. auto.
  - destruct (IH dts hn h dt H) as (A & B & C). split; [right; exact A|]. split; [right; exact B|right; exact C].
Qed.
Section Final.
  Context (s : sim) (p : nat) (x : vec) (fs : list vec).
  Let n := g_n (q_grid s).
  Hypothesis SU : setup s p x fs.
  Lemma su_good hn h dt : In (hn, h, dt) (pairs fs (q_steps s)) -> good s p x hn h.
  Proof.
    intros HI. destruct (in_pairs _ _ _ _ _ HI) as (A & B & _). destruct SU as (_ & _ & FL & _ & _ & _ & SM & _). rewrite Forall_forall in FL.
    split; [apply FL; exact A|]. split; [apply FL; exact B|]. split; [apply SM; exact A|]. split; apply SM; exact B.
  Qed.
  Lemma su_shape : exists f0 f1 r, fs = f0 :: f1 :: r.
  Proof.
    destruct SU as (_ & _ & _ & L & N & _). destruct fs as [|f0 [|f1 r]]; [discriminate| |eauto]. cbn in L. destruct (q_steps s); [contradiction|discriminate].
  Qed.
  Definition jdata (v : vec) : vec := concat (map (rx_deriv s x fs (concat (vzero n :: forward s x v None fs (q_steps s))) v) (q_rx s)).
  Lemma unread_x b : unread b (Some x) = false.
  Proof. unfold unread. apply Bool.andb_false_r. Qed.
  Lemma jvec_eq st v : jvec s st (Some x) v (Some fs) = (Some x, Ok (jdata v)).
  Proof.
    destruct su_shape as (f0 & f1 & r & E). unfold jvec, given. unfold jdata. rewrite E. cbn [assigned arg_model]. rewrite unread_x. reflexivity.
  Qed.
  Hypothesis Inv : invertible s x fs.
  Lemma fwd_zero v : length v = p -> forward s x v None fs (q_steps s) = forward s x v (Some (vzero n)) fs (q_steps s).
  Proof. intros Lv. apply (forward_none s p); [apply SU|exact Lv|apply SU|intros; eapply su_good; eassumption]. Qed.
  Lemma fwd_ok v : length v = p -> length (forward s x v None fs (q_steps s)) = length (q_steps s) /\ Forall (fun y => length y = n) (forward s x v None fs (q_steps s)).
  Proof.
    intros Lv. split; [apply forward_length; apply SU|]. rewrite (fwd_zero v Lv). apply (forward_lengths s p); [apply SU|exact Lv|apply SU|apply vzero_length|].
    intros hn h dt HI. split; [eapply su_good; eassumption|]. eapply Inv; eassumption.
  Qed.

  (** Jvec is the derivative of the data along the solutions. *)
  Lemma c63_sensitivity st xs cs v ds : q_method s = Mixed -> solution_branch s p xs cs v ds -> xs 0 = x -> map (fun c => c 0) cs = fs ->
    exists j, jvec s st (Some x) v (Some fs) = (Some x, Ok j) /\ vderiv (n_data s) (fun t => data_of s (xs t) (map (fun c => c t) cs)) 0 j.
  Proof.
    intros EM (Dx & F2 & C0 & Z) Ex Ef. exists (jdata v). split; [apply jvec_eq|].
    destruct SU as (Lx & GO & FL & L & N & FD & SM & WP).
    assert (Lc : length cs = length fs) by (rewrite <- Ef, map_length; reflexivity).
    assert (Hd : hd (vzero n) ds = vzero n).
    { destruct F2 as [|c d cs' ds' Hc F2']; [reflexivity|]. cbn [hd]. apply vec_ext; [rewrite vzero_length; apply Hc|]. intros i Hi. rewrite (proj1 (proj2 Hc)) in Hi. rewrite nth_zero.
      apply (uniqueness_limite (fun t => nth i (c t) 0) 0); [apply Hc; exact Hi|]. apply (dpl_ext (fun _ => nth i (c 0) 0)); [intros t; rewrite (C0 t); reflexivity|apply dpl_const]. }
    assert (EF : forward s (xs 0) v (Some (vzero n)) (map (fun c => c 0) cs) (q_steps s) = tl ds).
    { apply (branch s p GO xs v EM Dx cs ds (q_steps s) (vzero n)); try assumption; [congruence|].
      - rewrite Ef, Ex. intros hn h dt HI. destruct (in_pairs _ _ _ _ _ HI) as (_ & B & _). split; [eapply su_good; eassumption|]. split; [apply SM; exact B|]. eapply Inv; eassumption. }
    rewrite Ex, Ef in EF. unfold jdata. rewrite (fwd_zero v) by apply Dx. rewrite EF.
    assert (Ed : vzero n :: tl ds = ds). { destruct F2; [destruct su_shape as (? & ? & ? & E); rewrite E in Lc; discriminate|]. cbn [hd tl] in *. rewrite Hd. reflexivity. }
    rewrite Ed. unfold data_of, n_data. rewrite <- Ex, <- Ef. apply (data_deriv s p); try assumption.
    - intros c Hc. rewrite Ex. apply SM. rewrite <- Ef. apply (in_map (fun c => c 0)). exact Hc.
    - rewrite Lc. exact WP.
  Qed.
  (** Jfull gives the same product. *)
  Lemma c63_full solve_all st v : length v = p ->
    solves_all n solve_all (map fst (block_rows s x v fs (q_steps s))) (map snd (block_rows s x v fs (q_steps s))) ->
    jfull s solve_all st (Some x) v (Some fs) = jvec s st (Some x) v (Some fs).
  Proof.
    intros Lv (L1 & F1 & E1). rewrite jvec_eq. unfold jfull, given, jdata. destruct su_shape as (f0 & f1 & r & E). rewrite E. cbn [assigned arg_model]. rewrite unread_x. rewrite <- E.
    set (ys := solve_all _ _) in *. assert (EY : ys = forward s x v None fs (q_steps s)).
    { rewrite (fwd_zero v Lv). apply (block_solution s p) with (dts := q_steps s); try assumption; try apply SU; [apply vzero_length| | |].
      - rewrite L1, map_length. destruct SU as (_ & _ & _ & L & _). revert L. generalize (q_steps s). clear - fs. induction fs as [|a l IH]; intros dts L; [discriminate|].
        destruct l as [|b l], dts as [|d dts]; try discriminate; [reflexivity|]. rewrite rows_cons. cbn [length]. f_equal. apply IH. cbn in L |- *. lia.
      - intros hn h dt HI. split; [eapply su_good; eassumption|]. eapply Inv; eassumption.
      - rewrite <- E1. destruct su_shape as (f0' & f1' & r' & E'). destruct SU as (Lx & GO & FL & L & N & _). destruct (q_steps s) as [|dt dts] eqn:ES; [contradiction|]. rewrite E'. rewrite rows_cons. cbn [map fst snd block_act].
        destruct ys as [|y ys']; [reflexivity|]. cbn [block_act]. f_equal.
        assert (HI : In (f0', f1', dt) (pairs fs (q_steps s))) by (rewrite E', ES; left; reflexivity).
        destruct (su_good _ _ _ HI) as (Ln & Lh & S0 & S1 & SK).
        pose proof (act_0 _ _ _ (wfm_Asub s p x f0' dt S0)) as Z0. fold n in Z0. rewrite Z0. apply vadd_zero_l. apply (wfm_act _ _ _ (wfm_Adiag s p GO x f1' dt S1 SK)). exact (Forall_inv F1). }
    rewrite EY. reflexivity.
  Qed.
  (** Jtvec is the adjoint of Jvec, if the stored model is the one given. *)
  Lemma c63_adjoint v w : invertible_T s x fs -> length v = p -> length w = n_data s ->
    exists j jt, jvec s (Some x) (Some x) v (Some fs) = (Some x, Ok j) /\ jtvec s (Some x) (Some x) w (Some fs) = (Some x, Ok jt) /\ length jt = p /\ dot w j = dot jt v.
  Proof.
    intros InvT Lv Lw. exists (jdata v). destruct (fwd_ok v Lv) as [Lf Ff]. pose proof SU as SU'. destruct SU' as (Lx & GO & FL & L & N & FD & SM & WP).
    assert (SMT : forall f, In f fs -> smooth_at p n (q_theta s) x f) by (intros f Hf; apply SM; exact Hf).
    set (du := concat (vzero n :: forward s x v None fs (q_steps s))).
    assert (Fd : Forall (fun y => length y = n) (vzero n :: forward s x v None fs (q_steps s))) by (constructor; [apply vzero_length|exact Ff]).
    assert (Ld : length du = (length fs * n)%nat). { unfold du. rewrite (concat_length_eq n) by exact Fd. cbn [length]. rewrite Lf, L. reflexivity. }
    pose proof (survey_adj s p x fs Lx SMT du v (q_rx s) WP Ld Lv w Lw) as A. fold n in A.
    unfold jtvec. cbn [arg_model]. assert (EU : rx_unread s (Some x) = false) by (unfold rx_unread; rewrite unread_x; reflexivity). rewrite EU. fold n.
    destruct (survey_adjoint s x fs (length fs * n) w (q_rx s)) as [PTv PTdv]. destruct A as (A1 & A2 & A3).
    assert (Est : match fs with _ :: _ :: _ => assigned (Some x) (Some x) | _ => Some x end = Some x) by (destruct fs as [|? [|? ?]]; reflexivity). rewrite Est.
    rewrite unread_x. cbn [arg_model].
    destruct (parts_ok s (length fs) PTv A1) as (P1 & P2 & P3). fold n in P1, P2, P3.
    destruct su_shape as (f0 & f1 & r & E). destruct (parts s (length fs) PTv) as [|q qs] eqn:EP; [rewrite E in P1; discriminate|]. cbn [tl].
    assert (LQ : length qs = length (q_steps s)) by (cbn in P1; lia).
    pose proof (substitution s p GO x v fs Lv Lx (vzero n) (q_steps s) qs (vzero_length n) LQ L (Forall_inv_tail P2)) as S.
    specialize (S ltac:(intros hn h dt HI; split; [eapply su_good; eassumption|split; [eapply Inv; eassumption|eapply InvT; eassumption]])).
    destruct (backward s x fs (q_steps s) qs) as [mi acc]. destruct S as (S1 & S2 & S3). rewrite dot_zero_r in S3. rewrite <- (fwd_zero v Lv) in S3.
    specialize (P3 (vzero n :: forward s x v None fs (q_steps s)) ltac:(cbn; lia) Fd). cbn [sumdot] in P3. rewrite dot_zero_r, S3 in P3. fold du in P3.
    exists (match PTdv with Some d => vadd acc d | None => acc end). split; [apply jvec_eq|]. split; [reflexivity|].
    assert (EJ : dot w (jdata v) = dot acc v + dot (or0 p PTdv) v). { unfold jdata. fold du. rewrite A3, <- P3. ring. }
    rewrite EJ. destruct PTdv as [d|]; cbn [or0] in *.
    - split; [ln|]. symmetry. apply dot_vadd_l. congruence.
    - split; [exact S2|]. rewrite dot_zero_l. ring.
  Qed.
End Final.

(** ** Fields *)
Lemma step_root_outcome s x hn dt : step_outcome s x hn dt (step_root s x hn dt).
Proof.
  unfold step_root. destruct (nr_terminates (fun h => residual s x hn h dt) (newton_step s x hn dt) (nropt s) hn) as (xs & r & E). rewrite E.
  pose proof (nr_reports _ _ _ _ _ _ E) as H. destruct r; cbn [step_outcome].
  - left. apply H.
  - right. exists xs. destruct H as (A & B & C). auto.
  - apply H.
Qed.
Lemma steps_ok s x : forall dts u l, steps s x (Some u) dts = Ok l -> length l = length dts /\
  forall i, (i < length dts)%nat -> exists hn, nth i (Some u :: l) None = Some hn /\ step_outcome s x hn (nth i dts 0) (nth i l None).
Proof.
  induction dts as [|dt dts IH]; intros u l; cbn [steps].
  - injection 1 as <-. split; [reflexivity|]. cbn. intros; lia.
  - pose proof (step_root_outcome s x u dt) as O. set (u' := step_root s x u dt) in *. destruct (steps s x u' dts) as [r|] eqn:E; cbn [bind]; [|discriminate]. injection 1 as <-.
    destruct dts as [|dt' dts'].
    + cbn [steps] in E. injection E as <-. split; [reflexivity|]. intros [|i] Hi; [|cbn in Hi; lia]. exists u. split; [reflexivity|exact O].
    + destruct u' as [u''|] eqn:EU; [|discriminate]. destruct (IH u'' r E) as [L H]. split; [cbn in *; lia|]. intros [|i] Hi; [exists u; split; [reflexivity|exact O]|].
      destruct (H i ltac:(cbn in *; lia)) as (hn & A & B). exists hn. split; [exact A|exact B].
Qed.
Lemma c63_fields s st m l : snd (fields s st m) = Ok l ->
  needs_model s = (match m with Some _ => true | None => false end) /\ length l = S (length (q_steps s)) /\ hd None l = Some (q_init s) /\
  forall i, (i < length (q_steps s))%nat -> exists hn, nth i l None = Some hn /\ step_outcome s (arg_model m) hn (nth i (q_steps s) 0) (nth (S i) l None).
Proof.
  unfold fields. cbn [snd]. unfold fields_of. destruct (Bool.eqb _ _) eqn:E; [|discriminate]. apply Bool.eqb_prop in E.
  destruct (steps s (arg_model m) (Some (q_init s)) (q_steps s)) as [r|] eqn:ES; cbn [bind]; [|discriminate]. injection 1 as <-.
  destruct (steps_ok _ _ _ _ _ ES) as [L H]. split; [exact E|]. split; [cbn; lia|]. split; [reflexivity|]. intros i Hi. destruct (H i Hi) as (hn & A & B). exists hn. split; assumption.
Qed.
Lemma steps_err s x e : forall dts u, steps s x u dts = Err e -> e = TypeError.
Proof.
  induction dts as [|dt dts IH]; intros u; cbn [steps]; [discriminate|]. destruct u as [u|]; [|injection 1; auto].
  destruct (steps s x (step_root s x u dt) dts) eqn:E; cbn [bind]; [discriminate|]. injection 1 as <-. eapply IH; eassumption.
Qed.
Lemma c63_refuses s st m : (needs_model s <> (match m with Some _ => true | None => false end)) <-> fields s st m = (st, Err AssertionError).
Proof.
  unfold fields, fields_of. destruct (Bool.eqb _ _) eqn:E.
  - apply Bool.eqb_prop in E. split; [intros H; contradiction|]. destruct (steps s (arg_model m) (Some (q_init s)) (q_steps s)) as [r|e] eqn:ES; cbn [bind]; [discriminate|].
    pose proof (steps_err _ _ _ _ _ ES). subst e. discriminate.
  - split; [reflexivity|]. intros _ H. rewrite H in E. rewrite Bool.eqb_reflx in E. discriminate.
Qed.
(** The data computed from scratch do not depend on the history of the simulation. *)
Lemma c63_history s st x fs : q_steps s <> [] -> snd (fields s st (Some x)) = Ok (map Some fs) -> dpred s st (Some x) None = (Some x, Ok (data_of s x fs)).
Proof.
  intros N H. unfold dpred, given. destruct (fields s st (Some x)) as [st' r] eqn:E. cbn [snd] in H. subst r.
  assert (st' = Some x). { unfold fields in E. destruct (q_steps s); [contradiction|]. injection E as <- E. rewrite E. reflexivity. } subst st'.
  assert (A : all_some (map Some fs) = Some fs). { clear. induction fs as [|f l IH]; [reflexivity|]. unfold all_some in *. cbn [map fold_right]. rewrite IH. reflexivity. }
  cbn [bind]. rewrite A. cbn [bind]. unfold rx_unread. rewrite unread_x. reflexivity.
Qed.

(** ** Face conductivities *)
Lemma two_entries_dot n i j w v : (i < n)%nat -> (j < n)%nat -> i <> j -> length v = n -> dot (two_entries n i j w) v = w * nth i v 0 + w * nth j v 0.
Proof.
  intros Hi Hj Hij Lv. unfold two_entries.
  assert (G : forall v b n0 i j, length v = n0 -> i <> j ->
    dot (map (fun k => if (Nat.eqb k i || Nat.eqb k j)%bool then w else 0) (seq b n0)) v =
    w * (if (b <=? i)%nat then nth (i - b) v 0 else 0) + w * (if (b <=? j)%nat then nth (j - b) v 0 else 0)).
  { clear. induction v as [|y v IH]; intros b n0 i j L Hij; destruct n0 as [|n0]; try discriminate.
    - cbn [seq map dot]. destruct (b <=? i)%nat, (b <=? j)%nat; rewrite ?nth_overflow by (cbn; lia); ring.
    - cbn [seq map dot]. rewrite (IH (S b)) by (cbn in L; congruence || lia).
      assert (Q : forall k, (if (b <=? k)%nat then nth (k - b) (y :: v) 0 else 0) = (if Nat.eqb b k then y else 0) + (if (S b <=? k)%nat then nth (k - S b) v 0 else 0)).
      { intros k. destruct (Nat.leb_spec b k), (Nat.eqb_spec b k), (Nat.leb_spec (S b) k); try lia; try ring.
        - subst. rewrite Nat.sub_diag. cbn [nth]. ring.
        - replace (k - b)%nat with (S (k - S b)) by lia. cbn [nth]. ring. }
      rewrite !Q. destruct (Nat.eqb_spec b i), (Nat.eqb_spec b j); cbn [orb]; try congruence; ring. }
  rewrite (G v 0%nat n i j Lv Hij). cbn [Nat.leb]. rewrite !Nat.sub_0_r. ring.
Qed.
Lemma c63_face g K f i j w : (f < length (AV g))%nat -> length K = g_n g -> (i < g_n g)%nat -> (j < g_n g)%nat -> i <> j -> nth f (AV g) [] = two_entries (g_n g) i j w ->
  0 < nth i K 0 -> 0 < nth j K 0 -> 0 < w -> nth f (face_k g K) 0 = harmonic (nth i K 0) (nth j K 0) / (2 * w).
Proof.
  intros Hf LK Hi Hj Hij E Ki Kj Hw. unfold face_k. rewrite (nMap (length (AV g))) by (rewrite ?mv_length; auto). rewrite nth_mv by exact Hf. rewrite E.
  rewrite two_entries_dot by (rewrite ?map_length; auto). rewrite !(nMap (g_n g)) by auto. unfold harmonic. field.
  repeat split; try lra. nra.
Qed.
