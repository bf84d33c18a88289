(** Proofs about the projected Gauss-Newton-CG direction and the Newton root finder. *)
From Coq Require Import Permutation.
From Verif Require Import Py Vec VecDeriv Optim SpecOptim OptimFacts Gncg SpecGncg CgFacts.
Local Open Scope R_scope.

Lemma mask_length m v : length m = length v -> length (mask m v) = length v.
Proof. intros. unfold mask. rewrite map_length, combine_length. lia. Qed.
Lemma nth_mask m v i : length m = length v -> nth i (mask m v) 0 = if nth i m false then nth i v 0 else 0.
Proof.
  revert v i; induction m as [|b m IH]; intros [|x v] i H; cbn in H; try lia.
  - destruct i; reflexivity.
  - destruct i as [|i]; cbn; [destruct b; reflexivity|]. apply IH. lia.
Qed.
Lemma nth_map_negb l i : (i < length l)%nat -> nth i (map negb l) false = negb (nth i l false).
Proof. intros. rewrite (nth_indep _ false (negb false)) by (rewrite map_length; assumption). apply map_nth. Qed.
Lemma nth_and_vec a b i : length a = length b -> nth i (and_vec a b) false = nth i a false && nth i b false.
Proof.
  revert b i; induction a as [|x a IH]; intros [|y b] i H; cbn in H; try lia; destruct i; cbn; auto.
  apply IH. lia.
Qed.
Lemma nth_vopp v i : nth i (vopp v) 0 = - nth i v 0.
Proof. rewrite vopp_scale, nth_vscale. ring. Qed.
Lemma mask_vadd m u v : length m = length u -> length u = length v -> mask m (vadd u v) = vadd (mask m u) (mask m v).
Proof.
  intros H1 H2. apply vec_ext.
  - rewrite mask_length, !vadd_length, mask_length; rewrite ?mask_length; rewrite ?vadd_length; congruence.
  - intros i _. rewrite nth_vadd', !nth_mask, nth_vadd'; rewrite ?mask_length, ?vadd_length; try congruence.
    destruct (nth i m false); ring.
Qed.
Lemma mask_vscale m c v : length m = length v -> mask m (vscale c v) = vscale c (mask m v).
Proof.
  intros H. apply vec_ext.
  - rewrite vscale_length, !mask_length; rewrite ?vscale_length; congruence.
  - intros i _. rewrite nth_vscale, !nth_mask, nth_vscale by (rewrite ?vscale_length; congruence). destruct (nth i m false); ring.
Qed.
Lemma mask_idem m v : length m = length v -> mask m (mask m v) = mask m v.
Proof.
  intros H. apply vec_ext; [rewrite !mask_length; rewrite ?mask_length; congruence|].
  intros i _. rewrite !nth_mask by (rewrite ?mask_length; congruence). destruct (nth i m false); reflexivity.
Qed.
Lemma dot_mask m u v : length m = length u -> length u = length v -> dot (mask m u) v = dot u (mask m v).
Proof.
  revert u v; induction m as [|b m IH]; intros [|x u] [|y v] H1 H2; cbn in *; try lia; auto.
  unfold mask in IH. rewrite IH by lia. destruct b; ring.
Qed.
Lemma mask_zero m n : length m = n -> mask m (vzero n) = vzero n.
Proof.
  intros H. apply vec_ext; [rewrite mask_length; rewrite ?vzero_length; congruence|].
  intros i _. rewrite nth_mask, nth_zero by (rewrite vzero_length; congruence). destruct (nth i m false); reflexivity.
Qed.

(** The count never exceeds the limit, whatever the operators. *)
Lemma cg_loop_count A M al atol fuel : forall count x r p s x' r' c',
  cg_loop A M al atol fuel count x r p s = (x', r', c') -> (count <= c' <= count + fuel)%nat.
Proof.
  revert al. induction fuel as [|fuel IH]; intros al count x r p s x' r' c'; cbn [cg_loop].
  - intros [= <- <- <-]. lia.
  - destruct (Rlt_dec _ _); [|intros [= <- <- <-]; lia]. intros E. apply IH in E. lia.
Qed.
Lemma cg_loop_length N A M al atol fuel : (forall v, length v = N -> length (A v) = N) -> (forall v, length v = N -> length (M v) = N) ->
  forall count x r p s x' r' c', length x = N -> length r = N -> length p = N ->
  cg_loop A M al atol fuel count x r p s = (x', r', c') -> length x' = N /\ length r' = N.
Proof.
  intros HA HM. revert al. induction fuel as [|fuel IH]; intros al count x r p s x' r' c' Lx Lr Lp; cbn [cg_loop].
  - intros [= <- <- <-]. auto.
  - destruct (Rlt_dec _ _); [|intros [= <- <- <-]; auto]. intros E. apply IH in E; auto.
    + rewrite vadd_length; rewrite ?vscale_length; congruence.
    + rewrite vsub_length; rewrite ?vscale_length; [congruence|]. rewrite HA; congruence.
    + assert (L' : length (vsub r (vscale (s / dot p (A p)) (A p))) = N)
        by (rewrite vsub_length; rewrite ?vscale_length, ?HA; congruence).
      rewrite vadd_length; rewrite ?vscale_length; rewrite HM; auto. destruct al; congruence.
Qed.
(** Residual bookkeeping needs only linearity of [A]: it holds even when the
    preconditioner is bad or shares memory with the residual. *)
Lemma cg_loop_residual N A M b al atol fuel : (forall v, length v = N -> length (A v) = N) -> (forall v, length v = N -> length (M v) = N) ->
  linear_on N A -> length b = N ->
  forall count x r p s x' r' c', length x = N -> length p = N -> r = vsub b (A x) ->
  cg_loop A M al atol fuel count x r p s = (x', r', c') ->
  r' = vsub b (A x') /\ (norm2 r' <= atol \/ c' = (count + fuel)%nat).
Proof.
  intros HA HM HL Lb. revert al. induction fuel as [|fuel IH]; intros al count x r p s x' r' c' Lx Lp Er; cbn [cg_loop].
  - intros [= <- <- <-]. split; [assumption|right; lia].
  - destruct (Rlt_dec _ _) as [Hn|Hn]; [|intros [= <- <- <-]; split; [assumption|left; lra]]. intros E.
    assert (LAp := HA p Lp). assert (LAx := HA x Lx).
    assert (Lr : length r = N) by (rewrite Er, vsub_length; congruence).
    set (al' := s / dot p (A p)) in *.
    assert (L' : length (vsub r (vscale al' (A p))) = N)
        by (rewrite vsub_length; rewrite ?vscale_length; congruence).
    apply IH in E.
    + destruct E as [E1 E2]. split; [assumption|]. destruct E2; [left; assumption|right; lia].
    + rewrite vadd_length; rewrite ?vscale_length; congruence.
    + rewrite vadd_length; rewrite ?vscale_length; rewrite HM; auto. destruct al; congruence.
    + rewrite HL by assumption. rewrite Er.
      assert (L1 : length (vsub b (A x)) = N) by (rewrite vsub_length; congruence).
      assert (L2 : length (vscale al' (A p)) = N) by (rewrite vscale_length; assumption).
      assert (L3 : length (vadd (A x) (vscale al' (A p))) = N) by (rewrite vadd_length; congruence).
      apply vec_ext; [rewrite !vsub_length; congruence|]. intros i _.
      rewrite !nth_vsub', nth_vadd' by congruence. ring.
Qed.

Section G.
  Context (N : nat) (B : bounds) (o : cgopts) (H : vec -> vec) (xc g : vec).
  Hypothesis WB : wf_bounds (length xc) B.
  Hypothesis Lx : length xc = N.
  Hypothesis Lg : length g = N.
  Hypothesis Hspd : spd N H.
  Notation act := (activeSet B xc).
  Notation ina := (map negb (activeSet B xc)).
  Notation bnd := (bindingSet B g xc).
  Lemma act_len : length act = N. Proof. rewrite activeSet_length; assumption. Qed.
  Lemma ina_len : length ina = N. Proof. rewrite map_length. apply act_len. Qed.
  Lemma bnd_len : length bnd = N.
  Proof.
    destruct WB as (H1 & H2 & _). unfold bindingSet.
    assert (G : forall o b, length o = N -> length b = N -> length (orb_vec o b) = N)
      by (intros; unfold orb_vec; rewrite map_length, combine_length; lia).
    assert (G2 : forall o b, length o = N -> length b = N -> length (and_vec o b) = N)
      by (intros; unfold and_vec; rewrite map_length, combine_length; lia).
    assert (C : forall c b, length b = N -> length (cmp_vec c xc b) = N)
      by (intros; unfold cmp_vec; rewrite map_length, combine_length; lia).
    destruct (bvec (length xc) (b_lower B)) as [l|] eqn:El; destruct (bvec (length xc) (b_upper B)) as [u|] eqn:Eu;
      try specialize (H1 _ eq_refl); try specialize (H2 _ eq_refl);
      repeat first [apply G|apply G2|apply C]; rewrite ?repeat_length, ?map_length; congruence.
  Qed.
  Definition VV (v : vec) : Prop := length v = N /\ mask ina v = v.
  Lemma VV_iff v : length v = N -> (mask ina v = v <-> leaves_bounds_alone B xc v).
  Proof.
    intros Lv. split.
    - intros E i Hi Ho. rewrite <- E, nth_mask by (rewrite ina_len; congruence).
      rewrite nth_map_negb by (rewrite act_len; lia). apply activeSet_iff in Ho; auto. rewrite Ho. reflexivity.
    - intros Hl. apply vec_ext; [apply mask_length; rewrite ina_len; congruence|]. intros i Hi.
      rewrite mask_length in Hi by (rewrite ina_len; congruence).
      rewrite nth_mask, nth_map_negb by (rewrite ?ina_len, ?act_len; lia).
      destruct (nth i act false) eqn:E; cbn; [|reflexivity]. symmetry. apply Hl; [lia|]. apply activeSet_iff; [assumption|lia|assumption].
  Qed.
  Notation A := (fun v => mask ina (H v)).
  Lemma A_length v : length v = N -> length (A v) = N.
  Proof. intros Lv. destruct Hspd as (HL & _). rewrite mask_length; rewrite HL; auto. apply ina_len. Qed.
  Lemma A_linear : linear_on N A.
  Proof.
    intros c u v Lu Lv. destruct Hspd as (HL & HLin & _). rewrite HLin by assumption.
    rewrite mask_vadd, mask_vscale; auto; rewrite ?vscale_length, ?HL; auto; rewrite ina_len; auto.
  Qed.
  Notation b := (mask ina (vopp g)).
  Lemma b_len : length b = N.
  Proof. rewrite mask_length; rewrite vopp_length; [assumption|]. rewrite ina_len; auto. Qed.

  Section WithM.
    Context (M : vec -> vec).
    Hypothesis Mspd : spd N M.
    Hypothesis Msupp : forall v, length v = N -> leaves_bounds_alone B xc v -> leaves_bounds_alone B xc (M v).
    Lemma cg_main step r count : gncg_cg B o H (POp M) xc g = (step, r, count) -> 0 <= cg_rtol o -> 0 <= cg_atol o ->
      VV step /\ r = vsub b (A step) /\ 0 <= dot b step /\ ((0 < count)%nat -> 0 < dot b step) /\
      (count <= cg_maxiter o)%nat /\ (norm2 r <= Rmax (cg_rtol o * norm2 b) (cg_atol o) \/ count = cg_maxiter o) /\
      (count <= N)%nat /\ (count = N -> r = vzero N).
    Proof.
      unfold gncg_cg. cbn [papply pview]. rewrite Lg. intros E Hr Ha.
      destruct Hspd as (HL & HLin & HSym & HPos). destruct Mspd as (ML & MLin & MSym & MPos).
      assert (Atol : 0 <= Rmax (cg_rtol o * norm2 b) (cg_atol o)) by (eapply Rle_trans; [exact Ha|apply Rmax_r]).
      assert (Vb : VV b) by (split; [apply b_len|apply mask_idem; rewrite ina_len, vopp_length; auto]).
      assert (Vz : VV (vzero N)) by (split; [apply vzero_length|apply mask_zero; apply ina_len]).
      assert (Vadd : forall u v, VV u -> VV v -> VV (vadd u v)).
      { intros u v [Lu Eu] [Lv Ev]. split; [rewrite vadd_length; congruence|]. rewrite mask_vadd; [congruence| |congruence]. rewrite ina_len; auto. }
      assert (Vscale : forall c v, VV v -> VV (vscale c v)).
      { intros c v [Lv Ev]. split; [rewrite vscale_length; assumption|]. rewrite mask_vscale; [congruence|]. rewrite ina_len; auto. }
      assert (AV : forall v, VV v -> VV (A v)).
      { intros v [Lv Ev]. split; [apply A_length; assumption|]. apply mask_idem. rewrite ina_len, HL; auto. }
      assert (MV : forall v, VV v -> VV (M v)).
      { intros v [Lv Ev]. split; [apply ML; assumption|]. apply VV_iff; [apply ML; assumption|]. apply Msupp; [assumption|]. apply VV_iff; assumption. }
      assert (DotA : forall u v, VV u -> VV v -> dot u (A v) = dot u (H v)).
      { intros u v [Lu Eu] [Lv Ev]. cbn beta. rewrite <- dot_mask by (rewrite ?ina_len, ?HL; auto; congruence). rewrite Eu. reflexivity. }
      assert (ASym : forall u v, VV u -> VV v -> dot u (A v) = dot v (A u)).
      { intros u v Hu Hv. rewrite !DotA by assumption. apply HSym; [apply Hu|apply Hv]. }
      assert (APos : forall v, VV v -> v <> vzero N -> 0 < dot v (A v)).
      { intros v Hv Hz. rewrite DotA by assumption. apply HPos; [apply Hv|assumption]. }
      assert (ALin : forall c u v, VV u -> VV v -> A (vadd u (vscale c v)) = vadd (A u) (vscale c (A v))).
      { intros c u v [Lu _] [Lv _]. apply A_linear; assumption. }
      assert (MLin' : forall c u v, VV u -> VV v -> M (vadd u (vscale c v)) = vadd (M u) (vscale c (M v))).
      { intros c u v [Lu _] [Lv _]. apply MLin; assumption. }
      assert (MSym' : forall u v, VV u -> VV v -> dot u (M v) = dot v (M u)).
      { intros u v [Lu _] [Lv _]. apply MSym; assumption. }
      assert (MPos' : forall v, VV v -> v <> vzero N -> 0 < dot v (M v)).
      { intros v [Lv _]. apply MPos; assumption. }
      assert (VLen : forall v, VV v -> length v = N) by (intros v [Lv _]; assumption).
      change (papply (POp M)) with M in E.
      pose proof (cg_init N VV A M b VLen Vz AV MV ALin MSym' Vb) as HI.
      destruct (cg_loop_inv N VV A M b VLen Vadd Vscale Vb AV MV ALin MLin' ASym MSym' APos MPos'
                  _ _ Atol _ _ _ _ _ _ _ _ _ HI I (fun q F => match F with end) E)
        as (E1 & E2 & E3 & E4 & E5 & E6 & E7 & P & E8 & E9 & E10 & E11).
      rewrite dot_zero_r in *. cbn in E8.
      pose proof (conj_bound N VV A VLen APos P E9 E10) as HB.
      repeat split; auto; try lia; try apply E1.
      intros Ec. destruct (Forall_Exists_dec (fun x => x = 0) (fun x => Req_EM_T x 0) r) as [Hz|Hz].
      - apply vec_ext; [rewrite vzero_length; apply E2|]. intros i Hi. rewrite nth_zero.
        rewrite Forall_forall in Hz. apply Hz. apply nth_In. assumption.
      - exfalso. assert (Hrn : r <> vzero N).
        { intros ->. apply Exists_exists in Hz as (x & Hx & Hx0). apply Hx0. unfold vzero, vconst in Hx. apply repeat_spec in Hx. assumption. }
        (* r would be an (N+1)-st vector, independent of the conjugate directions *)
        destruct (dependent N (fun v => v) (r :: P)) as (L & HP & (c & p & Hin & Hc) & Hs).
        { intros v [<-|Hv]; [apply E2|]. apply VLen, (E10 v Hv). }
        { cbn. lia. }
        assert (HLV : forall c v, In (c, v) L -> length v = N).
        { intros c' v Hv. assert (Hv' : In v (r :: P)) by (eapply Permutation_in; [symmetry; exact HP|apply in_map_iff; exists (c', v); auto]).
          destruct Hv' as [<-|Hv']; [apply E2|apply VLen, (E10 v Hv')]. }
        assert (Ez : lincomb N L = vzero N).
        { apply vec_ext; [rewrite vzero_length; apply lincomb_length; assumption|]. intros i Hi.
          rewrite lincomb_length in Hi by assumption. rewrite nth_zero, lincomb_nth by assumption. apply (Hs i Hi). }
        assert (HinL : In r (map snd L)) by (eapply Permutation_in; [exact HP|left; reflexivity]).
        apply in_map_iff in HinL as ((c0 & r0) & Er0 & Hin0). cbn in Er0. subst r0.
        apply in_split in Hin0 as (L1 & L2 & ->).
        assert (HP2 : Permutation P (map snd L1 ++ map snd L2)).
        { rewrite map_app in HP. cbn in HP. eapply Permutation_cons_inv. rewrite HP. symmetry. apply Permutation_middle. }
        assert (HinP : forall c' x, In (c', x) (L1 ++ L2) -> In x P).
        { intros c' x Hx. eapply Permutation_in; [symmetry; exact HP2|]. rewrite <- map_app. apply in_map_iff. exists (c', x). auto. }
        assert (G : forall u L0 s, (forall c' x, In (c', x) L0 -> dot u x = 0) ->
           fold_right (fun (cx : R * vec) s => fst cx * dot u (snd cx) + s) s L0 = s).
        { clear. induction L0 as [|[c x] L0 IH]; intros s H; cbn; [reflexivity|].
          rewrite IH, (H c x); [ring|left; reflexivity|intros; eapply H; right; eassumption]. }
        (* the coefficient of r vanishes *)
        assert (Hc0 : c0 = 0).
        { assert (Ed : dot r (lincomb N (L1 ++ (c0, r) :: L2)) = c0 * dot r r).
          { rewrite dot_lincomb by assumption. unfold wsum. rewrite fold_right_app. cbn [fold_right fst snd].
            rewrite !G; [ring| |]; intros c' x Hx; apply E11, (HinP c'), in_or_app; auto. }
          rewrite Ez, dot_zero_r in Ed.
          assert (dot r r <> 0).
          { intros Hz0. apply Hrn. apply dot_self_zero in Hz0. rewrite Hz0. f_equal. apply E2. }
          nra. }
        subst c0.
        assert (Hin' : In (c, p) (L1 ++ L2)).
        { apply in_app_or in Hin as [Hin|[Hin|Hin]]; apply in_or_app; auto. exfalso. injection Hin as <- _. apply Hc; reflexivity. }
        apply in_split in Hin' as (K1 & K2 & EK).
        assert (Hpw : pairwise A (p :: map snd K1 ++ map snd K2)).
        { eapply pairwise_perm; [|exact E9]. rewrite HP2, <- map_app, EK, map_app. cbn. symmetry. apply Permutation_middle. }
        destruct Hpw as [Hpw _].
        assert (E0 : dot (A p) (lincomb N (L1 ++ (0, r) :: L2)) = c * dot (A p) p).
        { rewrite dot_lincomb by assumption.
          transitivity (wsum (dot (A p)) (L1 ++ L2)).
          - unfold wsum. rewrite !fold_right_app. cbn [fold_right fst snd]. f_equal. ring.
          - rewrite EK. unfold wsum. rewrite fold_right_app. cbn [fold_right fst snd].
            rewrite !G; [ring| |]; intros c' x Hx; (destruct (Hpw x) as [_ Ex]; [apply in_or_app; (left + right); apply in_map_iff; exists (c', x); auto|]; rewrite dot_comm; exact Ex). }
        rewrite Ez, dot_zero_r, (dot_comm (A p) p) in E0.
        assert (HpP : In p P) by (apply (HinP c); rewrite EK; apply in_or_app; right; left; reflexivity).
        destruct (E10 p HpP) as [Vp Np]. pose proof (APos p Vp Np). nra.
    Qed.
  End WithM.

  Lemma maxabs_acc l : forall a, a <= fold_left Rmax l a /\ forall x, In x l -> x <= fold_left Rmax l a.
  Proof.
    induction l as [|y l IH]; intros a; cbn; [split; [lra|intros ? []]|].
    destruct (IH (Rmax a y)) as [I1 I2]. pose proof (Rmax_l a y). pose proof (Rmax_r a y).
    split; [lra|]. intros x [<-|Hx]; [lra|apply I2; assumption].
  Qed.
  Lemma maxabs_nonneg v : 0 <= maxabs v.
  Proof. exact (proj1 (maxabs_acc (map Rabs v) 0)). Qed.
  Lemma maxabs_ge v i : (i < length v)%nat -> Rabs (nth i v 0) <= maxabs v.
  Proof. intros Hi. apply (proj2 (maxabs_acc (map Rabs v) 0)). apply in_map, nth_In. assumption. Qed.

  Notation anb := (and_vec act (map negb bnd)).
  Lemma anb_len : length anb = N.
  Proof. unfold and_vec. rewrite map_length, combine_length, map_length, act_len, bnd_len. lia. Qed.

  Section AnyP.
    Context (P : precond).
    Hypothesis PL : forall v, length v = N -> length (papply P v) = N.
    Lemma cg_len step r count : gncg_cg B o H P xc g = (step, r, count) -> length step = N.
    Proof.
      unfold gncg_cg. rewrite Lg. intros E. eapply (cg_loop_length N) in E; [apply E| | | | |].
      - apply A_length.
      - apply PL.
      - apply vzero_length.
      - apply b_len.
      - apply PL, b_len.
    Qed.
    Lemma direction_form step count : gncg_direction B o H P xc g = (step, count) ->
      exists step0 r, gncg_cg B o H P xc g = (step0, r, count) /\
      exists k, 0 <= k /\ (cg_active_scale o < 0 \/ (cg_step_active o = false -> k = 0)) /\
        (0 <= cg_active_scale o -> step = mask (map negb bnd) (vadd step0 (vscale k (mask anb (vopp g))))) /\
        (length step = N) /\ (forall i, nth i bnd false = true -> nth i step 0 = 0).
    Proof.
      unfold gncg_direction. destruct (gncg_cg B o H P xc g) as [[step0 r] c] eqn:E. pose proof (cg_len _ _ _ E) as Ls.
      assert (Lra : length (mask anb (vopp g)) = N) by (rewrite mask_length; rewrite vopp_length; auto; rewrite anb_len; auto).
      assert (Lnb : length (map negb bnd) = N) by (rewrite map_length; apply bnd_len).
      intros [= E1 E2]. subst c. exists step0, r. split; [reflexivity|].
      assert (Emap : forall c, map (fun x => x * maxabs step0 / maxabs (mask anb (vopp g))) c = vscale (maxabs step0 / maxabs (mask anb (vopp g))) c).
      { intros c. apply map_ext. intros a. unfold Rdiv. ring. }
      rewrite Emap, vscale_vscale in E1.
      assert (Zb : forall w, length w = N -> step = mask (map negb bnd) w ->
         length step = N /\ forall i, nth i bnd false = true -> nth i step 0 = 0).
      { intros w Lw ->. split; [rewrite mask_length; congruence|]. intros i Hb. rewrite nth_mask by congruence.
        destruct (le_lt_dec N i) as [Hi|Hi]; [rewrite nth_overflow in Hb by (rewrite bnd_len; lia); discriminate|].
        rewrite nth_map_negb, Hb by (rewrite bnd_len; lia). reflexivity. }
      destruct (cg_step_active o && existsb (fun b => b) anb) eqn:Es.
      - apply andb_true_iff in Es as [Ea Ex]. apply existsb_exists in Ex as (bb & Hbb & Hbt). subst bb.
        assert (L2 : length (vadd step0 (vscale (cg_active_scale o * (maxabs step0 / maxabs (mask anb (vopp g)))) (mask anb (vopp g)))) = N)
          by (rewrite vadd_length; rewrite ?vscale_length; congruence).
        destruct (Zb _ L2 (eq_sym E1)) as [Z1 Z2].
        assert (Hmax : 0 < maxabs (mask anb (vopp g))).
        { destruct (In_nth _ _ false Hbb) as (i & Hi & Ei). rewrite anb_len in Hi.
          pose proof (maxabs_ge (mask anb (vopp g)) i) as Hge. rewrite Lra in Hge. specialize (Hge Hi).
          rewrite nth_mask, Ei in Hge by (rewrite anb_len, vopp_length; auto).
          rewrite nth_and_vec in Ei by (rewrite act_len; auto). apply andb_true_iff in Ei as [Ei1 Ei2].
          rewrite nth_map_negb in Ei2 by (rewrite bnd_len; lia). apply negb_true_iff in Ei2.
          assert (Hg : nth i g 0 <> 0).
          { intros Hg. assert (Hb : nth i bnd false = true); [|congruence].
            apply bindingSet_iff; auto; [congruence|lia|]. apply activeSet_iff in Ei1; auto; [|lia].
            rewrite Hg. destruct Ei1; [left|right]; split; auto; lra. }
          cbn iota in Hge. rewrite nth_vopp in Hge. assert (0 < Rabs (- nth i g 0)) by (apply Rabs_pos_lt; lra). lra. }
        pose proof (maxabs_nonneg step0) as Hm0.
        assert (Hk : 0 <= maxabs step0 / maxabs (mask anb (vopp g))) by (apply Rmult_le_pos; [assumption|apply Rlt_le, Rinv_0_lt_compat; assumption]).
        destruct (Rle_lt_dec 0 (cg_active_scale o)) as [Hs|Hs].
        + exists (cg_active_scale o * (maxabs step0 / maxabs (mask anb (vopp g)))).
          repeat split; auto; [apply Rmult_le_pos; assumption|right; congruence].
        + exists 0. repeat split; auto; try lra.
      - destruct (Zb _ Ls (eq_sym E1)) as [Z1 Z2]. exists 0. repeat split; auto; try lra.
        intros _. rewrite <- E1. f_equal. symmetry.
        replace (vscale 0 (mask anb (vopp g))) with (vzero N); [apply vadd_zero_r; assumption|].
        apply vec_ext; [rewrite vscale_length, vzero_length; auto|]. intros i _. rewrite nth_vscale, nth_zero. ring.
    Qed.
    Lemma direction_count step count : gncg_direction B o H P xc g = (step, count) -> (count <= cg_maxiter o)%nat.
    Proof.
      intros E. destruct (direction_form _ _ E) as (s0 & r & Ec & _). unfold gncg_cg in Ec.
      apply cg_loop_count in Ec. lia.
    Qed.
    Lemma direction_blocked step count : gncg_direction B o H P xc g = (step, count) ->
      forall i, (i < N)%nat -> blocked B xc g i -> nth i step 0 = 0.
    Proof.
      intros E i Hi Hb. destruct (direction_form _ _ E) as (s0 & r & Ec & k & _ & _ & _ & _ & Hz).
      apply Hz. apply bindingSet_iff; auto; lia.
    Qed.
    (** The residual of the reduced Newton system. *)
    Lemma cg_residual step r count : gncg_cg B o H P xc g = (step, r, count) ->
      r = vsub b (A step) /\ (norm2 r <= Rmax (cg_rtol o * norm2 b) (cg_atol o) \/ count = cg_maxiter o).
    Proof.
      unfold gncg_cg. rewrite Lg. intros E. eapply (cg_loop_residual N A (papply P) b) in E; auto.
      - apply A_length.
      - apply A_linear.
      - apply b_len.
      - apply vzero_length.
      - apply PL, b_len.
      - assert (Ez : H (vzero N) = vzero N).
        { destruct Hspd as (HL & HLin & _). pose proof (HLin (-1) (vzero N) (vzero N) (vzero_length N) (vzero_length N)) as E'.
          rewrite vscale_vzero, vadd_zero_r in E' by apply vzero_length. rewrite E'.
          assert (L : length (H (vzero N)) = N) by (apply HL, vzero_length).
          apply vec_ext; [rewrite vadd_length, vzero_length; rewrite ?vscale_length; auto|].
          intros i _. rewrite nth_vadd', nth_vscale, nth_zero by (rewrite vscale_length; reflexivity). ring. }
        rewrite Ez, mask_zero by apply ina_len. rewrite vsub_as_add, vscale_vzero, vadd_zero_r; auto. apply b_len.
    Qed.
  End AnyP.

  Lemma bnd_sub_act i : (i < N)%nat -> nth i bnd false = true -> nth i act false = true.
  Proof.
    intros Hi Hb. apply bindingSet_iff in Hb; [|assumption|congruence|lia]. apply activeSet_iff; auto; [lia|]. destruct Hb as [[Hb _]|[Hb _]]; auto.
  Qed.
  Lemma keep_free v : VV v -> mask (map negb bnd) v = v.
  Proof.
    intros [Lv Ev]. apply vec_ext; [apply mask_length; rewrite map_length, bnd_len; auto|].
    rewrite mask_length by (rewrite map_length, bnd_len; auto). intros i Hi.
    rewrite nth_mask, nth_map_negb by (rewrite ?map_length, bnd_len; lia).
    destruct (nth i bnd false) eqn:Eb; cbn; [|reflexivity].
    rewrite <- Ev, nth_mask, nth_map_negb by (rewrite ?map_length, act_len; lia).
    rewrite bnd_sub_act by (auto; lia). reflexivity.
  Qed.
  Lemma keep_anb : mask (map negb bnd) (mask anb (vopp g)) = mask anb (vopp g).
  Proof.
    assert (Lra : length (mask anb (vopp g)) = N) by (rewrite mask_length; rewrite vopp_length; auto; rewrite anb_len; auto).
    apply vec_ext; [apply mask_length; rewrite map_length, bnd_len; auto|].
    rewrite mask_length by (rewrite map_length, bnd_len; auto). intros i Hi.
    rewrite (nth_mask (map negb bnd)) by (rewrite map_length, bnd_len; auto).
    rewrite nth_mask by (rewrite anb_len, vopp_length; auto).
    rewrite nth_and_vec by (rewrite act_len, map_length, bnd_len; auto).
    destruct (nth i (map negb bnd) false); [reflexivity|]. rewrite andb_false_r. reflexivity.
  Qed.
  Lemma dot_g_mask m : length m = N -> dot g (mask m (vopp g)) = - dot (mask m g) (mask m g).
  Proof.
    intros Lm. rewrite <- dot_mask by (rewrite ?vopp_length; congruence). rewrite dot_vopp_r. f_equal.
    rewrite (dot_mask m g (mask m g)) by (rewrite ?mask_length; congruence). rewrite mask_idem by congruence.
    rewrite dot_mask by congruence. reflexivity.
  Qed.
  Section Desc.
    Context (M : vec -> vec).
    Hypothesis Mspd : spd N M.
    Hypothesis Msupp : forall v, length v = N -> leaves_bounds_alone B xc v -> leaves_bounds_alone B xc (M v).
    Hypothesis Hr : 0 <= cg_rtol o.
    Hypothesis Ha : 0 <= cg_atol o.
    Hypothesis Hsc : 0 <= cg_active_scale o.
    Lemma direction_descent step count : gncg_direction B o H (POp M) xc g = (step, count) ->
      dot g step <= 0 /\ ((0 < count)%nat -> dot g step < 0).
    Proof.
      intros E. destruct Mspd as (ML & _).
      destruct (direction_form (POp M) ML _ _ E) as (s0 & r & Ec & k & Hk & _ & Ef & _). specialize (Ef Hsc).
      destruct (cg_main M Mspd Msupp _ _ _ Ec Hr Ha) as (Vs & _ & Hd & Hd2 & _).
      assert (Lra : length (mask anb (vopp g)) = N) by (rewrite mask_length; rewrite vopp_length; auto; rewrite anb_len; auto).
      assert (Ls : length s0 = N) by apply Vs.
      rewrite mask_vadd, mask_vscale, keep_free, keep_anb in Ef;
        rewrite ?vscale_length, ?map_length, ?bnd_len; auto; try congruence.
      assert (Eg : dot b s0 = - dot g s0).
      { destruct Vs as [_ Ev]. rewrite dot_mask by (rewrite ?vopp_length, ?ina_len; congruence). rewrite Ev. apply dot_vopp_l. }
      rewrite Ef, dot_vadd_r, dot_vscale_r, dot_g_mask by (rewrite ?vscale_length, ?anb_len; congruence).
      assert (0 <= k * dot (mask anb g) (mask anb g)) by (apply Rmult_le_pos; [assumption|apply dot_self_nonneg]).
      split; [lra|]. intros Hc. specialize (Hd2 Hc). lra.
    Qed.
    Lemma count_pos step count : gncg_direction B o H (POp M) xc g = (step, count) ->
      (0 < cg_maxiter o)%nat -> Rmax (cg_rtol o * norm2 b) (cg_atol o) < norm2 b -> (0 < count)%nat.
    Proof.
      intros E Hm Hn. destruct Mspd as (ML & _).
      destruct (direction_form (POp M) ML _ _ E) as (s0 & r & Ec & _). unfold gncg_cg in Ec.
      destruct (cg_maxiter o) as [|m]; [lia|]. cbn [cg_loop] in Ec.
      destruct (Rlt_dec _ _) as [_|Hn']; [|exfalso; apply Hn'; exact Hn].
      apply cg_loop_count in Ec. lia.
    Qed.
    (** With zero tolerances and enough iterations the direction solves the Newton
        system on the free components exactly. *)
    Lemma direction_exact step count : gncg_direction B o H (POp M) xc g = (step, count) ->
      cg_step_active o = false -> cg_rtol o = 0 -> cg_atol o = 0 -> (N <= cg_maxiter o)%nat ->
      leaves_bounds_alone B xc step /\
      forall i, (i < N)%nat -> ~ on_bound B xc i -> nth i (H step) 0 = - nth i g 0.
    Proof.
      intros E Hsa Er0 Ea0 Hm. destruct Mspd as (ML & _).
      destruct (direction_form (POp M) ML _ _ E) as (s0 & r & Ec & k & Hk & Hk0 & Ef & _). specialize (Ef Hsc).
      destruct Hk0 as [Hk0|Hk0]; [lra|]. specialize (Hk0 Hsa). subst k.
      destruct (cg_main M Mspd Msupp _ _ _ Ec Hr Ha) as (Vs & Hres & _ & _ & _ & Hstop & Hcn & Hz).
      assert (Ls : length s0 = N) by apply Vs.
      assert (Lra : length (mask anb (vopp g)) = N) by (rewrite mask_length; rewrite vopp_length; auto; rewrite anb_len; auto).
      assert (Es : step = s0).
      { rewrite Ef, mask_vadd, mask_vscale, keep_free, keep_anb;
          rewrite ?vscale_length, ?map_length, ?bnd_len; auto; try congruence.
        replace (vscale 0 (mask anb (vopp g))) with (vzero N); [apply vadd_zero_r; assumption|].
        apply vec_ext; [rewrite vscale_length, vzero_length; auto|]. intros i _. rewrite nth_vscale, nth_zero. ring. }
      clear Ef. subst s0.
      assert (LA : length (A step) = N) by (apply A_length; assumption).
      assert (Lr : length r = N) by (rewrite Hres, vsub_length; rewrite b_len; auto).
      assert (Hr0 : r = vzero N).
      { destruct (Nat.eq_dec count N) as [|Hc]; [auto|]. destruct Hstop as [Hn|]; [|lia].
        rewrite Er0, Ea0, Rmult_0_l, Rmax_left in Hn by lra.
        unfold norm2 in Hn. pose proof (sqrt_pos (dot r r)). assert (Hz0 : sqrt (dot r r) = 0) by lra.
        apply sqrt_eq_0 in Hz0; [|apply dot_self_nonneg]. apply dot_self_zero in Hz0. congruence. }
      split; [apply VV_iff; [assumption|apply Vs]|].
      intros i Hi Hfree. destruct Hspd as (HL & _).
      assert (E0 : nth i r 0 = 0) by (rewrite Hr0; apply nth_zero).
      rewrite Hres, nth_vsub', !nth_mask in E0 by (rewrite ?vopp_length, ?ina_len, ?HL, ?b_len; auto; rewrite ?A_length; auto).
      rewrite nth_map_negb in E0 by (rewrite act_len; lia).
      destruct (nth i act false) eqn:Eact; [exfalso; apply Hfree; apply activeSet_iff in Eact; auto; lia|].
      cbn [negb] in E0. rewrite nth_vopp in E0. lra.
    Qed.
  End Desc.
End G.

Lemma free_part_mask N B xc v w : wf_bounds (length xc) B -> length xc = N -> length v = N ->
  free_part B xc v w -> mask (map negb (activeSet B xc)) v = w.
Proof.
  intros WB Lx Lv (Lw & Hw). assert (La : length (activeSet B xc) = N) by (rewrite activeSet_length; assumption).
  apply vec_ext; [rewrite mask_length by (rewrite map_length; congruence); congruence|].
  rewrite mask_length by (rewrite map_length; congruence). intros i Hi.
  rewrite nth_mask by (rewrite map_length; congruence). rewrite nth_map_negb by lia.
  destruct (Hw i ltac:(lia)) as [H1 H2]. destruct (nth i (activeSet B xc) false) eqn:E; cbn [negb].
  - symmetry. apply H1. apply activeSet_iff; auto; lia.
  - symmetry. apply H2. intros Ho. apply activeSet_iff in Ho; auto; [congruence|lia].
Qed.
Lemma gncg_descent_strict N B o H xc g M f step count : wf_bounds (length xc) B -> length xc = N -> length g = N -> spd N H ->
  spd N M -> (forall v, length v = N -> leaves_bounds_alone B xc v -> leaves_bounds_alone B xc (M v)) ->
  0 <= cg_rtol o -> 0 <= cg_atol o -> 0 <= cg_active_scale o ->
  gncg_direction B o H (POp M) xc g = (step, count) ->
  dot g step <= 0 /\
  ((0 < cg_maxiter o)%nat -> free_part B xc g f -> cg_rtol o * norm2 f < norm2 f -> cg_atol o < norm2 f -> dot g step < 0).
Proof.
  intros WB Lx Lg HS MS MV Hr Ha Hs E.
  destruct (direction_descent N B o H xc g WB Lx Lg HS M MS MV Hr Ha Hs _ _ E) as [D1 D2]. split; [assumption|].
  intros Hm Hf H1 H2. apply D2. eapply (count_pos N B o H xc g WB Lx Lg HS M MS); [exact E|assumption|].
  replace (norm2 (mask (map negb (activeSet B xc)) (vopp g))) with (norm2 f); [apply Rmax_lub_lt; assumption|].
  assert (La : length (activeSet B xc) = N) by (rewrite activeSet_length; assumption).
  rewrite vopp_scale, mask_vscale, (free_part_mask N B xc g f) by (auto; rewrite map_length; congruence).
  unfold norm2. rewrite dot_vscale_l, dot_vscale_r. f_equal. ring.
Qed.
Lemma gncg_exact N B o H xc g M step count : wf_bounds (length xc) B -> length xc = N -> length g = N -> spd N H ->
  spd N M -> (forall v, length v = N -> leaves_bounds_alone B xc v -> leaves_bounds_alone B xc (M v)) ->
  cg_step_active o = false -> cg_rtol o = 0 -> cg_atol o = 0 -> 0 <= cg_active_scale o -> (N <= cg_maxiter o)%nat ->
  gncg_direction B o H (POp M) xc g = (step, count) ->
  leaves_bounds_alone B xc step /\ forall i, (i < N)%nat -> ~ on_bound B xc i -> nth i (H step) 0 = - nth i g 0.
Proof.
  intros. eapply direction_exact; eauto; lra.
Qed.
(** Residual bound for any preconditioner, shared memory included. *)
Lemma gncg_residual N B o H xc g P step count f : wf_bounds (length xc) B -> length xc = N -> length g = N -> spd N H ->
  (forall v, length v = N -> length (papply P v) = N) ->
  cg_step_active o = false -> 0 <= cg_active_scale o -> (forall i, ~ on_bound B xc i) ->
  gncg_direction B o H P xc g = (step, count) -> (count < cg_maxiter o)%nat ->
  f = g -> norm2 (vadd (H step) f) <= Rmax (cg_rtol o * norm2 f) (cg_atol o).
Proof.
  intros WB Lx Lg HS PL Hsa Hs Hnb E Hc ->.
  destruct (direction_form N B o H xc g WB Lx Lg HS P PL _ _ E) as (s0 & r & Ec & k & _ & Hk & Ef & _).
  specialize (Ef Hs). destruct Hk as [Hk|Hk]; [lra|]. rewrite (Hk Hsa) in Ef.
  pose proof (cg_len N B o H xc g WB Lx Lg HS P PL _ _ _ Ec) as Ls.
  destruct (cg_residual N B o H xc g WB Lx Lg HS P PL _ _ _ Ec) as [Er [Hn|Hn]]; [|lia].
  assert (HL := proj1 HS).
  assert (Hfp : forall v, length v = N -> free_part B xc v v).
  { intros v Lv. split; [congruence|]. intros i Hi. split; [intros Ho; destruct (Hnb i Ho)|reflexivity]. }
  rewrite (free_part_mask N B xc (vopp g) (vopp g) WB Lx) in Er, Hn by (try apply Hfp; rewrite vopp_length; auto).
  rewrite (free_part_mask N B xc (H s0) (H s0) WB Lx) in Er by (try apply Hfp; auto).
  assert (Es : step = s0).
  { rewrite Ef. set (an := and_vec _ _).
    assert (Lan : length (mask an (vopp g)) = N) by (rewrite mask_length; rewrite vopp_length; auto; unfold an; rewrite (anb_len N B xc g); auto).
    replace (vscale 0 (mask an (vopp g))) with (vzero N).
    2:{ apply vec_ext; [rewrite vscale_length, vzero_length; auto|]. intros i _. rewrite nth_vscale, nth_zero. ring. }
    rewrite vadd_zero_r by assumption.
    assert (Lb : length (bindingSet B g xc) = N) by (apply bnd_len; auto).
    apply vec_ext; [apply mask_length; rewrite map_length; congruence|].
    rewrite mask_length by (rewrite map_length; congruence). intros i Hi.
    rewrite nth_mask by (rewrite map_length; congruence). rewrite nth_map_negb by lia.
    destruct (nth i (bindingSet B g xc) false) eqn:Eb; [|reflexivity].
    apply bindingSet_iff in Eb; [|assumption|congruence|lia]. exfalso. apply (Hnb i). destruct Eb as [[? _]|[? _]]; [left|right]; assumption. }
  rewrite Es. clear Ef.
  assert (En : norm2 (vopp g) = norm2 g) by (unfold norm2; rewrite dot_vopp_l, dot_vopp_r; f_equal; ring).
  rewrite En in Hn.
  replace (norm2 (vadd (H s0) g)) with (norm2 r); [exact Hn|].
  rewrite Er. replace (vsub (vopp g) (H s0)) with (vopp (vadd (H s0) g)).
  - unfold norm2. rewrite dot_vopp_l, dot_vopp_r. f_equal. ring.
  - assert (L1 := HL s0 Ls).
    apply vec_ext; [rewrite vopp_length, vadd_length, vsub_length; rewrite ?vopp_length; congruence|].
    intros i _. rewrite nth_vopp, nth_vadd', nth_vsub', nth_vopp by (rewrite ?vopp_length; congruence). ring.
Qed.
