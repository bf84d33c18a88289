From Verif Require Import Py Vec VecDeriv Optim SpecOptim.
Local Open Scope R_scope.

Lemma Rleb_iff a b : Rleb a b = true <-> a <= b.
Proof. unfold Rleb; destruct (Rle_dec a b); split; intros; auto; try discriminate; contradiction. Qed.

(** ** check_stoppers *)
Lemma check_stoppers_critical {S} (l : list (stoptype * (S -> bool))) s c :
  In (Critical, c) l -> c s = true -> check_stoppers l s = true.
Proof.
  intros Hin Hc. unfold check_stoppers. apply orb_true_intro; right.
  assert (G : In (c s) (map (fun k => snd k s) (filter (fun k => negb (is_opt (fst k))) l))).
  { apply in_map_iff. exists (Critical, c). split; [reflexivity|]. apply filter_In. split; [assumption|reflexivity]. }
  apply andb_true_intro; split.
  - destruct (map _ _); [destruct G|reflexivity].
  - apply existsb_exists. exists (c s). auto.
Qed.

(** ** Projection *)
Lemma zipw_min f a b : length (zipw f a b) = Nat.min (length a) (length b).
Proof. revert b; induction a as [|x a IH]; intros [|y b]; cbn; auto. Qed.
Lemma bvec_len n B : wf_bounds n B ->
  (forall l, bvec n (b_lower B) = Some l -> length l = n) /\ (forall u, bvec n (b_upper B) = Some u -> length u = n).
Proof. intros (H1 & H2 & _); auto. Qed.
Lemma projection_length B x : wf_bounds (length x) B -> length (projection B x) = length x.
Proof.
  intros (H1 & H2 & _). unfold projection.
  set (x1 := match bvec (length x) (b_lower B) with None => x | Some l => zipw Rmax x l end).
  assert (L : length x1 = length x).
  { unfold x1. destruct (bvec (length x) (b_lower B)) eqn:E; [|reflexivity].
    apply zipw_length. symmetry; apply H1; reflexivity. }
  destruct (bvec (length x) (b_upper B)) eqn:E; [|assumption].
  rewrite zipw_length; [assumption|]. rewrite L. symmetry; apply H2; reflexivity.
Qed.
Definition clip (l u : option R) (x : R) : R :=
  let y := match l with None => x | Some a => Rmax x a end in
  match u with None => y | Some b => Rmin y b end.
Lemma projection_nth B x i : wf_bounds (length x) B -> (i < length x)%nat ->
  nth i (projection B x) 0 = clip (lower_at B (length x) i) (upper_at B (length x) i) (nth i x 0).
Proof.
  intros (H1 & H2 & _) Hi. unfold projection, clip, lower_at, upper_at.
  set (x1 := match bvec (length x) (b_lower B) with None => x | Some l => zipw Rmax x l end).
  assert (L : length x1 = length x).
  { unfold x1. destruct (bvec (length x) (b_lower B)) eqn:E; [|reflexivity].
    apply zipw_length. symmetry; apply H1; reflexivity. }
  assert (N : nth i x1 0 = match option_map (fun l => nth i l 0) (bvec (length x) (b_lower B)) with
                           | None => nth i x 0 | Some a => Rmax (nth i x 0) a end).
  { unfold x1. destruct (bvec (length x) (b_lower B)) eqn:E; cbn; [|reflexivity].
    apply zipw_nth; [assumption|symmetry; apply H1; reflexivity]. }
  destruct (bvec (length x) (b_upper B)) eqn:E; cbn; [|exact N].
  rewrite zipw_nth; [rewrite N; reflexivity|congruence|]. rewrite L; symmetry; apply H2; reflexivity.
Qed.
Ltac minmax := unfold Rmax, Rmin in *; repeat destruct (Rle_dec _ _); try lra.
Definition lu_ok (l u : option R) := forall a b, l = Some a -> u = Some b -> a <= b.
Lemma clip_in l u x : lu_ok l u -> above l (clip l u x) /\ below u (clip l u x).
Proof.
  intros H. unfold clip. destruct l as [a|], u as [b|]; cbn; try (pose proof (H _ _ eq_refl eq_refl));
  split; auto; minmax.
Qed.
Lemma clip_id l u x : above l x -> below u x -> clip l u x = x.
Proof. unfold clip. destruct l, u; cbn; intros; minmax. Qed.
Lemma clip_nonexp l u x y : Rabs (clip l u x - clip l u y) <= Rabs (x - y).
Proof.
  unfold clip. destruct l, u; cbn; minmax;
  unfold Rabs; repeat destruct (Rcase_abs _); lra.
Qed.
Lemma clip_closest l u x y : above l y -> below u y -> Rabs (x - clip l u x) <= Rabs (x - y).
Proof.
  unfold clip. destruct l, u; cbn; intros; minmax;
  unfold Rabs; repeat destruct (Rcase_abs _); lra.
Qed.
(** Moving against the gradient and clipping never climbs. *)
Lemma clip_descent l u x g t : above l x -> below u x -> 0 <= t -> g * (clip l u (x + t * - g) - x) <= 0.
Proof.
  intros Ha Hb Ht. destruct (Rle_or_lt 0 g) as [Hg|Hg].
  - assert (clip l u (x + t * - g) <= x); [|nra].
    assert (x + t * - g <= x) by nra. unfold clip. destruct l, u; cbn in *; minmax.
  - assert (x <= clip l u (x + t * - g)); [|nra].
    assert (x <= x + t * - g) by nra. unfold clip. destruct l, u; cbn in *; minmax.
Qed.
Lemma wf_lu n B i : wf_bounds n B -> (i < n)%nat -> lu_ok (lower_at B n i) (upper_at B n i).
Proof. intros (_ & _ & H) Hi a b Ha Hb. eapply H; eauto. Qed.

Lemma projection_feasible B x : wf_bounds (length x) B -> feasible B (projection B x).
Proof.
  intros W i Hi. rewrite projection_length in * by assumption. rewrite projection_nth by assumption.
  apply clip_in. apply wf_lu; assumption.
Qed.
Lemma projection_id B x : wf_bounds (length x) B -> feasible B x -> projection B x = x.
Proof.
  intros W F. apply vec_ext; [apply projection_length; assumption|]. rewrite projection_length by assumption.
  intros i Hi. rewrite projection_nth by assumption. destruct (F i Hi). apply clip_id; assumption.
Qed.
Lemma projection_idempotent B x : wf_bounds (length x) B -> projection B (projection B x) = projection B x.
Proof.
  intros W. apply projection_id; [rewrite projection_length; assumption|apply projection_feasible; assumption].
Qed.
Lemma dot_self_le a b : length a = length b -> (forall i, (i < length a)%nat -> Rabs (nth i a 0) <= Rabs (nth i b 0)) ->
  dot a a <= dot b b.
Proof.
  revert b; induction a as [|x a IH]; intros [|y b] L H; cbn in *; try lia; try lra.
  assert (H0 := H 0%nat ltac:(lia)). cbn in H0.
  assert (dot a a <= dot b b). { apply IH; [lia|]. intros i Hi. apply (H (S i)); lia. }
  assert (x * x <= y * y); [|lra].
  replace (x * x) with (Rsqr x) by reflexivity. replace (y * y) with (Rsqr y) by reflexivity.
  apply Rsqr_le_abs_1; assumption.
Qed.
Lemma projection_nonexpansive B x y : length x = length y -> wf_bounds (length x) B ->
  norm2 (vsub (projection B x) (projection B y)) <= norm2 (vsub x y).
Proof.
  intros L W. unfold norm2. apply sqrt_le_1_alt.
  assert (W' : wf_bounds (length y) B) by (rewrite <- L; assumption).
  apply dot_self_le.
  - rewrite !vsub_length; rewrite ?projection_length by assumption; auto.
  - rewrite vsub_length by (rewrite !projection_length by assumption; auto).
    rewrite projection_length by assumption. intros i Hi.
    rewrite !nth_vsub by (rewrite ?projection_length by assumption; auto).
    rewrite !projection_nth by (auto; lia). rewrite <- L. apply clip_nonexp.
Qed.
Lemma projection_closest B x y : length x = length y -> wf_bounds (length x) B -> feasible B y ->
  norm2 (vsub x (projection B x)) <= norm2 (vsub x y).
Proof.
  intros L W F. unfold norm2. apply sqrt_le_1_alt.
  apply dot_self_le.
  - rewrite !vsub_length; rewrite ?projection_length by assumption; auto.
  - rewrite vsub_length by (rewrite projection_length by assumption; auto).
    intros i Hi.
    rewrite !nth_vsub by (rewrite ?projection_length by assumption; auto).
    rewrite projection_nth by (auto; lia). destruct (F i) as [Fa Fb]; [lia|]. rewrite <- L in Fa, Fb.
    apply clip_closest; assumption.
Qed.

(** ** Active and binding sets *)
Lemma combine_nth_bool {A B} (a : list A) (b : list B) i da db : length a = length b ->
  nth i (combine a b) (da, db) = (nth i a da, nth i b db).
Proof. intros; apply combine_nth; assumption. Qed.
Lemma orb_vec_nth a b i : length a = length b -> nth i (orb_vec a b) false = nth i a false || nth i b false.
Proof.
  revert b i; induction a as [|x a IH]; intros [|y b] [|i] L; cbn in *; try lia; auto. apply IH; lia.
Qed.
Lemma and_vec_nth a b i : length a = length b -> nth i (and_vec a b) false = nth i a false && nth i b false.
Proof.
  revert b i; induction a as [|x a IH]; intros [|y b] [|i] L; cbn in *; try lia; auto. apply IH; lia.
Qed.
Lemma cmp_vec_nth c a b i : length a = length b -> (i < length a)%nat ->
  nth i (cmp_vec c a b) false = c (nth i a 0) (nth i b 0).
Proof.
  revert b i; induction a as [|x a IH]; intros [|y b] [|i] L Hi; cbn in *; try lia; auto.
  apply IH; lia.
Qed.
Lemma orb_vec_length a b : length a = length b -> length (orb_vec a b) = length a.
Proof. intros L. unfold orb_vec. rewrite map_length, combine_length. lia. Qed.
Lemma and_vec_length a b : length a = length b -> length (and_vec a b) = length a.
Proof. intros L. unfold and_vec. rewrite map_length, combine_length. lia. Qed.
Lemma cmp_vec_length c a b : length a = length b -> length (cmp_vec c a b) = length a.
Proof. intros L. unfold cmp_vec. rewrite map_length, combine_length. lia. Qed.
Lemma nth_repeat_false n i : nth i (repeat false n) false = false.
Proof. revert i; induction n; intros [|i]; cbn; auto. Qed.
Lemma map_nth_bool (f : R -> bool) l i : (i < length l)%nat -> nth i (map f l) false = f (nth i l 0).
Proof. revert i; induction l as [|x l IH]; intros [|i] H; cbn in *; try lia; auto. apply IH; lia. Qed.

Lemma activeSet_length B x : wf_bounds (length x) B -> length (activeSet B x) = length x.
Proof.
  intros (H1 & H2 & _). unfold activeSet.
  assert (G : forall o b, length o = length x -> length b = length x -> length (orb_vec o b) = length x)
    by (intros; rewrite orb_vec_length; congruence).
  assert (C : forall c b, length b = length x -> length (cmp_vec c x b) = length x)
    by (intros; rewrite cmp_vec_length; congruence).
  destruct (bvec (length x) (b_lower B)) as [l|] eqn:El, (bvec (length x) (b_upper B)) as [u|] eqn:Eu;
  rewrite ?repeat_length; auto using repeat_length.
Qed.
Lemma activeSet_iff B x i : wf_bounds (length x) B -> (i < length x)%nat ->
  (nth i (activeSet B x) false = true <-> at_lower B x i \/ at_upper B x i).
Proof.
  intros (H1 & H2 & _) Hi. unfold activeSet, at_lower, at_upper, lower_at, upper_at.
  set (out := match bvec (length x) (b_lower B) with None => repeat false (length x)
              | Some l => orb_vec (repeat false (length x)) (cmp_vec Rleb x l) end).
  assert (Lo : length out = length x).
  { unfold out. destruct (bvec (length x) (b_lower B)) as [l|] eqn:El; rewrite ?repeat_length; auto.
    rewrite orb_vec_length; rewrite repeat_length; auto. rewrite cmp_vec_length; auto. symmetry; apply H1; reflexivity. }
  assert (No : nth i out false = true <-> exists l, option_map (fun l => nth i l 0) (bvec (length x) (b_lower B)) = Some l /\ nth i x 0 <= l).
  { unfold out. destruct (bvec (length x) (b_lower B)) as [l|] eqn:El; cbn.
    - rewrite orb_vec_nth, nth_repeat_false, cmp_vec_nth; cbn.
      + rewrite Rleb_iff. split; [eauto|intros (? & [= <-] & ?); assumption].
      + symmetry; apply H1; reflexivity.
      + assumption.
      + rewrite repeat_length, cmp_vec_length; auto. symmetry; apply H1; reflexivity.
    - rewrite nth_repeat_false. split; [discriminate|intros (? & ? & _); discriminate]. }
  destruct (bvec (length x) (b_upper B)) as [u|] eqn:Eu; cbn.
  - rewrite orb_vec_nth, orb_true_iff, cmp_vec_nth, No; auto.
    + rewrite Rleb_iff. split; (intros [?|?]; [left; assumption|right]); [eauto|].
      destruct H as (? & [= <-] & ?); assumption.
    + symmetry; apply H2; reflexivity.
    + rewrite Lo, cmp_vec_length; auto. symmetry; apply H2; reflexivity.
  - rewrite No. split; [auto|]. intros [?|(? & ? & _)]; [assumption|discriminate].
Qed.
Lemma inactiveSet_iff B x i : wf_bounds (length x) B -> (i < length x)%nat ->
  (nth i (inactiveSet B x) true = true <-> ~ (at_lower B x i \/ at_upper B x i)).
Proof.
  intros W Hi. rewrite <- activeSet_iff by assumption. unfold inactiveSet.
  change true with (negb false) at 1. rewrite map_nth. destruct (nth i (activeSet B x) false); cbn; split; auto; try discriminate;
  intros H; exfalso; apply H; reflexivity.
Qed.
Lemma bindingSet_iff B g x i : wf_bounds (length x) B -> length g = length x -> (i < length x)%nat ->
  (nth i (bindingSet B g x) false = true <->
     (at_lower B x i /\ 0 <= nth i g 0) \/ (at_upper B x i /\ nth i g 0 <= 0)).
Proof.
  intros (H1 & H2 & _) Lg Hi. unfold bindingSet, at_lower, at_upper, lower_at, upper_at.
  set (out := match bvec (length x) (b_lower B) with None => repeat false (length x)
              | Some l => orb_vec (repeat false (length x)) (and_vec (cmp_vec Rleb x l) (map (fun a => Rleb 0 a) g)) end).
  assert (Lo : length out = length x).
  { unfold out. destruct (bvec (length x) (b_lower B)) as [l|] eqn:El; rewrite ?repeat_length; auto.
    pose proof (H1 _ eq_refl) as Hl.
    rewrite orb_vec_length; rewrite repeat_length; auto.
    rewrite and_vec_length; rewrite cmp_vec_length; auto. rewrite map_length; auto. }
  assert (No : nth i out false = true <-> (exists l, option_map (fun l => nth i l 0) (bvec (length x) (b_lower B)) = Some l /\ nth i x 0 <= l) /\ 0 <= nth i g 0).
  { unfold out. destruct (bvec (length x) (b_lower B)) as [l|] eqn:El; cbn.
    - pose proof (H1 _ eq_refl) as Hl.
      rewrite orb_vec_nth, nth_repeat_false, and_vec_nth, cmp_vec_nth, map_nth_bool; cbn; auto; try lia.
      + rewrite andb_true_iff, !Rleb_iff. split; [intros [? ?]; eauto|intros [(? & [= <-] & ?) ?]; auto].
      + rewrite cmp_vec_length, map_length; auto.
      + rewrite repeat_length, and_vec_length; rewrite cmp_vec_length; auto. rewrite map_length; auto.
    - rewrite nth_repeat_false. split; [discriminate|intros [(? & ? & _) _]; discriminate]. }
  destruct (bvec (length x) (b_upper B)) as [u|] eqn:Eu; cbn.
  - pose proof (H2 _ eq_refl) as Hu.
    rewrite orb_vec_nth, orb_true_iff, No, and_vec_nth, cmp_vec_nth, map_nth_bool, andb_true_iff, !Rleb_iff; auto; try lia.
    + split; (intros [?|[? ?]]; [left; assumption|right]); [eauto|].
      destruct H as (? & [= <-] & ?); auto.
    + rewrite cmp_vec_length, map_length; auto.
    + rewrite Lo, and_vec_length; rewrite cmp_vec_length; auto. rewrite map_length; auto.
  - rewrite No. split; [auto|]. intros [?|[(? & ? & _) _]]; [assumption|discriminate].
Qed.
(** When every component is binding, no step against the gradient moves. *)
Lemma all_binding_stationary B g x t : wf_bounds (length x) B -> length g = length x -> feasible B x -> 0 <= t ->
  (forall i, (i < length x)%nat -> nth i (bindingSet B g x) false = true) ->
  projection B (vsub x (vscale t g)) = x.
Proof.
  intros W Lg F Ht Hb.
  assert (Lv : length (vsub x (vscale t g)) = length x) by (apply vsub_length; rewrite vscale_length; congruence).
  apply vec_ext; [rewrite projection_length; rewrite Lv; auto|].
  rewrite projection_length by (rewrite Lv; auto). rewrite Lv. intros i Hi.
  rewrite projection_nth by (rewrite Lv; auto). rewrite Lv.
  rewrite nth_vsub, nth_vscale by (auto; rewrite vscale_length; congruence).
  destruct (F i Hi) as [Fa Fb].
  specialize (Hb i Hi). apply bindingSet_iff in Hb; auto.
  unfold clip. destruct Hb as [[(l & El & Hl) Hg]|[(u & Eu & Hu) Hg]].
  - rewrite El in *. cbn in Fa. assert (0 <= t * nth i g 0) by nra.
    destruct (upper_at B (length x) i); cbn in *; minmax.
  - rewrite Eu in *. cbn in Fb. assert (t * nth i g 0 <= 0) by nra.
    destruct (lower_at B (length x) i); cbn in *; minmax.
Qed.
Lemma dot_nonpos a b : length a = length b -> (forall i, (i < length a)%nat -> nth i a 0 * nth i b 0 <= 0) -> dot a b <= 0.
Proof.
  revert b; induction a as [|x a IH]; intros [|y b] L H; cbn in *; try lia; try lra.
  assert (H0 := H 0%nat ltac:(lia)). cbn in H0.
  assert (dot a b <= 0); [|lra]. apply IH; [lia|]. intros i Hi. apply (H (S i)); lia.
Qed.
Lemma projected_gradient_descends B g x t : wf_bounds (length x) B -> length g = length x -> feasible B x -> 0 <= t ->
  dot g (vsub (projection B (vadd x (vscale t (vopp g)))) x) <= 0.
Proof.
  intros W Lg F Ht.
  assert (Lv : length (vadd x (vscale t (vopp g))) = length x) by (rewrite vadd_length; rewrite ?vscale_length, ?vopp_length; congruence).
  assert (Lp : length (projection B (vadd x (vscale t (vopp g)))) = length x) by (rewrite projection_length; rewrite Lv; auto).
  apply dot_nonpos; [rewrite vsub_length; congruence|]. intros i Hi. rewrite Lg in Hi.
  rewrite nth_vsub by congruence. rewrite projection_nth by (rewrite Lv; auto). rewrite Lv.
  rewrite nth_vadd by (rewrite ?vscale_length, ?vopp_length; congruence). rewrite nth_vscale.
  replace (nth i (vopp g) 0) with (- nth i g 0).
  2: { unfold vopp. rewrite map_nth_lt by lia. reflexivity. }
  destruct (F i Hi). apply clip_descent; assumption.
Qed.

(** ** Line search *)
Section LS.
  Context (phi : vec -> option R) (grad : vec -> vec) (proj : vec -> vec) (o : lsopts)
          (SL : list (stoptype * (lsst -> bool))) (xc g p : vec) (f : option R).
  Notation cand j := (candidate proj (ls_shorten o) xc p j).
  Notation chk j := (check_stoppers SL (ls_state phi grad proj xc g p f j (ls_shorten o ^ j))).
  Lemma ls_loop_spec fuel : forall k xt n xt' k' n',
    ls_loop phi grad proj o SL xc g p f fuel k (ls_shorten o ^ k) xt n = (xt', k', n') ->
    (k <= k' < k + fuel /\ xt' = cand k' /\ chk k' = true /\ (forall i, k <= i < k' -> chk i = false) /\ n' = n + S (k' - k))%nat
    \/ (k' = k + fuel /\ (forall i, k <= i < k' -> chk i = false) /\ n' = n + fuel /\
        xt' = match fuel with O => xt | S _ => cand (k + fuel - 1) end)%nat.
  Proof.
    induction fuel as [|fuel IH]; intros k xt n xt' k' n'; cbn [ls_loop].
    - intros [= <- <- <-]. right. repeat split; try lia.
    - destruct (check_stoppers SL _) eqn:E.
      + intros [= <- <- <-]. left. repeat split; try lia; try assumption.
      + change (ls_shorten o * ls_shorten o ^ k) with (ls_shorten o ^ S k). intros Hl. apply IH in Hl.
        assert (G : forall i, (k <= i < S k)%nat -> chk i = false).
        { intros i Hi. replace i with k by lia. exact E. }
        destruct Hl as [(H1 & H2 & H3 & H4 & H5)|(H1 & H2 & H3 & H4)].
        * left. repeat split; auto; try lia. intros i Hi. destruct (Nat.eq_dec i k); [apply G; lia|apply H4; lia].
        * right. repeat split; auto; try lia.
          -- intros i Hi. destruct (Nat.eq_dec i k); [apply G; lia|apply H2; lia].
          -- rewrite H4. destruct fuel; [replace (k + 1 - 1)%nat with k by lia; reflexivity|f_equal; lia].
  Qed.
  Lemma msd_spec xt pass n : modifySearchDirection phi grad proj o SL xc g p f = Ok (xt, pass, n) ->
    (pass = true /\ exists j, (j < ls_max o)%nat /\ xt = cand j /\ chk j = true /\ (forall i, (i < j)%nat -> chk i = false) /\ n = S j)
    \/ (pass = false /\ (0 < ls_max o)%nat /\ (forall i, (i < ls_max o)%nat -> chk i = false) /\ n = ls_max o /\ xt = cand (ls_max o - 1)).
  Proof.
    unfold modifySearchDirection. destruct (ls_max o) as [|mx] eqn:Em; [discriminate|].
    destruct (ls_loop _ _ _ _ _ _ _ _ _ (S mx) 0 1 [] 0) as [[x k] c] eqn:El. intros [= <- <- <-].
    change 1 with (ls_shorten o ^ 0) in El. apply ls_loop_spec in El.
    destruct El as [(H1 & H2 & H3 & H4 & H5)|(H1 & H2 & H3 & H4)].
    - left. split; [apply Nat.leb_le; lia|]. exists k. repeat split; auto; try lia. intros; apply H4; lia.
    - right. split; [apply Nat.leb_gt; lia|]. split; [lia|]. split; [intros; apply H2; lia|]. split; [lia|].
      cbn in H4. exact H4.
  Qed.
  Lemma msd_ok : (0 < ls_max o)%nat -> exists r, modifySearchDirection phi grad proj o SL xc g p f = Ok r.
  Proof.
    unfold modifySearchDirection. destruct (ls_max o) as [|mx]; [lia|]. intros _.
    destruct (ls_loop _ _ _ _ _ _ _ _ _ (S mx) 0 1 [] 0) as [[x k] c]. eauto.
  Qed.
  Lemma msd_feasible xt pass n : modifySearchDirection phi grad proj o SL xc g p f = Ok (xt, pass, n) ->
    exists j, xt = cand j.
  Proof. intros H. apply msd_spec in H. destruct H as [(_ & j & _ & -> & _)|(_ & _ & _ & _ & ->)]; eauto. Qed.
End LS.

Lemma default_check phi grad proj o w xc g p j : (j < ls_max o)%nat ->
  check_stoppers (default_stoppersLS o w) (ls_state phi grad proj xc g p (phi xc) j (ls_shorten o ^ j)) = true
  <-> armijo phi (ls_reduction o) xc g (candidate proj (ls_shorten o) xc p j) /\
      (w = true -> wolfe_curvature grad (ls_curvature o) xc g (candidate proj (ls_shorten o) xc p j)).
Proof.
  intros Hj. unfold default_stoppersLS, check_stoppers, ls_state, trial.
  change (proj (vadd xc (vscale (ls_shorten o ^ j) p))) with (candidate proj (ls_shorten o) xc p j).
  set (y := candidate _ _ _ _ _).
  assert (A : xle (phi y) (xmap (fun f0 => f0 + ls_reduction o * dot g (vsub y xc)) (phi xc)) = true <->
              armijo phi (ls_reduction o) xc g y).
  { unfold armijo. destruct (phi y) as [fy|], (phi xc) as [fx|]; cbn; try (split; [discriminate|intros (? & ? & ? & ? & _); discriminate]).
    rewrite Rleb_iff. split; [intros; exists fx, fy; auto|intros (? & ? & [= <-] & [= <-] & ?); assumption]. }
  destruct w; cbn; (replace (Nat.leb (ls_max o) j) with false by (symmetry; apply Nat.leb_gt; lia)); cbn;
    rewrite ?orb_false_r, ?andb_true_r.
  - rewrite andb_true_iff, A, Rleb_iff. unfold wolfe_curvature. tauto.
  - rewrite A. split; [intros; split; [assumption|discriminate]|tauto].
Qed.
Lemma ls_success phi grad proj o w xc g p xt n :
  modifySearchDirection phi grad proj o (default_stoppersLS o w) xc g p (phi xc) = Ok (xt, true, n) ->
  exists j, (j < ls_max o)%nat /\ n = S j /\ xt = candidate proj (ls_shorten o) xc p j /\
    armijo phi (ls_reduction o) xc g xt /\
    (w = true -> wolfe_curvature grad (ls_curvature o) xc g xt) /\
    forall i, (i < j)%nat ->
      ~ (armijo phi (ls_reduction o) xc g (candidate proj (ls_shorten o) xc p i) /\
         (w = true -> wolfe_curvature grad (ls_curvature o) xc g (candidate proj (ls_shorten o) xc p i))).
Proof.
  intros H. apply msd_spec in H. destruct H as [(_ & j & Hj & -> & Hc & Hf & ->)|(? & _)]; [|discriminate].
  exists j. apply default_check in Hc; [|assumption]. destruct Hc. repeat split; auto.
  intros i Hi Ha. apply default_check in Ha; [|lia]. rewrite Hf in Ha; [discriminate|assumption].
Qed.
Lemma ls_failure phi grad proj o w xc g p xt n :
  modifySearchDirection phi grad proj o (default_stoppersLS o w) xc g p (phi xc) = Ok (xt, false, n) ->
  n = ls_max o /\ forall i, (i < ls_max o)%nat ->
      ~ (armijo phi (ls_reduction o) xc g (candidate proj (ls_shorten o) xc p i) /\
         (w = true -> wolfe_curvature grad (ls_curvature o) xc g (candidate proj (ls_shorten o) xc p i))).
Proof.
  intros H. apply msd_spec in H. destruct H as [(? & _)|(_ & _ & Hf & -> & _)]; [discriminate|].
  split; [reflexivity|]. intros i Hi Ha. apply default_check in Ha; [|lia]. rewrite Hf in Ha; [discriminate|assumption].
Qed.

(** Smooth descent directions: backtracking finds a step. *)
Lemma vadd_sub_cancel x d : length x = length d -> vsub (vadd x d) x = d.
Proof.
  revert d; induction x as [|a x IH]; intros [|b d] L; cbn in *; try lia; [reflexivity|].
  f_equal; [ring|apply IH; lia].
Qed.
Lemma pow_small r eps : 0 < r < 1 -> 0 < eps -> exists J, forall j, (J <= j)%nat -> r ^ j < eps.
Proof.
  intros [Hr0 Hr1] He. destruct (pow_lt_1_zero r) with (y := eps) as [J HJ]; [rewrite Rabs_pos_eq; lra|assumption|].
  exists J. intros j Hj. specialize (HJ j Hj). rewrite Rabs_pos_eq in HJ; [assumption|]. apply pow_le; lra.
Qed.
Lemma ls_smooth_success (f : vec -> R) grad o xc g p :
  length p = length xc -> length g = length xc ->
  has_gradient (length xc) f xc g -> dot g p < 0 ->
  0 < ls_reduction o < 1 -> 0 < ls_shorten o < 1 ->
  exists J, forall mx, (J < mx)%nat ->
    let o' := mkLs mx (ls_reduction o) (ls_curvature o) (ls_shorten o) in
    exists xt n, modifySearchDirection (fun x => Some (f x)) grad (fun x => x) o' (default_stoppersLS o' false) xc g p (Some (f xc)) = Ok (xt, true, n).
Proof.
  intros Lp Lg [_ Hg] Hd Hc Hs. specialize (Hg p Lp). unfold derivable_pt_lim in Hg.
  assert (He : 0 < (1 - ls_reduction o) * - dot g p) by (apply Rmult_lt_0_compat; lra).
  destruct (Hg _ He) as [[dl Hdl] Hl]. cbn in Hl.
  destruct (pow_small (ls_shorten o) dl Hs Hdl) as [J HJ].
  exists J. intros mx Hmx. cbn zeta. set (o' := mkLs _ _ _ _).
  destruct (msd_ok (fun x => Some (f x)) grad (fun x => x) o' (default_stoppersLS o' false) xc g p (Some (f xc))) as [[[xt pass] n] E]; [cbn; lia|].
  destruct pass; [eauto|]. exfalso.
  apply (ls_failure (fun x => Some (f x))) in E. destruct E as [_ E]. apply (E J); [cbn; lia|]. split; [|discriminate].
  unfold armijo, candidate. cbn [ls_shorten ls_reduction o'].
  set (t := ls_shorten o ^ J). assert (Ht : 0 < t) by (apply pow_lt; lra).
  assert (Htd : t < dl) by (apply HJ; lia).
  eexists _, _. split; [reflexivity|]. split; [reflexivity|].
  rewrite vadd_sub_cancel by (rewrite vscale_length; congruence). rewrite dot_vscale_r.
  specialize (Hl t ltac:(lra)). rewrite Rabs_pos_eq in Hl by lra. specialize (Hl Htd).
  rewrite Rplus_0_l, vscale_0, (vadd_zero_r xc) in Hl by congruence.
  apply Rabs_def2 in Hl. destruct Hl as [Hl _].
  assert ((f (vadd xc (vscale t p)) - f xc) / t < ls_reduction o * dot g p) by lra.
  apply (Rmult_lt_compat_r t) in H; [|assumption]. unfold Rdiv in H. rewrite Rmult_assoc, Rinv_l in H by lra. lra.
Qed.

(** ** Scaling of the step *)
Lemma vmax_spec p mx : vmax p = Some mx -> In mx p /\ forall x, In x p -> x <= mx.
Proof.
  destruct p as [|a p]; [discriminate|]. cbn. intros [= <-].
  assert (G : forall p a, (fold_left Rmax p a = a \/ In (fold_left Rmax p a) p) /\ a <= fold_left Rmax p a /\ forall x, In x p -> x <= fold_left Rmax p a).
  { clear. induction p as [|b p IH]; intros a; cbn; [split; [auto|split; [lra|tauto]]|].
    destruct (IH (Rmax a b)) as (H1 & H2 & H3). split; [|split].
    - destruct H1 as [H1|H1]; [|auto]. rewrite H1. unfold Rmax; destruct (Rle_dec a b); auto.
    - pose proof (Rmax_l a b); lra.
    - intros x [<-|Hx]; [pose proof (Rmax_r a b); lra|auto]. }
  destruct (G p a) as (H1 & H2 & H3). split; [destruct H1 as [->|]; cbn; auto|].
  intros x [<-|Hx]; auto.
Qed.
Lemma scale_is_shrink ms p : (forall s, ms = Some s -> 0 < s) ->
  exists c, 0 < c <= 1 /\ scaleSearchDirection ms p = vscale c p.
Proof.
  intros Hs. unfold scaleSearchDirection. destruct ms as [s|]; [|exists 1; rewrite vscale_1; split; [lra|reflexivity]].
  specialize (Hs s eq_refl).
  destruct (vmax p) as [mx|]; [|exists 1; rewrite vscale_1; split; [lra|reflexivity]].
  destruct (Rlt_dec s (Rabs mx)) as [Hl|]; [|exists 1; rewrite vscale_1; split; [lra|reflexivity]].
  exists (s / Rabs mx). assert (0 < Rabs mx) by lra. split.
  - split; [apply Rdiv_lt_0_compat; lra|]. apply (Rmult_le_reg_r (Rabs mx)); [assumption|].
    unfold Rdiv. rewrite Rmult_assoc, Rinv_l by lra. lra.
  - unfold vscale. apply map_ext. intros; unfold Rdiv; ring.
Qed.
Lemma scale_bounded_above s p : 0 < s ->
  (forall x, In x p -> exists mx, In mx p /\ Rabs x <= mx) ->
  forall x, In x (scaleSearchDirection (Some s) p) -> Rabs x <= s.
Proof.
  intros Hs Hp x. unfold scaleSearchDirection. destruct (vmax p) as [mx|] eqn:E.
  2: { destruct p; [intros []|discriminate]. }
  apply vmax_spec in E. destruct E as [Hin Hmx].
  assert (Hall : forall y, In y p -> Rabs y <= mx).
  { intros y Hy. destruct (Hp y Hy) as (z & Hz & Hyz). specialize (Hmx z Hz). lra. }
  assert (H0 : 0 <= mx). { specialize (Hall mx Hin). pose proof (Rabs_pos mx). lra. }
  rewrite (Rabs_pos_eq mx H0). destruct (Rlt_dec s mx) as [Hl|Hl].
  - intros Hx. apply in_map_iff in Hx. destruct Hx as (y & <- & Hy). specialize (Hall y Hy).
    unfold Rdiv. rewrite !Rabs_mult, (Rabs_pos_eq s) by lra. rewrite (Rabs_pos_eq (/ mx)); [|left; apply Rinv_0_lt_compat; lra].
    apply (Rmult_le_reg_r mx); [lra|]. rewrite Rmult_assoc, Rinv_l by lra. nra.
  - intros Hx. specialize (Hall x Hx). lra.
Qed.
Lemma scale_refuted : exists s p, 0 < s /\ exists x, In x (scaleSearchDirection (Some s) p) /\ s < Rabs x.
Proof.
  exists 2, [-5; 1]. split; [lra|]. exists (-5). cbn.
  replace (Rmax (-5) 1) with 1 by minmax. rewrite (Rabs_pos_eq 1) by lra.
  destruct (Rlt_dec 2 1); [lra|]. split; [cbn; auto|]. rewrite Rabs_left by lra. lra.
Qed.

(** ** The outer loop *)
Section OuterLoop.
  Context {H : Type} (phi : H -> vec -> option R) (grad : H -> vec -> vec)
          (proj : vec -> vec) (o : oopts)
          (stoppers : list (stoptype * (ost -> bool)))
          (stoppersLS : ost -> list (stoptype * (lsst -> bool)))
          (dir : ost -> H -> vec) (hook : ost -> vec -> H -> H * bool).
  Notation run := (loop phi grad proj o stoppers stoppersLS dir hook).
  Notation mini := (minimize phi grad proj o stoppers stoppersLS dir hook).

  Lemma loop_iters : In (st_iteration o) stoppers -> forall fuel s h,
    (o_iter s <= p_maxIter o < o_iter s + fuel)%nat ->
    exists xs r e, run fuel s h = Some (xs, r, e) /\ (length xs <= p_maxIter o - o_iter s)%nat.
  Proof.
    intros Hin. induction fuel as [|fuel IH]; intros s h Hf; [lia|]. cbn [loop o_iter o_xc].
    destruct (check_stoppers stoppers _) eqn:Ec; [do 3 eexists; split; [reflexivity|cbn; lia]|].
    destruct (modifySearchDirection _ _ _ _ _ _ _ _ _) as [[[xt pass] n]|e]; [|do 3 eexists; split; [reflexivity|cbn; lia]].
    destruct (negb pass && p_require_decrease o); [do 3 eexists; split; [reflexivity|cbn; lia]|].
    assert (Hlt : (o_iter s < p_maxIter o)%nat).
    { destruct (Nat.lt_ge_cases (o_iter s) (p_maxIter o)) as [|Hge]; [assumption|].
      rewrite (check_stoppers_critical _ _ _ Hin) in Ec; [discriminate|]. cbn. apply Nat.leb_le; lia. }
    destruct (hook _ _ _) as [h' stop]. destruct stop; [do 3 eexists; split; [reflexivity|cbn; lia]|].
    match goal with |- context [run fuel ?s' h'] => destruct (IH s' h') as (xs & r & e & E & Hl); [cbn; lia|] end.
    rewrite E. do 3 eexists; split; [reflexivity|]. cbn in *. lia.
  Qed.
  Lemma minimize_terminates : In (st_iteration o) stoppers -> forall x0 h,
    exists xs r e, mini (S (p_maxIter o)) x0 h = Some (xs, r, e) /\ (length xs <= p_maxIter o)%nat.
  Proof.
    intros Hin x0 h. unfold minimize. 
    match goal with |- context [run _ ?s' h] => destruct (loop_iters Hin (S (p_maxIter o)) s' h) as (xs & r & e & E & Hl); [cbn; lia|] end.
    exists xs, r, e. split; [exact E|]. cbn in Hl. lia.
  Qed.
  (** More fuel changes nothing. *)
  Lemma loop_fuel fuel : forall fuel' s h R, (fuel <= fuel')%nat -> run fuel s h = Some R -> run fuel' s h = Some R.
  Proof.
    induction fuel as [|fuel IH]; intros fuel' s h R Hle; [discriminate|]. destruct fuel' as [|fuel']; [lia|].
    cbn [loop]. destruct (check_stoppers stoppers _); [auto|].
    destruct (modifySearchDirection _ _ _ _ _ _ _ _ _) as [[[xt pass] n]|e]; [|auto].
    destruct (negb pass && p_require_decrease o); [auto|]. destruct (hook _ _ _) as [h' stop]. destruct stop; [auto|].
    destruct (run fuel _ h') as [R'|] eqn:E; [|discriminate]. rewrite (IH fuel' _ _ _ ltac:(lia) E). auto.
  Qed.
  Lemma last_cons_default {A} (x y : A) l : last (y :: l) x = last l y.
  Proof. revert x y; induction l as [|z l IH]; intros x y; [reflexivity|]. change (last (y :: z :: l) x) with (last (z :: l) x). rewrite !IH. reflexivity. Qed.
  Lemma loop_returns_last fuel : forall s h xs r e, run fuel s h = Some (xs, r, e) -> r = final_point (o_xc s) xs.
  Proof.
    induction fuel as [|fuel IH]; intros s h xs r e; [discriminate|]. cbn [loop o_xc].
    destruct (check_stoppers stoppers _); [intros [= <- <- <-]; reflexivity|].
    destruct (modifySearchDirection _ _ _ _ _ _ _ _ _) as [[[xt pass] n]|er]; [|intros [= <- <- <-]; reflexivity].
    destruct (negb pass && p_require_decrease o); [intros [= <- <- <-]; reflexivity|].
    destruct (hook _ _ _) as [h' stop]. destruct stop; [intros [= <- <- <-]; reflexivity|].
    destruct (run fuel _ h') as [[[xs' r'] e']|] eqn:E; [|discriminate]. intros [= <- <- <-].
    apply IH in E. cbn [o_xc] in E. unfold final_point in *. cbn [map snd]. rewrite last_cons_default. exact E.
  Qed.
  (** Every iterate is a projected point. *)
  Lemma loop_projected fuel : forall s h xs r e, run fuel s h = Some (xs, r, e) ->
    forall hy, In hy xs -> exists s' h' j, snd hy = candidate proj (ls_shorten (p_ls o)) (o_xc s') (scaleSearchDirection (p_maxStep o) (dir s' h')) j.
  Proof.
    induction fuel as [|fuel IH]; intros s h xs r e; [discriminate|]. cbn [loop o_xc].
    destruct (check_stoppers stoppers _); [intros [= <- <- <-] ? []|].
    match goal with |- context [modifySearchDirection _ _ _ _ _ _ _ (scaleSearchDirection _ (dir ?s1 h)) _] => set (s1' := s1) end.
    destruct (modifySearchDirection _ _ _ _ _ _ _ _ _) as [[[xt pass] n]|er] eqn:Em; [|intros [= <- <- <-] ? []].
    apply msd_feasible in Em. destruct Em as [j Ej].
    destruct (negb pass && p_require_decrease o); [intros [= <- <- <-] ? []|].
    destruct (hook _ _ _) as [h' stop]. destruct stop.
    - intros [= <- <- <-] hy [<-|[]]. exists s1', h, j. exact Ej.
    - destruct (run fuel _ h') as [[[xs' r'] e']|] eqn:E; [|discriminate]. intros [= <- <- <-] hy [<-|Hy].
      + exists s1', h, j. exact Ej.
      + eapply IH; eauto.
  Qed.

  (** Decrease, when sufficient decrease at a candidate implies decrease, at points
      satisfying an invariant [good] kept by accepted candidates. *)
  Context (good : vec -> Prop) (wolfe : bool).
  Hypothesis Hls : forall s, stoppersLS s = default_stoppersLS (p_ls o) wolfe.
  Hypothesis Hreq : p_require_decrease o = true.
  Hypothesis Hgood : forall s h j, good (o_xc s) -> o_g s = grad h (o_xc s) ->
    good (candidate proj (ls_shorten (p_ls o)) (o_xc s) (scaleSearchDirection (p_maxStep o) (dir s h)) j).
  Notation cand s h j := (candidate proj (ls_shorten (p_ls o)) (o_xc s) (scaleSearchDirection (p_maxStep o) (dir s h)) j).
  Hypothesis Hacc : forall s h j fx fy, good (o_xc s) -> o_g s = grad h (o_xc s) ->
    phi h (o_xc s) = Some fx -> phi h (cand s h j) = Some fy ->
    fy <= fx + ls_reduction (p_ls o) * dot (o_g s) (vsub (cand s h j) (o_xc s)) -> fy <= fx.
  Lemma loop_decreases_acc fuel : forall s h xs r e, good (o_xc s) -> run fuel s h = Some (xs, r, e) ->
    steps_decrease phi (o_xc s) xs /\ good r.
  Proof.
    induction fuel as [|fuel IH]; intros s h xs r e Hg; [discriminate|]. cbn [loop o_xc o_iter].
    match goal with |- context [check_stoppers stoppers ?s1] => set (s1' := s1) end.
    destruct (check_stoppers stoppers _); [intros [= <- <- <-]; split; [exact I|assumption]|].
    rewrite Hls, Hreq.
    destruct (modifySearchDirection _ _ _ _ _ _ _ _ _) as [[[xt pass] n]|er] eqn:Em; [|intros [= <- <- <-]; split; [exact I|assumption]].
    destruct pass; cbn [negb andb]; [|intros [= <- <- <-]; split; [exact I|assumption]].
    apply ls_success in Em. destruct Em as (j & Hj & _ & Hx & (fx & fy & Ex & Ey & Hle) & _).
    assert (Hs : exists fx fy, phi h (o_xc s) = Some fx /\ phi h xt = Some fy /\ fy <= fx).
    { exists fx, fy. repeat split; auto. apply (Hacc s1' h j fx fy Hg eq_refl Ex).
      - cbn [o_xc s1']. fold s1'. rewrite <- Hx. exact Ey.
      - cbn [o_g o_xc s1']. fold s1'. rewrite <- Hx. exact Hle. }
    assert (Hgt : good xt). { rewrite Hx. apply (Hgood s1' h j Hg eq_refl). }
    destruct (hook _ _ _) as [h' stop]. destruct stop.
    - intros [= <- <- <-]. split; [split; [exact Hs|exact I]|assumption].
    - destruct (run fuel _ h') as [[[xs' r'] e']|] eqn:E; [|discriminate]. intros [= <- <- <-].
      apply IH in E; [|assumption]. cbn [o_xc] in E. destruct E. split; [split; assumption|assumption].
  Qed.
End OuterLoop.

(** Directions along which the realised slope is not positive. *)
Lemma loop_decreases {H} (phi : H -> vec -> option R) grad proj o stoppers stoppersLS dir hook (good : vec -> Prop) wolfe :
  (forall s, stoppersLS s = default_stoppersLS (p_ls o) wolfe) ->
  p_require_decrease o = true -> 0 <= ls_reduction (p_ls o) ->
  (forall s h j, good (o_xc s) -> o_g s = grad h (o_xc s) ->
    good (candidate proj (ls_shorten (p_ls o)) (o_xc s) (scaleSearchDirection (p_maxStep o) (dir s h)) j)) ->
  (forall s h j, good (o_xc s) -> o_g s = grad h (o_xc s) ->
    dot (o_g s) (vsub (candidate proj (ls_shorten (p_ls o)) (o_xc s) (scaleSearchDirection (p_maxStep o) (dir s h)) j) (o_xc s)) <= 0) ->
  forall fuel s h xs r e, good (o_xc s) -> loop phi grad proj o stoppers stoppersLS dir hook fuel s h = Some (xs, r, e) ->
    steps_decrease phi (o_xc s) xs /\ good r.
Proof.
  intros Hls Hreq Hred Hgood Hdesc. apply (loop_decreases_acc phi grad proj o stoppers stoppersLS dir hook good wolfe Hls Hreq Hgood).
  intros s h j fx fy Hg Heq _ _ Hle. specialize (Hdesc s h j Hg Heq). nra.
Qed.
(** Convex objectives: any direction, any projection. *)
Lemma loop_decreases_convex {H} (phi : H -> vec -> option R) grad proj o stoppers stoppersLS dir hook wolfe :
  (forall s, stoppersLS s = default_stoppersLS (p_ls o) wolfe) ->
  p_require_decrease o = true -> 0 <= ls_reduction (p_ls o) < 1 ->
  (forall h x y fx fy, phi h x = Some fx -> phi h y = Some fy -> fx + dot (grad h x) (vsub y x) <= fy) ->
  forall fuel s h xs r e, loop phi grad proj o stoppers stoppersLS dir hook fuel s h = Some (xs, r, e) ->
    steps_decrease phi (o_xc s) xs.
Proof.
  intros Hls Hreq Hred Hconv fuel s h xs r e Hrun.
  refine (proj1 (loop_decreases_acc phi grad proj o stoppers stoppersLS dir hook (fun _ => True) wolfe Hls Hreq _ _ fuel s h xs r e I Hrun)); [auto|].
  intros s' h' j fx fy _ Heq Ex Ey Hle. specialize (Hconv h' _ _ _ _ Ex Ey). rewrite <- Heq in Hconv. nra.
Qed.

(** A fixed objective: the value at the end is at most the value at the start. *)
Lemma steps_decrease_fixed {H} (phi : vec -> option R) x (xs : list (H * vec)) f0 :
  phi x = Some f0 -> steps_decrease (fun _ => phi) x xs ->
  exists f, phi (final_point x xs) = Some f /\ f <= f0.
Proof.
  revert x f0; induction xs as [|[h y] xs IH]; intros x f0 E Hs.
  - exists f0. split; [exact E|lra].
  - destruct Hs as [(fx & fy & Ex & Ey & Hle) Hs]. destruct (IH y fy Ey Hs) as (f & Ef & Hf).
    exists f. unfold final_point in *. cbn [map snd]. rewrite last_cons_default. split; [exact Ef|].
    assert (fx = f0) by congruence. lra.
Qed.

(** Unconstrained minimisers with non-ascent directions. *)
Lemma minimize_unbounded {H} (phi : H -> vec -> option R) grad o stoppers dir hook wolfe n x0 h fuel xs r e :
  length x0 = n ->
  (forall s h, length (o_xc s) = n -> o_g s = grad h (o_xc s) -> length (dir s h) = n /\ dot (o_g s) (dir s h) <= 0) ->
  p_require_decrease o = true -> 0 <= ls_reduction (p_ls o) -> 0 <= ls_shorten (p_ls o) ->
  (forall s, p_maxStep o = Some s -> 0 < s) ->
  minimize phi grad (fun x => x) o stoppers (fun _ => default_stoppersLS (p_ls o) wolfe) dir hook fuel x0 h = Some (xs, r, e) ->
  steps_decrease phi x0 xs.
Proof.
  intros Ln Hdir Hreq Hred Hsh Hms Hrun. unfold minimize in Hrun.
  refine (proj1 (loop_decreases phi grad (fun x => x) o stoppers _ dir hook (fun x => length x = n) wolfe _ Hreq Hred _ _ _ _ _ _ _ _ _ Hrun)); auto.
  - intros s h' j Hg Heq. destruct (Hdir s h' Hg Heq) as [Ld _]. destruct (scale_is_shrink (p_maxStep o) (dir s h') Hms) as (c & Hc & ->).
    unfold candidate. rewrite vadd_length; rewrite ?vscale_length; congruence.
  - intros s h' j Hg Heq. destruct (Hdir s h' Hg Heq) as [Ld Hd]. destruct (scale_is_shrink (p_maxStep o) (dir s h') Hms) as (c & Hc & ->).
    unfold candidate. rewrite vadd_sub_cancel by (rewrite !vscale_length; congruence).
    rewrite !dot_vscale_r. pose proof (pow_le (ls_shorten (p_ls o)) j Hsh). 
    assert (0 <= ls_shorten (p_ls o) ^ j * c) by nra. nra.
Qed.
(** Bounded steepest descent. *)
Lemma minimize_projected_sd {H} (phi : H -> vec -> option R) grad B o stoppers hook wolfe n x0 h fuel xs r e :
  wf_bounds n B -> length x0 = n -> (forall h x, length x = n -> length (grad h x) = n) ->
  p_require_decrease o = true -> 0 <= ls_reduction (p_ls o) -> 0 <= ls_shorten (p_ls o) ->
  (forall s, p_maxStep o = Some s -> 0 < s) ->
  minimize phi grad (projection B) o stoppers (fun _ => default_stoppersLS (p_ls o) wolfe) (fun s _ => vopp (o_g s)) hook fuel x0 h = Some (xs, r, e) ->
  steps_decrease phi (projection B x0) xs /\ feasible B r.
Proof.
  intros W Ln Hgl Hreq Hred Hsh Hms Hrun. unfold minimize in Hrun.
  assert (G : steps_decrease phi (projection B x0) xs /\ (length r = n /\ feasible B r)); [|tauto].
  refine (loop_decreases phi grad (projection B) o stoppers _ _ hook (fun x => length x = n /\ feasible B x) wolfe _ Hreq Hred _ _ _ _ _ _ _ _ _ Hrun); auto.
  - intros s h' j [Hg Hf] Heq. destruct (scale_is_shrink (p_maxStep o) (vopp (o_g s)) Hms) as (c & Hc & ->).
    unfold candidate.
    assert (Lv : length (vadd (o_xc s) (vscale (ls_shorten (p_ls o) ^ j) (vscale c (vopp (o_g s))))) = n).
    { rewrite vadd_length; rewrite ?vscale_length, ?vopp_length; auto. rewrite Heq, Hgl; auto. }
    split; [rewrite projection_length; rewrite Lv; auto|apply projection_feasible; rewrite Lv; auto].
  - intros s h' j [Hg Hf] Heq. destruct (scale_is_shrink (p_maxStep o) (vopp (o_g s)) Hms) as (c & Hc & ->).
    unfold candidate. rewrite vscale_vscale. apply projected_gradient_descends; auto; try congruence.
    + rewrite Heq, Hgl; congruence.
    + pose proof (pow_le (ls_shorten (p_ls o)) j Hsh). nra.
  - cbn. split; [rewrite projection_length; rewrite Ln; auto|apply projection_feasible; rewrite Ln; auto].
Qed.
(** Feasibility of every iterate, whatever the stoppers, options and directions. *)
Lemma minimize_feasible {H} (phi : H -> vec -> option R) grad B o stoppers stoppersLS dir hook n x0 h fuel xs r e :
  wf_bounds n B -> length x0 = n ->
  (forall s h, length (o_xc s) = n -> length (dir s h) = n) ->
  minimize phi grad (projection B) o stoppers stoppersLS dir hook fuel x0 h = Some (xs, r, e) ->
  feasible B r /\ length r = n /\ Forall (fun hy => feasible B (snd hy) /\ length (snd hy) = n) xs.
Proof.
  intros W Ln Hdir. unfold minimize.
  assert (G : forall fuel s h xs r e, length (o_xc s) = n -> feasible B (o_xc s) ->
    loop phi grad (projection B) o stoppers stoppersLS dir hook fuel s h = Some (xs, r, e) ->
    (feasible B r /\ length r = n) /\ Forall (fun hy => feasible B (snd hy) /\ length (snd hy) = n) xs).
  { clear - W Hdir. induction fuel as [|fuel IH]; intros s h xs r e Ls Fs; [discriminate|]. cbn [loop o_xc].
    destruct (check_stoppers stoppers _); [intros [= <- <- <-]; auto|].
    match goal with |- context [modifySearchDirection _ _ _ _ _ _ _ (scaleSearchDirection _ (dir ?s1 h)) _] => set (s1' := s1) end.
    destruct (modifySearchDirection _ _ _ _ _ _ _ _ _) as [[[xt pass] k]|er] eqn:Em; [|intros [= <- <- <-]; auto].
    assert (Ld : length (scaleSearchDirection (p_maxStep o) (dir s1' h)) = n).
    { unfold scaleSearchDirection. pose proof (Hdir s1' h Ls).
      destruct (p_maxStep o); [|auto]. destruct (vmax _); [|auto]. destruct (Rlt_dec _ _); [rewrite map_length|]; auto. }
    apply msd_feasible in Em. destruct Em as [j Ej].
    assert (Fx : feasible B xt /\ length xt = n).
    { rewrite Ej. unfold candidate.
      assert (Lv : length (vadd (o_xc s) (vscale (ls_shorten (p_ls o) ^ j) (scaleSearchDirection (p_maxStep o) (dir s1' h)))) = n)
        by (rewrite vadd_length; rewrite ?vscale_length; congruence).
      split; [apply projection_feasible; rewrite Lv; auto|rewrite projection_length; rewrite Lv; auto]. }
    destruct (negb pass && p_require_decrease o); [intros [= <- <- <-]; auto|].
    destruct (hook _ _ _) as [h' stop]. destruct stop; [intros [= <- <- <-]; auto|].
    destruct (loop _ _ _ _ _ _ _ _ fuel _ h') as [[[xs' r'] e']|] eqn:E; [|discriminate]. intros [= <- <- <-].
    destruct Fx. apply IH in E; auto. destruct E as [? ?]. split; auto. }
  intros Hrun. apply G in Hrun.
  - tauto.
  - cbn. rewrite projection_length; rewrite Ln; auto.
  - cbn. apply projection_feasible; rewrite Ln; auto.
Qed.
