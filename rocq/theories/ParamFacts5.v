(** The spline map. *)
From Coq Require Import Lia Lra.
From Verif Require Import Py Vec VecDeriv Param SpecParam ParamFacts ParamFacts2 ParamFacts3.
Local Open Scope R_scope.

Lemma argmin_pos c best w cs hs : 0 < w -> Forall (fun h => 0 < h) hs -> 0 < argmin_from c best w cs hs.
Proof.
  revert best w hs. induction cs as [|y cs IH]; intros best w [|h hs] W H; cbn; try exact W.
  destruct (Rlt_dec (Rabs (y - c)) best); apply IH; try assumption; try exact (Forall_inv_tail H); exact (Forall_inv H).
Qed.
Lemma fd_step_pos cs hs c : cs <> [] -> length cs = length hs -> Forall (fun h => 0 < h) hs -> 0 < fd_step cs hs c.
Proof.
  intros N L H. destruct cs as [|y cs]; [congruence|]. destruct hs as [|h hs]; [discriminate L|]. cbn.
  pose proof (argmin_pos c (Rabs (y - c)) h cs hs (Forall_inv H) (Forall_inv_tail H)). lra.
Qed.

Definition unit_ (n i : nat) : vec := upd (vzero n) i 1.

Lemma upd_length c i v : (i < length c)%nat -> length (upd c i v) = length c.
Proof. intros H. unfold upd. rewrite app_length. cbn [length]. rewrite firstn_length, skipn_length. lia. Qed.
Lemma upd_nth c i v j : (i < length c)%nat -> nth j (upd c i v) 0 = if Nat.eqb j i then v else nth j c 0.
Proof.
  intros H. unfold upd. assert (L : length (firstn i c) = i) by (rewrite firstn_length; lia).
  destruct (Nat.eqb_spec j i) as [->|N].
  - rewrite app_nth2 by lia. rewrite L, Nat.sub_diag. reflexivity.
  - destruct (Nat.lt_ge_cases j i) as [J|J].
    + rewrite app_nth1 by lia. rewrite <- (firstn_skipn i c) at 2. rewrite app_nth1 by lia. reflexivity.
    + rewrite app_nth2 by lia. rewrite L. destruct (j - i)%nat as [|q] eqn:E; [lia|]. cbn [nth].
      replace j with (S i + q)%nat by lia. rewrite <- (firstn_skipn (S i) c) at 2.
      assert (LL : length (firstn (S i) c) = S i) by (rewrite firstn_length; lia).
      rewrite app_nth2 by lia. rewrite LL. f_equal. lia.
Qed.
Lemma unit_length n i : (i < n)%nat -> length (unit_ n i) = n.
Proof. intros H. unfold unit_. rewrite upd_length; rewrite vzero_length; [reflexivity|exact H]. Qed.

Lemma upd_add c i d : (i < length c)%nat -> upd c i (at_ c i + d) = vadd c (vscale d (unit_ (length c) i)).
Proof.
  intros H. assert (LU := unit_length _ _ H). apply vec_ext.
  - rewrite upd_length by exact H. rewrite vadd_length by (rewrite vscale_length; congruence). reflexivity.
  - intros j Hj. rewrite upd_length in Hj by exact H. rewrite upd_nth by exact H.
    rewrite nth_vadd by (rewrite ?vscale_length; congruence). rewrite nth_vscale. unfold unit_.
    rewrite upd_nth by (rewrite vzero_length; exact H). unfold at_.
    destruct (Nat.eqb_spec j i) as [->|N]; [ring|]. rewrite nth_zero. ring.
Qed.

Section Linear.
Context (n : nat) (F : vec -> R).
Hypothesis HF : forall a b t, length a = n -> length b = n -> F (vadd a (vscale t b)) = F a + t * F b.

Lemma F_zero : F (vzero n) = 0.
Proof.
  pose proof (HF (vzero n) (vzero n) 1 (vzero_length n) (vzero_length n)) as E.
  rewrite vscale_1, vadd_zero_l in E by apply vzero_length. lra.
Qed.

Lemma partial_step h k : length h = n -> (k < n)%nat ->
  firstn (S k) h ++ vzero (n - S k) = vadd (firstn k h ++ vzero (n - k)) (vscale (nth k h 0) (unit_ n k)).
Proof.
  intros Lh Hk. assert (LU := unit_length _ _ Hk).
  assert (L1 : length (firstn k h ++ vzero (n - k)) = n) by (rewrite app_length, firstn_length, vzero_length; lia).
  assert (L2 : length (firstn (S k) h ++ vzero (n - S k)) = n) by (rewrite app_length, firstn_length, vzero_length; lia).
  assert (G : forall q j, (q <= n)%nat -> nth j (firstn q h ++ vzero (n - q)) 0 = if Nat.ltb j q then nth j h 0 else 0).
  { intros q j Hq. assert (Lq : length (firstn q h) = q) by (rewrite firstn_length; lia).
    destruct (Nat.ltb_spec j q).
    - rewrite app_nth1 by lia. rewrite <- (firstn_skipn q h) at 2. rewrite app_nth1 by lia. reflexivity.
    - rewrite app_nth2 by lia. apply nth_zero. }
  apply vec_ext.
  - rewrite vadd_length by (rewrite vscale_length; congruence). congruence.
  - intros j Hj. rewrite nth_vadd by (rewrite ?vscale_length; congruence). rewrite !G by lia.
    rewrite nth_vscale. unfold unit_. rewrite upd_nth by (rewrite vzero_length; exact Hk). rewrite nth_zero.
    destruct (Nat.ltb_spec j (S k)), (Nat.ltb_spec j k), (Nat.eqb_spec j k); subst; try lia; ring.
Qed.

Lemma dot_snoc a b x y : length a = length b -> dot (a ++ [x]) (b ++ [y]) = dot a b + x * y.
Proof. intros L. rewrite dot_app2 by exact L. cbn. ring. Qed.

Lemma F_partial h k : length h = n -> (k <= n)%nat ->
  F (firstn k h ++ vzero (n - k)) = dot (map (fun i => F (unit_ n i)) (seq 0 k)) (firstn k h).
Proof.
  intros Lh. induction k as [|k IH]; intros Hk.
  - cbn [firstn app seq map dot]. rewrite Nat.sub_0_r. apply F_zero.
  - rewrite partial_step by (assumption || lia).
    rewrite HF; [|rewrite app_length, firstn_length, vzero_length; lia|apply unit_length; lia].
    rewrite IH by lia. rewrite seq_S, map_app. cbn [map plus].
    assert (E : firstn (S k) h = firstn k h ++ [nth k h 0]).
    { clear - Lh Hk. revert k Hk. rewrite <- Lh. clear. induction h as [|x h IH]; intros k Hk; cbn in Hk; [lia|].
      destruct k; [reflexivity|]. cbn [firstn nth app]. f_equal. apply IH. lia. }
    rewrite E, dot_snoc by (rewrite map_length, seq_length, firstn_length; lia). ring.
Qed.

Lemma F_dot h : length h = n -> F h = dot (map (fun i => F (unit_ n i)) (seq 0 n)) h.
Proof.
  intros Lh. pose proof (F_partial h n Lh (le_n n)) as E. rewrite Nat.sub_diag in E.
  assert (EF : firstn n h = h) by (rewrite <- Lh; apply firstn_all).
  rewrite EF, app_nil_r in E. exact E.
Qed.

Lemma F_gradient c : length c = n -> has_gradient n F c (map (fun i => F (unit_ n i)) (seq 0 n)).
Proof.
  intros Lc. apply linear_gradient; [rewrite map_length, seq_length; reflexivity|].
  intros t h Lh. rewrite HF by assumption. rewrite (F_dot h Lh). reflexivity.
Qed.

Lemma F_difference c i d : length c = n -> (i < n)%nat -> d <> 0 ->
  (F (upd c i (at_ c i + d)) - F (upd c i (at_ c i - d))) / (2 * d) = F (unit_ n i).
Proof.
  intros Lc Hi Hd. replace (at_ c i - d) with (at_ c i + - d) by ring.
  rewrite !upd_add by congruence. rewrite Lc. rewrite !HF by (try apply unit_length; assumption). field. exact Hd.
Qed.
End Linear.

Lemma spline2_deriv_ok interp n log a centers widths cells m st vs :
  linear_in_values n interp -> length m = (2 + n)%nat ->
  centers <> [] -> length centers = length widths -> Forall (fun h => 0 < h) widths ->
  spline2_transform interp log a cells m = (st, vs) ->
  exists J, spline2_deriv interp log a true centers widths cells st m = Ok J /\ is_mat (length cells) (2 + n) J /\
    has_jacobian (2 + n) (length cells) (fun m' => snd (spline2_transform interp log a cells m')) m (mv J).
Proof.
  intros HL Lm Hc Lw Hw E. unfold spline2_transform in E. injection E as <- _.
  unfold spline2_deriv. eexists. split; [reflexivity|].
  destruct m as [|s1 [|s2 c]]; [discriminate Lm|discriminate Lm|]. cbn in Lm. injection Lm as Lc. cbn [skipn].
  enough (K : rows_are_derivative (2 + n) (fun (q : R * R) m => iface_value log a m (interp (skipn 2 m) (fst q) - snd q))
    (fun q _ => iface_row log a (s1 :: s2 :: c) (interp c (fst q) - snd q)
       (map (fun i => (interp (upd c i (at_ c i + fd_step centers widths (at_ c i))) (fst q) -
          interp (upd c i (at_ c i - fd_step centers widths (at_ c i))) (fst q)) / (2 * fd_step centers widths (at_ c i))) (seq 0 (length c))))
    (s1 :: s2 :: c) cells) by exact K.
  apply cells_jacobian. intros q _.
  apply (iface_gradient log a n (fun c => interp c (fst q))); [exact Lc|].
  rewrite Lc.
  assert (HF : forall a b t, length a = n -> length b = n -> interp (vadd a (vscale t b)) (fst q) = interp a (fst q) + t * interp b (fst q))
    by (intros; apply HL; assumption).
  pose proof (F_gradient n (fun c => interp c (fst q)) HF c Lc) as G.
  erewrite map_ext_in; [exact G|]. intros i Hi. apply in_seq in Hi.
  apply (F_difference n (fun c => interp c (fst q)) HF); [exact Lc|lia|].
  apply Rgt_not_eq. apply fd_step_pos; assumption.
Qed.

Lemma line2_linear : linear_in_values 2 line2.
Proof.
  intros [|a0 [|a1 [|? ?]]] [|b0 [|b1 [|? ?]]] t y La Lb; try discriminate La; try discriminate Lb.
  unfold line2, vadd, vscale. cbn. ring.
Qed.

Lemma unique1 n F m J h v : has_jacobian n 1 F m J -> length h = n ->
  derivable_pt_lim (fun t => nth 0 (F (vadd m (vscale t h))) 0) 0 v -> nth 0 (J h) 0 = v.
Proof. intros H Lh Hv. apply (unique_along n 1 F m J h v 0 H Lh); [lia|exact Hv]. Qed.

Lemma dpl_atan_id : derivable_pt_lim (fun t => atan t * / PI + 1 / 2) 0 (/ PI).
Proof. eapply dpl_eq; [|eapply dpl_plus; [eapply (dpl_mult _ (fun _ => / PI)); [eapply (dpl_atan (fun t => t)); dd|eapply dpl_const]|eapply dpl_const]]. cbv beta. field. apply PI_nz. Qed.

Lemma spline2_x_wrong : exists J, spline2_deriv line2 false 1 false [0] [1] [(0, 0)] (Some [0; 0]) [0; 1; 0; 0] = Ok J /\
  ~ has_jacobian 4 1 (fun m => snd (spline2_transform line2 false 1 [(0, 0)] m)) [0; 1; 0; 0] (mv J).
Proof.
  eexists. split; [reflexivity|]. intros H.
  assert (D : derivable_pt_lim (fun t => nth 0 (snd (spline2_transform line2 false 1 [(0, 0)] (vadd [0; 1; 0; 0] (vscale t [0; 0; 1; 0])))) 0) 0 (/ PI)).
  { eapply dpl_ext; [|exact dpl_atan_id]. intros t. cbn. unfold iface_value, line2, vadd, vscale, at_. cbn.
    match goal with |- _ = _ + _ * (atan ?x / PI + _) => replace x with t by ring end. unfold Rdiv. ring. }
  pose proof (unique1 _ _ _ _ [0; 0; 1; 0] _ H eq_refl D) as E. cbn in E. unfold iface_row, vscale, line2 in E. cbn in E.
  assert (0 < / PI) by (apply Rinv_0_lt_compat, PI_RGT_0). lra.
Qed.

Lemma spline2_stale_wrong : exists m1 m2 J, length m1 = 4%nat /\ length m2 = 4%nat /\
  spline2_deriv line2 false 1 true [0] [1] [(0, 0)] (fst (spline2_transform line2 false 1 [(0, 0)] m1)) m2 = Ok J /\
  ~ has_jacobian 4 1 (fun m => snd (spline2_transform line2 false 1 [(0, 0)] m)) m2 (mv J).
Proof.
  exists [0; 1; 0; 0], [0; 1; 1; 1]. eexists. split; [reflexivity|]. split; [reflexivity|]. split; [reflexivity|]. intros H.
  assert (D : derivable_pt_lim (fun t => nth 0 (snd (spline2_transform line2 false 1 [(0, 0)] (vadd [0; 1; 1; 1] (vscale t [1; 0; 0; 0])))) 0) 0 (1 / 4)).
  { apply (dpl_ext (fun t => t + (1 - t) * (3 / 4))).
    { intros t. cbn. unfold iface_value, line2, vadd, vscale, at_. cbn.
      match goal with |- _ = _ + _ * (atan ?x / PI + _) => replace x with 1 by ring end. rewrite atan_1.
      replace (PI / 4 / PI) with (1 / 4) by (field; apply PI_nz). field. }
    eapply dpl_eq; [|dd]. field. }
  pose proof (unique1 _ _ _ _ [1; 0; 0; 0] _ H eq_refl D) as E. cbn in E. unfold iface_row, vscale, line2, at_ in E. cbn in E.
  replace (1 * (0 + (0 - 0) * 0 - 0)) with 0 in E by ring. rewrite atan_0 in E. unfold Rdiv in E. rewrite Rmult_0_l in E. lra.
Qed.

(** The top columns are zero. *)
Lemma spline3_top_zero interp log a zb zt npts centers widths cells st m J i q : (i < npts)%nat ->
  spline3_deriv interp log a zb zt npts centers widths cells st m = Ok J -> In q J -> nth (2 + npts + i) q 0 = 0.
Proof.
  intros Hi E Hq. unfold spline3_deriv in E. destruct st as [c0|]; [|discriminate E]. injection E as <-.
  apply in_map_iff in Hq. destruct Hq as [[[Y Z] X] [<- _]].
  unfold iface_row. cbn [nth plus]. rewrite nth_vscale.
  match goal with |- context [nth (npts + i) (map ?g ?l) 0] => set (f := g); change l with (seq 0 (2 * npts)) end.
  replace (nth (npts + i) (map f (seq 0 (2 * npts))) 0) with (f (npts + i)%nat).
  2:{ rewrite (nth_indep _ 0 (f 0%nat)) by (rewrite map_length, seq_length; lia). rewrite (map_nth f), seq_nth by lia. reflexivity. }
  unfold f. destruct (Nat.ltb_spec (npts + i) npts); [lia|].
  match goal with |- ?k * ((?x - ?x) / ?d) = 0 => replace (x - x) with 0 by ring end. unfold Rdiv. rewrite Rmult_0_l. apply Rmult_0_r.
Qed.

Lemma spline3_top_wrong : exists m J, length m = 6%nat /\
  spline3_deriv line2 false 1 0 1 2 [0] [1] [(0, 1, 0)] (fst (spline3_transform line2 false 1 0 1 2 [(0, 1, 0)] m)) m = Ok J /\
  ~ has_jacobian 6 1 (fun m => snd (spline3_transform line2 false 1 0 1 2 [(0, 1, 0)] m)) m (mv J).
Proof.
  exists [0; 1; 0; 0; 0; 0].
  destruct (spline3_deriv line2 false 1 0 1 2 [0] [1] [(0, 1, 0)] (fst (spline3_transform line2 false 1 0 1 2 [(0, 1, 0)] [0; 1; 0; 0; 0; 0])) [0; 1; 0; 0; 0; 0]) as [J|] eqn:EJ; [|discriminate EJ].
  exists J. split; [reflexivity|]. split; [reflexivity|]. intros H.
  assert (D : derivable_pt_lim (fun t => nth 0 (snd (spline3_transform line2 false 1 0 1 2 [(0, 1, 0)] (vadd [0; 1; 0; 0; 0; 0] (vscale t [0; 0; 0; 0; 1; 0])))) 0) 0 (/ PI)).
  { eapply dpl_ext; [|exact dpl_atan_id]. intros t. cbn. unfold iface_value, flines, line2, vadd, vscale, at_. cbn.
    match goal with |- _ = _ + _ * (atan ?x / PI + _) => replace x with t by field end. unfold Rdiv. ring. }
  pose proof (unique1 _ _ _ _ [0; 0; 0; 0; 1; 0] _ H eq_refl D) as E.
  assert (0 < / PI) by (apply Rinv_0_lt_compat, PI_RGT_0).
  pose proof (fun q => spline3_top_zero line2 false 1 0 1 2 [0] [1] [(0, 1, 0)] _ [0; 1; 0; 0; 0; 0] J 0 q ltac:(lia) EJ) as Z.
  assert (LJ : exists q, J = [q] /\ length q = 6%nat).
  { unfold spline3_deriv in EJ. cbn [fst spline3_transform] in EJ. injection EJ as <-. eexists. split; [reflexivity|reflexivity]. }
  destruct LJ as [q [-> Lq]]. specialize (Z q (or_introl eq_refl)). clear - Z E Lq H0.
  do 6 (destruct q as [|? q]; [discriminate Lq|]). destruct q; [|discriminate Lq]. cbn in E, Z. lra.
Qed.

Lemma skipn_vadd n a b : skipn n (vadd a b) = vadd (skipn n a) (skipn n b).
Proof. unfold vadd. revert a b. induction n as [|n IH]; intros [|x a] [|y b]; cbn; try reflexivity; [destruct (skipn n a); reflexivity|apply IH]. Qed.
Lemma firstn_vadd n a b : firstn n (vadd a b) = vadd (firstn n a) (firstn n b).
Proof. unfold vadd. revert a b. induction n as [|n IH]; intros [|x a] [|y b]; cbn; try reflexivity. f_equal. apply IH. Qed.
Lemma skipn_vscale n t a : skipn n (vscale t a) = vscale t (skipn n a).
Proof. unfold vscale. apply skipn_map. Qed.
Lemma firstn_vscale n t a : firstn n (vscale t a) = vscale t (firstn n a).
Proof. unfold vscale. apply firstn_map. Qed.

Lemma dot_zeros k a : dot (map (fun _ : nat => 0) k) a = 0.
Proof. revert a. induction k as [|x k IH]; intros [|y a]; cbn; try reflexivity. rewrite IH. ring. Qed.

Lemma firstn_upd n c i v : (i < n)%nat -> (n <= length c)%nat -> firstn n (upd c i v) = upd (firstn n c) i v.
Proof.
  intros Hi Hn.
  assert (L1 : length (firstn n (upd c i v)) = n) by (rewrite firstn_length, upd_length; lia).
  assert (L2 : length (firstn n c) = n) by (rewrite firstn_length; lia).
  apply vec_ext; [rewrite upd_length; lia|]. intros j Hj. rewrite L1 in Hj.
  assert (G : forall l : vec, (n <= length l)%nat -> nth j (firstn n l) 0 = nth j l 0).
  { intros l Hl. rewrite <- (firstn_skipn n l) at 2. rewrite app_nth1; [reflexivity|rewrite firstn_length; lia]. }
  rewrite G by (rewrite upd_length; lia). rewrite !upd_nth by lia. rewrite G by exact Hn. reflexivity.
Qed.

(** Along directions that leave the top values alone the 3-D derivative is right. *)
Lemma spline3_deriv_bottom interp n log a zb zt centers widths cells m st vs :
  linear_in_values n interp -> length m = (2 + 2 * n)%nat -> zb <> zt ->
  centers <> [] -> length centers = length widths -> Forall (fun h => 0 < h) widths ->
  spline3_transform interp log a zb zt n cells m = (st, vs) ->
  exists J, spline3_deriv interp log a zb zt n centers widths cells st m = Ok J /\ is_mat (length cells) (2 + 2 * n) J /\
    forall h, length h = (2 + 2 * n)%nat -> skipn (2 + n) h = vzero n ->
      vderiv (length cells) (fun t => snd (spline3_transform interp log a zb zt n cells (vadd m (vscale t h)))) 0 (mv J h).
Proof.
  intros HL Lm Hz Hc Lw Hw E. unfold spline3_transform in E. injection E as <- _.
  unfold spline3_deriv. eexists. split; [reflexivity|].
  destruct m as [|s1 [|s2 c]]; [discriminate Lm|discriminate Lm|]. cbn in Lm. injection Lm as Lc. cbn [skipn].
  set (w := fun Z => (Z - zb) / (zt - zb)).
  set (row := fun q : R * R * R => let '(Y, Z, X) := q in
    iface_row log a (s1 :: s2 :: c) (flines interp zb zt (firstn n c) (skipn n c) Y Z - X)
      (map (fun i => if Nat.ltb i n then (1 - w Z) * interp (unit_ n i) Y else 0) (seq 0 (2 * n)))).
  assert (LF : length (firstn n c) = n) by (rewrite firstn_length; lia).
  match goal with |- is_mat _ _ ?M /\ _ => assert (EM : M = map row cells) end.
  { apply map_ext. intros [[Y Z] X]. unfold row. f_equal. apply map_ext_in. intros i Hi. apply in_seq in Hi.
    set (dy := fd_step centers widths (at_ c i)).
    assert (Hd : dy <> 0) by (apply Rgt_not_eq, fd_step_pos; assumption).
    destruct (Nat.ltb_spec i n) as [Hin|Hin]; cbv beta iota.
    - rewrite !firstn_upd by lia.
      assert (HF : forall a b t, length a = n -> length b = n -> interp (vadd a (vscale t b)) Y = interp a Y + t * interp b Y)
        by (intros; apply HL; assumption).
      assert (Ea : at_ c i = at_ (firstn n c) i).
      { unfold at_. rewrite <- (firstn_skipn n c) at 1. rewrite app_nth1 by lia. reflexivity. }
      pose proof (F_difference n (fun c => interp c Y) HF (firstn n c) i dy LF Hin Hd) as FD. cbv beta in FD. rewrite <- Ea in FD.
      rewrite <- FD. unfold flines, w. field. split; [exact Hd|lra].
    - unfold Rminus at 1. rewrite Rplus_opp_r. unfold Rdiv. ring. }
  rewrite EM.
  set (cell := fun (q : R * R * R) (m' : vec) => let '(Y, Z, X) := q in
     iface_value log a m' (flines interp zb zt (firstn n (skipn 2 m')) (skipn n c) Y Z - X)).
  assert (K : rows_are_derivative (2 + 2 * n) cell (fun q _ => row q) (s1 :: s2 :: c) cells).
  { apply cells_jacobian. intros [[Y Z] X] _. unfold cell, row.
    apply (iface_gradient log a (2 * n) (fun c' => flines interp zb zt (firstn n c') (skipn n c) Y Z)); [lia|].
    apply linear_gradient; [rewrite map_length, seq_length; reflexivity|].
    intros t h Lh. rewrite firstn_vadd, firstn_vscale.
    assert (LH : length (firstn n h) = n) by (rewrite firstn_length; lia).
    unfold flines. rewrite !HL by assumption.
    assert (HF : forall a b t, length a = n -> length b = n -> interp (vadd a (vscale t b)) Y = interp a Y + t * interp b Y)
      by (intros; apply HL; assumption).
    assert (ED : dot (map (fun i => if Nat.ltb i n then (1 - w Z) * interp (unit_ n i) Y else 0) (seq 0 (2 * n))) h = (1 - w Z) * interp (firstn n h) Y).
    { replace (2 * n)%nat with (n + n)%nat by lia. rewrite seq_app, map_app.
      replace h with (firstn n h ++ skipn n h) at 1 by apply firstn_skipn.
      rewrite dot_app2 by (rewrite map_length, seq_length; congruence).
      rewrite (map_ext_in (fun i => if Nat.ltb i n then (1 - w Z) * interp (unit_ n i) Y else 0) (fun _ => 0) (seq (0 + n) n)).
      2:{ intros i Hi. apply in_seq in Hi. destruct (Nat.ltb_spec i n); [lia|reflexivity]. }
      rewrite dot_zeros, Rplus_0_r.
      rewrite (map_ext_in (fun i => if Nat.ltb i n then (1 - w Z) * interp (unit_ n i) Y else 0) (fun i => (1 - w Z) * interp (unit_ n i) Y) (seq 0 n)).
      2:{ intros i Hi. apply in_seq in Hi. destruct (Nat.ltb_spec i n); [reflexivity|lia]. }
      rewrite <- (map_map (fun i => interp (unit_ n i) Y) (Rmult (1 - w Z))).
      change (map (Rmult (1 - w Z)) ?l) with (vscale (1 - w Z) l). rewrite dot_vscale_l. f_equal. symmetry.
      apply (F_dot n (fun c => interp c Y) HF). exact LH. }
    rewrite ED. unfold w. field. lra. }
  destruct K as [K1 K2]. split; [exact K1|]. intros h Lh Hh.
  specialize (K2 h Lh). eapply vderiv_ext; [|exact K2]. intros t.
  unfold spline3_transform. cbn [snd]. apply map_ext. intros [[Y Z] X]. unfold cell.
  f_equal. f_equal. f_equal. destruct h as [|d1 [|d2 hc]]; [discriminate Lh|discriminate Lh|].
  cbn [skipn plus] in Hh.
  unfold vadd, vscale. cbn [map zipw skipn]. fold (vscale t hc). change (zipw Rplus c (vscale t hc)) with (vadd c (vscale t hc)).
  rewrite skipn_vadd, skipn_vscale, Hh, vscale_vzero, vadd_zero_r by (rewrite skipn_length; lia). reflexivity.
Qed.
