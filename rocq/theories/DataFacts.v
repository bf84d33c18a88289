From Verif Require Import Py Vec Survey SpecSurvey SurveyFacts DataM SpecData.

Section Idx.
  Context {A : Type}.
  Implicit Types d v : list A.


  Lemma slice_get_length d a b : a <= b -> b <= length d -> length (slice_get d (a, b)) = b - a.
  Proof. intros; unfold slice_get; cbn. rewrite firstn_length, skipn_length. lia. Qed.
  Lemma slice_get_app d1 m d2 a b : a = length d1 -> b = length d1 + length m ->
    slice_get (d1 ++ m ++ d2) (a, b) = m.
  Proof.
    intros -> ->. unfold slice_get; cbn.
    rewrite skipn_app, skipn_all, Nat.sub_diag. cbn.
    replace (length d1 + length m - length d1) with (length m) by lia.
    rewrite firstn_app, firstn_all, Nat.sub_diag. cbn. apply app_nil_r.
  Qed.
  Lemma slice_split d a b : a <= b -> b <= length d ->
    d = firstn a d ++ slice_get d (a, b) ++ skipn b d.
  Proof.
    intros. unfold slice_get; cbn. rewrite <- (firstn_skipn a d) at 1. f_equal.
    rewrite <- (firstn_skipn (b - a) (skipn a d)) at 1. f_equal.
    rewrite skipn_skipn. f_equal; lia.
  Qed.

  Lemma put_value_length n v w : put_value n v = Some w -> length w = n.
  Proof.
    unfold put_value. destruct (Nat.eqb (length v) n) eqn:E.
    - injection 1 as <-. apply Nat.eqb_eq; assumption.
    - destruct v as [|x [|y v]]; try discriminate. injection 1 as <-. apply repeat_length.
  Qed.
  Lemma slice_set_eq d a b v : a <= b -> b <= length d ->
    slice_set d (a, b) v = match put_value (b - a) v with
                           | Some w => Ok (firstn a d ++ w ++ skipn b d)
                           | None => Err ValueError end.
  Proof.
    intros H1 H2. unfold slice_set, put_value. rewrite slice_get_length by assumption. cbn [fst].
    replace (a + (b - a)) with b by lia.
    destruct (Nat.eqb (length v) (b - a)); [reflexivity|].
    destruct v as [|x [|y v]]; reflexivity.
  Qed.

  (** Reading an overlapping-free slice after replacing another one. *)
  Lemma get_after_put d a b w a' b' :
    a <= b -> b <= length d -> length w = b - a ->
    (a' <= b')%nat -> (b' <= a \/ b <= a') -> b' <= length d ->
    slice_get (firstn a d ++ w ++ skipn b d) (a', b') = slice_get d (a', b').
  Proof.
    intros H1 H2 Hw H3 H4 H5. unfold slice_get; cbn [fst snd].
    destruct H4 as [H4|H4].
    - rewrite skipn_app, firstn_app.
      rewrite (skipn_length a' (firstn a d)), firstn_length.
      replace (b' - a' - (Nat.min a (length d) - a')) with 0 by lia. cbn [firstn].
      rewrite app_nil_r, skipn_firstn_comm, firstn_firstn. f_equal; lia.
    - f_equal. rewrite skipn_app, firstn_length.
      rewrite (skipn_all2 (firstn a d)) by (rewrite firstn_length; lia). cbn.
      rewrite skipn_app. rewrite (skipn_all2 w) by lia. cbn.
      rewrite skipn_skipn. f_equal; lia.
  Qed.

  Lemma put_length d a b w : a <= b -> b <= length d -> length w = b - a ->
    length (firstn a d ++ w ++ skipn b d) = length d.
  Proof. intros. rewrite !app_length, firstn_length, skipn_length. lia. Qed.

  Lemma slices_disjoint l k k' a b a' b' : accepted l = true ->
    get_slice l k = Ok (a, b) -> get_slice l k' = Ok (a', b') -> k <> k' ->
    b' <= a \/ b <= a' \/ a = b \/ a' = b'.
  Proof.
    intros Ha H H' Hk.
    destruct (slice_bounds _ _ _ _ H) as (B1 & B2 & _).
    destruct (slice_bounds _ _ _ _ H') as (B3 & B4 & _).
    destruct (Nat.le_gt_cases b' a); [auto|]. destruct (Nat.le_gt_cases b a'); [auto|].
    destruct (Nat.eq_dec a b); [auto|]. destruct (Nat.eq_dec a' b'); [auto|].
    exfalso. set (i := Nat.max a a').
    destruct (slices_partition l i Ha) as (k0 & _ & Hu); [subst i; lia|].
    apply Hk. transitivity k0; [symmetry|]; apply Hu.
    - exists a, b; split; [assumption|subst i; lia].
    - exists a', b'; split; [assumption|subst i; lia].
  Qed.

  Lemma setitem_step_spec l d k a b w : accepted l = true -> length d = total_data l ->
    get_slice l k = Ok (a, b) ->
    slice_get (setitem_step l d w) (a, b) = block_write k (b - a) (slice_get d (a, b)) w /\
    length (setitem_step l d w) = length d.
  Proof.
    intros Ha Hl Hk. destruct w as [k' v]. unfold setitem_step, setitem, block_write; cbn [fst snd].
    destruct (get_slice l k') as [[a' b']|e] eqn:Hk'; cbn.
    - destruct (slice_bounds _ _ _ _ Hk) as (B1 & B2 & _).
      destruct (slice_bounds _ _ _ _ Hk') as (B3 & B4 & _).
      rewrite slice_set_eq by lia.
      destruct (pkey_eqb k' k) eqn:E.
      + apply pkey_eqb_ok in E; subst k'. rewrite Hk in Hk'; injection Hk' as <- <-.
        destruct (put_value (b - a) v) as [w|] eqn:P; [|auto].
        pose proof (put_value_length _ _ _ P). split.
        * apply slice_get_app; rewrite firstn_length; lia.
        * apply put_length; lia.
      + destruct (put_value (b' - a') v) as [w|] eqn:P; [|auto].
        pose proof (put_value_length _ _ _ P). split; [|apply put_length; lia].
        assert (k <> k') as Hn.
        { intros ->. rewrite (proj2 (pkey_eqb_ok _ _) eq_refl) in E; discriminate. }
        destruct (slices_disjoint _ _ _ _ _ _ _ Ha Hk Hk' Hn) as [D|[D|[D|D]]].
        * apply get_after_put; lia.
        * apply get_after_put; lia.
        * subst b. unfold slice_get; cbn. rewrite Nat.sub_diag. reflexivity.
        * subst b'. replace (a' - a') with 0 in H by lia. destruct w; [|discriminate]. cbn.
          rewrite firstn_skipn. reflexivity.
    - destruct (pkey_eqb k' k) eqn:E; [|auto].
      apply pkey_eqb_ok in E; subst k'. congruence.
  Qed.

  Lemma setitem_run_spec l d0 ws k v0 : accepted l = true -> length d0 = total_data l ->
    getitem l d0 k = Ok v0 ->
    getitem l (setitem_run l d0 ws) k = Ok (fold_left (block_write k (length v0)) ws v0) /\
    length (setitem_run l d0 ws) = total_data l.
  Proof.
    intros Ha Hl. unfold getitem. destruct (get_slice l k) as [[a b]|e] eqn:Hk; [|discriminate].
    cbn [bind]. intros H; injection H as <-.
    destruct (slice_bounds _ _ _ _ Hk) as (B1 & B2 & _).
    rewrite slice_get_length by lia.
    unfold setitem_run. revert d0 Hl; induction ws as [|w ws IH]; cbn [fold_left]; intros d0 Hl; [auto|].
    destruct (setitem_step_spec l d0 k a b w Ha Hl Hk) as [E1 E2].
    rewrite <- E1. apply IH. congruence.
  Qed.

  (** The flat vector is the concatenation of the blocks, in survey order. *)
  Lemma concat_loop (d : list A) ps1 ps2 : NoDup (map key_of (ps1 ++ ps2)) ->
    psum (ps1 ++ ps2) = length d ->
    concat (map (fun k => match get_slice_loop (ps1 ++ ps2) 0 k with
                          | Some sl => slice_get d sl | None => [] end) (map key_of ps2))
    = skipn (psum ps1) d.
  Proof.
    revert ps1; induction ps2 as [|p ps2 IH]; intros ps1 Hnd Hs.
    - cbn. rewrite app_nil_r in Hs. rewrite skipn_all2; [reflexivity|lia].
    - cbn [map concat]. rewrite loop_hit; cbn [plus].
      + specialize (IH (ps1 ++ [p])). rewrite <- app_assoc in IH. cbn [app] in IH.
        rewrite IH by assumption.
        rewrite (psum_app ps1 [p]).
        assert (psum [p] = rx_nD (snd p)) as E by (upsum; lia). rewrite E.
        unfold slice_get; cbn [fst snd].
        replace (psum ps1 + rx_nD (snd p) - psum ps1) with (rx_nD (snd p)) by lia.
        rewrite <- (firstn_skipn (rx_nD (snd p)) (skipn (psum ps1) d)) at 2.
        rewrite skipn_skipn. do 2 f_equal. lia.
      + rewrite map_app in Hnd; cbn in Hnd. apply NoDup_remove_2 in Hnd.
        rewrite in_app_iff in Hnd; tauto.
  Qed.
  Lemma tovec_concat l d : accepted l = true -> length d = total_data l ->
    mapM (getitem l d) (pair_keys l) = Ok (map (fun k => match get_slice_loop (pairs l) 0 k with
                          | Some sl => slice_get d sl | None => [] end) (pair_keys l)) /\
    concat (map (fun k => match get_slice_loop (pairs l) 0 k with
                          | Some sl => slice_get d sl | None => [] end) (pair_keys l)) = d.
  Proof.
    intros Ha Hl. rewrite pair_keys_eq. split.
    - assert (forall ks, (forall k, In k ks -> In k (map key_of (pairs l))) ->
        mapM (getitem l d) ks = Ok (map (fun k => match get_slice_loop (pairs l) 0 k with
                          | Some sl => slice_get d sl | None => [] end) ks)) as G.
      { induction ks as [|k ks IH]; cbn [mapM map]; intros H; [reflexivity|].
        destruct (member_pair l k) as (a & b & Hk).
        { apply pair_of_survey_keys; apply H; cbn; auto. }
        unfold getitem at 1. rewrite Hk. cbn [bind]. rewrite IH by (intros; apply H; cbn; auto).
        cbn [bind]. unfold get_slice in Hk. destruct (get_slice_loop (pairs l) 0 k); [|discriminate].
        injection Hk as ->. reflexivity. }
      apply G; auto.
    - apply (concat_loop d [] (pairs l)); [apply accepted_nodup; assumption|].
      cbn [app]. rewrite psum_pairs; auto.
  Qed.
  Lemma tovec_blocks l d : accepted l = true -> length d = total_data l ->
    exists bs, mapM (getitem l d) (pair_keys l) = Ok bs /\ concat bs = tovec d.
  Proof.
    intros Ha Hl. destruct (tovec_concat l d Ha Hl). eexists; split; eauto.
  Qed.
  Lemma setitem_foreign l d k v : ~ pair_of_survey l k -> setitem l d k v = Err KeyError /\ getitem l d k = Err KeyError.
  Proof. intros H; unfold setitem, getitem; rewrite foreign_pair by assumption; split; reflexivity. Qed.
  Lemma setitem_badsize l d k v s r : accepted l = true -> length d = total_data l ->
    In s l -> In r (src_rxs s) -> k = (src_id s, rx_id r) ->
    length v <> rx_nD r -> length v <> 1 -> setitem l d k v = Err ValueError.
  Proof.
    intros Ha Hl Hs Hr -> H1 H2.
    apply in_split in Hs. destruct Hs as (l1 & l2 & El). apply in_split in Hr. destruct Hr as (r1 & r2 & Er).
    pose proof (slice_position l l1 s l2 r1 r r2 Ha El Er) as Hp.
    unfold setitem. rewrite Hp. cbn [bind].
    destruct (slice_bounds _ _ _ _ Hp) as (B1 & B2 & _).
    rewrite slice_set_eq by lia. unfold put_value.
    replace (total_data l1 + total_rx r1 + rx_nD r - (total_data l1 + total_rx r1)) with (rx_nD r) by lia.
    rewrite (proj2 (Nat.eqb_neq _ _) H1). destruct v as [|x [|y v]]; cbn in H2; try lia; reflexivity.
  Qed.
  Lemma setitem_fromvec nD d v : length v = nD -> fromvec nD d v = Ok v /\ tovec v = v.
  Proof. intros <-; unfold fromvec. rewrite Nat.eqb_refl; split; reflexivity. Qed.
End Idx.

Local Open Scope R_scope.

Lemma existsb_neg_false w : existsb (fun x => Rltb x 0) w = false <-> Forall (fun x => 0 <= x) w.
Proof.
  induction w as [|x w IH]; cbn; [split; auto|].
  rewrite orb_false_iff, IH. unfold Rltb. split.
  - intros [H1 H2]; constructor; [|assumption]. destruct (Rlt_dec x 0); [discriminate|lra].
  - inversion 1; subst; split; [|assumption]. destruct (Rlt_dec x 0); [lra|reflexivity].
Qed.
Lemma existsb_neg_true w : existsb (fun x => Rltb x 0) w = true <-> Exists (fun x => x < 0) w.
Proof.
  induction w as [|x w IH]; cbn; [split; [discriminate|inversion 1]|].
  rewrite orb_true_iff, IH. unfold Rltb. split.
  - intros [H|H]; [left|right; assumption]. destruct (Rlt_dec x 0); [assumption|discriminate].
  - inversion 1; subst; [left|right; assumption]. destruct (Rlt_dec x 0); [reflexivity|lra].
Qed.
Lemma forall_repeat (P : R -> Prop) x n : P x -> Forall P (repeat x n).
Proof. intros; induction n; cbn; constructor; auto. Qed.

Lemma check_good n v o : check_uncert n v = Ok o -> good_part n o.
Proof.
  unfold check_uncert. destruct v as [|x|w].
  - injection 1 as <-; exact I.
  - destruct (existsb (fun x => Rltb x 0) (repeat x n)) eqn:E; [discriminate|]. injection 1 as <-.
    split; [apply repeat_length|apply existsb_neg_false; assumption].
  - assert (G : forall w', length w' = n ->
       (if existsb (fun x => Rltb x 0) w' then Err ValueError else Ok (Some w')) = Ok o -> good_part n o).
    { intros w' Hl. destruct (existsb (fun x => Rltb x 0) w') eqn:E; [discriminate|]. injection 1 as <-.
      split; [assumption|apply existsb_neg_false; assumption]. }
    destruct w as [|x [|y w]].
    + destruct (Nat.eqb (length (@nil R)) n) eqn:E; [|discriminate].
      apply G. apply Nat.eqb_eq; assumption.
    + apply G, repeat_length.
    + destruct (Nat.eqb (length (x :: y :: w)) n) eqn:E; [|discriminate].
      apply G. apply Nat.eqb_eq; assumption.
Qed.
Lemma check_none n v : check_uncert n v = Ok None -> v = UNone.
Proof.
  unfold check_uncert. destruct v as [|x|[|x [|y w]]]; auto; intros H; exfalso; revert H;
  repeat match goal with |- context [if ?b then _ else _] => destruct b end; discriminate.
Qed.
Lemma check_assigns n v o : assigns n v o -> check_uncert n v = Ok o.
Proof.
  unfold check_uncert. intros H; destruct H as [|x Hx|x Hx|w Hl Hn Hw].
  - reflexivity.
  - rewrite (proj2 (existsb_neg_false _)); [reflexivity|apply forall_repeat; assumption].
  - rewrite (proj2 (existsb_neg_false _)); [reflexivity|apply forall_repeat; assumption].
  - destruct w as [|x [|y w]]; [| cbn in Hn; lia |].
    + rewrite Hl, Nat.eqb_refl. reflexivity.
    + rewrite Hl, Nat.eqb_refl. rewrite (proj2 (existsb_neg_false _)) by assumption. reflexivity.
Qed.
(** For a non-empty survey, accepted assignments are exactly the valid ones. *)
Lemma check_assigns_conv n v o : (0 < n)%nat -> check_uncert n v = Ok o -> assigns n v o.
Proof.
  intros Hn. unfold check_uncert. destruct v as [|x|w].
  - injection 1 as <-; constructor.
  - destruct (existsb (fun x => Rltb x 0) (repeat x n)) eqn:E; [discriminate|]. injection 1 as <-.
    apply existsb_neg_false in E. constructor. destruct n; [lia|]. cbn in E; inversion E; assumption.
  - destruct w as [|x [|y w]].
    + destruct (Nat.eqb (length (@nil R)) n) eqn:E; [|discriminate]. apply Nat.eqb_eq in E. cbn in E; lia.
    + destruct (existsb (fun x => Rltb x 0) (repeat x n)) eqn:E; [discriminate|]. injection 1 as <-.
      apply existsb_neg_false in E. constructor. destruct n; [lia|]. cbn in E; inversion E; assumption.
    + destruct (Nat.eqb (length (x :: y :: w)) n) eqn:El; [|discriminate].
      destruct (existsb (fun x => Rltb x 0) (x :: y :: w)) eqn:E; [discriminate|]. injection 1 as <-.
      apply existsb_neg_false in E. apply Nat.eqb_eq in El. constructor; auto. cbn; lia.
Qed.

Section Unc.
  Context {D : Type} (modulus : D -> R).
  Definition data_wf (d : ddata D) : Prop :=
    length (d_dobs d) = d_nD d /\ good_part (d_nD d) (d_rel d) /\ good_part (d_nD d) (d_floor d).

  Lemma set_rel_wf d v : data_wf d -> data_wf (fst (set_rel d v)) /\ d_nD (fst (set_rel d v)) = d_nD d
    /\ d_dobs (fst (set_rel d v)) = d_dobs d.
  Proof.
    intros (H1 & H2 & H3). unfold set_rel. destruct (check_uncert (d_nD d) v) eqn:E; cbn;
      (split; [|auto]); unfold data_wf; cbn; [|auto].
    split; [assumption|]. split; [|assumption]. eapply check_good; eauto.
  Qed.
  Lemma set_floor_wf d v : data_wf d -> data_wf (fst (set_floor d v)) /\ d_nD (fst (set_floor d v)) = d_nD d
    /\ d_dobs (fst (set_floor d v)) = d_dobs d.
  Proof.
    intros (H1 & H2 & H3). unfold set_floor. destruct (check_uncert (d_nD d) v) eqn:E; cbn;
      (split; [|auto]); unfold data_wf; cbn; [|auto].
    split; [assumption|]. split; [assumption|]. eapply check_good; eauto.
  Qed.
  Lemma set_std_wf d v : data_wf d -> data_wf (fst (set_std d v)) /\ d_nD (fst (set_std d v)) = d_nD d
    /\ d_dobs (fst (set_std d v)) = d_dobs d.
  Proof.
    intros H. unfold set_std.
    pose proof (set_rel_wf d (UVec (vzero (length (d_dobs d)))) H) as (G1 & G2 & G3).
    destruct (set_rel d (UVec (vzero (length (d_dobs d))))) as [d1 [e|]]; cbn in *; [auto|].
    pose proof (set_floor_wf d1 v G1) as (K1 & K2 & K3). split; [assumption|]. split; congruence.
  Qed.
  Lemma step_wf l d o : data_wf d -> data_wf (data_step l d o) /\ d_nD (data_step l d o) = d_nD d.
  Proof.
    intros H. unfold data_step. destruct o as [v|v|v|v|k v].
    - destruct (set_rel_wf d v H) as (?&?&?); auto.
    - destruct (set_floor_wf d v H) as (?&?&?); auto.
    - destruct (set_std_wf d v H) as (?&?&?); auto.
    - unfold set_dobs, fromvec. destruct (Nat.eqb (length v) (d_nD d)) eqn:E; cbn; [|auto].
      split; [|reflexivity]. destruct H as (H1 & H2 & H3). split; [|auto]. cbn. apply Nat.eqb_eq; auto.
    - unfold set_item, setitem. destruct (get_slice l k) as [[a b]|e]; cbn; [|auto].
      destruct (slice_set (d_dobs d) (a, b) v) as [v'|e] eqn:E; cbn; [|auto].
      split; [|reflexivity]. destruct H as (H1 & H2 & H3). split; [|auto]. cbn. rewrite <- H1.
      unfold slice_set in E. cbn [fst] in E.
      set (n := length (slice_get (d_dobs d) (a, b))) in *.
      assert (G : forall w, length w = n ->
        length (firstn a (d_dobs d) ++ w ++ skipn (a + n) (d_dobs d)) = length (d_dobs d)).
      { intros w Hw. rewrite !app_length, firstn_length, skipn_length, Hw.
        subst n. unfold slice_get; cbn. rewrite firstn_length, skipn_length. lia. }
      destruct (Nat.eqb (length v) n) eqn:En.
      + injection E as <-. apply G. apply Nat.eqb_eq; assumption.
      + destruct v as [|x [|y v]]; try discriminate. injection E as <-. apply G, repeat_length.
  Qed.
  Lemma run_wf l d ops : data_wf d -> data_wf (data_run l d ops) /\ d_nD (data_run l d ops) = d_nD d.
  Proof.
    unfold data_run. revert d; induction ops as [|o ops IH]; cbn; intros d H; [auto|].
    destruct (step_wf l d o H) as [H1 H2]. destruct (IH _ H1) as [H3 H4]. split; [assumption|congruence].
  Qed.
  Lemma init_wf nD dobs r f s d : data_init nD dobs r f s = Ok d ->
    data_wf d /\ d_nD d = nD /\ d_dobs d = dobs /\ (d_rel d <> None \/ d_floor d <> None).
  Proof.
    unfold data_init, fromvec. destruct (Nat.eqb (length dobs) nD) eqn:E; [|discriminate]. cbn [bind].
    apply Nat.eqb_eq in E.
    destruct (check_uncert nD r) as [rv|] eqn:Er; [|discriminate]. cbn [bind].
    destruct (check_uncert nD f) as [fv|] eqn:Ef; [|discriminate]. cbn [bind].
    set (d0 := mkData nD dobs rv fv).
    assert (W : data_wf d0).
    { split; [assumption|]. split; [apply (check_good _ _ _ Er)|apply (check_good _ _ _ Ef)]. }
    assert (U : forall u d', (match set_std d0 u with (d', None) => Ok d' | (_, Some e) => Err e end) = Ok d' ->
       data_wf d' /\ d_nD d' = nD /\ d_dobs d' = dobs /\ (d_rel d' <> None \/ d_floor d' <> None)).
    { intros u d'. pose proof (set_std_wf d0 u W) as (W1 & W2 & W3).
      destruct (set_std d0 u) as [d1 [e|]] eqn:Es; [discriminate|]. injection 1 as <-. cbn in *.
      split; [assumption|]. split; [assumption|]. split; [assumption|]. left.
      unfold set_std, set_rel in Es.
      destruct (check_uncert (d_nD d0) (UVec (vzero (length (d_dobs d0))))) as [o|] eqn:Ec; [|discriminate].
      unfold set_floor in Es. cbn in Es.
      destruct (check_uncert nD u); [|discriminate]. injection Es as <-. cbn.
      intros ->. apply check_none in Ec. discriminate. }
    destruct s as [|x|w]; cbn [negb].
    - destruct r as [|xr|wr].
      + destruct f as [|xf|wf]; cbn [andb].
        * apply U.
        * injection 1 as <-. split; [assumption|]. split; [reflexivity|]. split; [reflexivity|]. right. cbn.
          intros ->; apply check_none in Ef; discriminate.
        * injection 1 as <-. split; [assumption|]. split; [reflexivity|]. split; [reflexivity|]. right. cbn.
          intros ->; apply check_none in Ef; discriminate.
      + cbn [andb]. injection 1 as <-. split; [assumption|]. split; [reflexivity|]. split; [reflexivity|]. left. cbn.
        intros ->; apply check_none in Er; discriminate.
      + cbn [andb]. injection 1 as <-. split; [assumption|]. split; [reflexivity|]. split; [reflexivity|]. left. cbn.
        intros ->; apply check_none in Er; discriminate.
    - apply U.
    - apply U.
  Qed.

  Lemma vadd_nth a b i : (i < length a)%nat -> length a = length b ->
    nth i (vadd a b) 0 = nth i a 0 + nth i b 0.
  Proof. apply zipw_nth. Qed.
  Lemma vmul_nth a b i : (i < length a)%nat -> length a = length b ->
    nth i (vmul a b) 0 = nth i a 0 * nth i b 0.
  Proof. apply zipw_nth. Qed.
  Lemma vzero_nth n i : nth i (vzero n) 0 = 0.
  Proof. unfold vzero, vconst. revert i; induction n; intros [|i]; cbn; auto. Qed.

  (** The getter in closed form. *)
  Lemma std_formula d : data_wf d -> d_rel d <> None \/ d_floor d <> None ->
    exists u, std_getter modulus d = Ok u /\ length u = d_nD d /\
      forall i x, nth_error (d_dobs d) i = Some x ->
        nth i u 0 = sqrt ((part (d_rel d) i * modulus x) ^ 2 + part (d_floor d) i ^ 2).
  Proof.
    intros (H1 & H2 & H3) Hs.
    assert (Hx : forall i x, nth_error (d_dobs d) i = Some x ->
       (i < length (d_dobs d))%nat /\ nth i (map modulus (d_dobs d)) 0 = modulus x).
    { intros i x Hi. split.
      - apply nth_error_Some; congruence.
      - apply nth_error_nth. apply map_nth_error; assumption. }
    unfold std_getter.
    remember (length (d_dobs d)) as N eqn:HN.
    destruct (d_rel d) as [rv|]; destruct (d_floor d) as [fv|]; cbn [good_part part] in *;
      try (destruct Hs; congruence).
    - destruct H2 as [L2 _], H3 as [L3 _].
      assert (Lm : length (vmul rv (map modulus (d_dobs d))) = N).
      { rewrite vmul_length; [congruence|rewrite map_length; congruence]. }
      assert (La : length (map (fun x => x * x) (vmul rv (map modulus (d_dobs d)))) = N).
      { rewrite map_length; exact Lm. }
      eexists; split; [reflexivity|].
      assert (Lu : length (vadd (vzero N) (map (fun x => x * x) (vmul rv (map modulus (d_dobs d))))) = N).
      { rewrite vadd_length; rewrite vzero_length; auto. }
      assert (Lf : length (map (fun x => x * x) fv) = N) by (rewrite map_length; congruence).
      split; [rewrite map_length, vadd_length; [congruence|congruence]|].
      intros i x Hi. destruct (Hx i x Hi) as [Li Em].
      rewrite map_nth_lt by (rewrite vadd_length; congruence). f_equal.
      rewrite vadd_nth by congruence.
      rewrite vadd_nth by (rewrite ?vzero_length; congruence).
      rewrite vzero_nth, map_nth_lt, map_nth_lt by congruence.
      rewrite vmul_nth by (rewrite ?map_length; congruence).
      rewrite Em. ring.
    - destruct H2 as [L2 _].
      assert (Lm : length (vmul rv (map modulus (d_dobs d))) = N).
      { rewrite vmul_length; [congruence|rewrite map_length; congruence]. }
      assert (La : length (map (fun x => x * x) (vmul rv (map modulus (d_dobs d)))) = N).
      { rewrite map_length; exact Lm. }
      eexists; split; [reflexivity|].
      assert (Lu : length (vadd (vzero N) (map (fun x => x * x) (vmul rv (map modulus (d_dobs d))))) = N).
      { rewrite vadd_length; rewrite vzero_length; auto. }
      split; [rewrite map_length; congruence|].
      intros i x Hi. destruct (Hx i x Hi) as [Li Em].
      rewrite map_nth_lt by congruence. f_equal.
      rewrite vadd_nth by (rewrite ?vzero_length; congruence).
      rewrite vzero_nth, map_nth_lt by congruence.
      rewrite vmul_nth by (rewrite ?map_length; congruence).
      rewrite Em. ring.
    - destruct H3 as [L3 _].
      assert (Lf : length (map (fun x => x * x) fv) = N) by (rewrite map_length; congruence).
      eexists; split; [reflexivity|].
      assert (Lu : length (vadd (vzero N) (map (fun x => x * x) fv)) = N).
      { rewrite vadd_length; rewrite vzero_length; auto. }
      split; [rewrite map_length; congruence|].
      intros i x Hi. destruct (Hx i x Hi) as [Li Em].
      rewrite map_nth_lt by congruence. f_equal.
      rewrite vadd_nth by (rewrite ?vzero_length; congruence).
      rewrite vzero_nth, map_nth_lt by congruence. ring.
  Qed.
End Unc.

Section UncProps.
  Context {D : Type} (modulus : D -> R).
  Lemma std_none (d : ddata D) : d_rel d = None -> d_floor d = None -> std_getter modulus d = Err TypeError.
  Proof. intros H1 H2; unfold std_getter; rewrite H1, H2; reflexivity. Qed.
  Lemma history_formula l nD dobs r f s ops (d0 : ddata D) :
    data_init nD dobs r f s = Ok d0 ->
    let d := data_run l d0 ops in
    good_part nD (d_rel d) /\ good_part nD (d_floor d) /\ length (d_dobs d) = nD /\
    (d_rel d = None -> d_floor d = None -> std_getter modulus d = Err TypeError) /\
    (d_rel d <> None \/ d_floor d <> None ->
     exists u, std_getter modulus d = Ok u /\ length u = nD /\
      forall i x, nth_error (d_dobs d) i = Some x ->
        nth i u 0 = sqrt ((part (d_rel d) i * modulus x) ^ 2 + part (d_floor d) i ^ 2)).
  Proof.
    intros Hi. cbn zeta. destruct (init_wf _ _ _ _ _ _ Hi) as (W & Hn & _).
    destruct (run_wf l d0 ops W) as [W' Hn']. rewrite <- Hn, <- Hn'.
    destruct W' as (W1 & W2 & W3).
    split; [assumption|]. split; [assumption|]. split; [assumption|].
    split; [apply std_none|]. intros Hs. apply std_formula; [split; auto|assumption].
  Qed.
  Lemma init_not_none nD dobs r f s (d0 : ddata D) : data_init nD dobs r f s = Ok d0 ->
    exists u, std_getter modulus d0 = Ok u.
  Proof.
    intros Hi. destruct (init_wf _ _ _ _ _ _ Hi) as (W & Hn & _ & Hs).
    destruct (std_formula modulus d0 W Hs) as (u & H & _); eauto.
  Qed.
  Lemma assign_effect (d : ddata D) v o : assigns (d_nD d) v o ->
    set_rel d v = (mkData (d_nD d) (d_dobs d) o (d_floor d), None) /\
    set_floor d v = (mkData (d_nD d) (d_dobs d) (d_rel d) o, None).
  Proof. intros H; unfold set_rel, set_floor; rewrite (check_assigns _ _ _ H); auto. Qed.
  Lemma assign_reject (d : ddata D) v : (0 < d_nD d)%nat -> (forall o, ~ assigns (d_nD d) v o) ->
    set_rel d v = (d, Some ValueError) /\ set_floor d v = (d, Some ValueError).
  Proof.
    intros Hn H. unfold set_rel, set_floor.
    destruct (check_uncert (d_nD d) v) as [o|e] eqn:E.
    - apply check_assigns_conv in E; [|assumption]. elim (H o E).
    - assert (e = ValueError) as ->; [|auto].
      unfold check_uncert in E. revert E. destruct v as [|x|[|x [|y w]]];
      repeat match goal with |- context [if ?b then _ else _] => destruct b end; congruence.
  Qed.
  Lemma check_zeros n : check_uncert n (UVec (vzero n)) = Ok (Some (vzero n)).
  Proof.
    assert (E : existsb (fun x => Rltb x 0) (repeat 0 n) = false).
    { apply existsb_neg_false. apply forall_repeat; lra. }
    unfold check_uncert. destruct n as [|[|n]]; try reflexivity.
    - cbn in *. rewrite E. reflexivity.
    - change (vzero (S (S n))) with (repeat 0 (S (S n))).
      rewrite repeat_length, Nat.eqb_refl, E. reflexivity.
  Qed.
  Lemma std_assign (d : ddata D) v w : length (d_dobs d) = d_nD d -> assigns (d_nD d) v (Some w) ->
    snd (set_std d v) = None /\ std_getter modulus (fst (set_std d v)) = Ok w.
  Proof.
    intros Hl H. unfold set_std, set_rel. rewrite Hl, check_zeros.
    unfold set_floor; cbn [d_nD]. rewrite (check_assigns _ _ _ H). cbn [fst snd d_dobs d_rel d_nD d_floor]. split; [reflexivity|].
    pose proof (check_good _ _ _ (check_assigns _ _ _ H)) as [Lw Pw].
    destruct (std_formula modulus (mkData (d_nD d) (d_dobs d) (Some (vzero (d_nD d))) (Some w))) as (u & E & Lu & Hu).
    { split; [assumption|]. cbn [d_nD d_rel d_floor good_part]. split; [|split; assumption].
      split; [apply vzero_length|apply forall_repeat; lra]. }
    { left; discriminate. }
    rewrite E. f_equal. apply vec_ext; [cbn in Lu; congruence|]. intros i Hi. cbn in Lu, Hu.
    destruct (nth_error (d_dobs d) i) as [x|] eqn:Ex.
    - rewrite (Hu i x Ex), vzero_nth.
      replace ((0 * modulus x) * ((0 * modulus x) * 1) + nth i w 0 * (nth i w 0 * 1))
         with (Rsqr (nth i w 0)) by (unfold Rsqr; ring).
      apply sqrt_Rsqr. rewrite Forall_forall in Pw. apply Pw, nth_In. lia.
    - apply nth_error_None in Ex. lia.
  Qed.
  Lemma std_not_atomic (x0 : D) : exists (d : ddata D) v, data_wf d /\
    snd (set_std d v) = Some ValueError /\ d_rel (fst (set_std d v)) <> d_rel d.
  Proof.
    exists (mkData 1 [x0] (Some [1]) (Some [1])), (UScalar (-1)).
    split; [|split].
    - split; [reflexivity|]. cbn. repeat split; auto; constructor; auto; lra.
    - unfold set_std, set_rel. cbn. unfold Rltb. destruct (Rlt_dec 0 0); [lra|]. cbn.
      unfold set_floor; cbn. unfold Rltb. destruct (Rlt_dec (-1) 0); [reflexivity|lra].
    - unfold set_std, set_rel. cbn. unfold Rltb. destruct (Rlt_dec 0 0); [lra|]. cbn.
      unfold set_floor; cbn. unfold Rltb. destruct (Rlt_dec (-1) 0); cbn; injection 1; lra.
  Qed.
End UncProps.
