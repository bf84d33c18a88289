(** Histories of data objects, by value. *)
From Verif Require Import Py Vec Survey DataM Synth SpecSynth SynthFacts SynthFacts2 SynthFacts3.
From Coq Require Import Lia Lra.
Local Open Scope R_scope.
Local Open Scope list_scope.

Lemma sep_nth : forall s k x, separate s -> nth_error (st_objs s) k = Some x -> NoDup (held x) /\ (o_dobs x < length (st_heap s))%nat /\ forall i, In i (held x) -> (i < length (st_heap s))%nat.
Proof. intros s k x [H _] Hk. destruct (H k x Hk) as [A B]. split; [exact A|]. split; [apply B; left; reflexivity|exact B]. Qed.

Lemma step_item : forall l nD s k key v, separate s ->
  separate (after l nD s (OItem k key v)) /\ views nD (after l nD s (OItem k key v)) = by_value l nD (st_heap s) (views nD s) (OItem k key v).
Proof.
  intros l nD s k key v S. unfold after, exec, by_value, get_obj.
  destruct (nth_error (st_objs s) k) as [x|] eqn:Hk; cbn [bind].
  2:{ split; [exact S|]. rewrite change_none; [reflexivity|]. rewrite views_nth, Hk. reflexivity. }
  destruct (sep_nth s k x S Hk) as (Nx & Dx & Rx).
  assert (exists a, get_arr (st_heap s) (o_dobs x) = Ok a) as [a Ea].
  { unfold get_arr. destruct (nth_error (st_heap s) (o_dobs x)) eqn:E; [eexists; reflexivity|]. apply nth_error_None in E. lia. }
  destruct (get_arr_ok _ _ _ Ea) as (_ & Hs & Hkd). rewrite Ea. cbn [bind].
  destruct (setitem l (a_vals a) key (map (cast (a_cplx a)) v)) as [w|e] eqn:Es; cbn [bind].
  2:{ split; [exact S|]. rewrite change_same; [reflexivity|]. intros u Hu. rewrite views_nth, Hk in Hu. injection Hu as <-.
      unfold set_item, with_data. cbn [view v_data v_cplx v_clean d_dobs]. rewrite Hs, Hkd, Es. cbn [fst]. unfold view. rewrite Hs, Hkd. reflexivity. }
  destruct S as [S1 S2]. split.
  - split; cbn [st_heap st_objs]; [intros j y Hj; rewrite put_arr_length; exact (S1 j y Hj)|exact S2].
  - unfold views at 1. cbn [st_heap st_objs]. unfold change. rewrite views_nth, Hk. cbn [option_map].
    assert (Lk : (k < length (st_objs s))%nat) by (apply nth_error_Some; congruence).
    assert (V : with_data (view nD (st_heap s) x) (fst (set_item l (v_data (view nD (st_heap s) x)) key (map (cast (v_cplx (view nD (st_heap s) x))) v))) = view nD (put_arr (st_heap s) (o_dobs x) (mkArr (a_cplx a) w)) x).
    { unfold set_item, with_data. cbn [view v_data v_cplx v_clean d_dobs d_nD d_rel d_floor]. rewrite Hs, Hkd, Es. cbn [fst].
      destruct (held_inv x Nx) as (N1 & N2 & N3 & _).
      unfold view. rewrite shown_put, kind_put, Nat.eqb_refl by exact Dx. rewrite !shown_real_put by assumption. cbn [a_vals a_cplx]. f_equal.
      destruct (o_clean x) as [c|]; [|reflexivity]. cbn. rewrite shown_put by exact Dx. specialize (N1 c eq_refl). apply Nat.eqb_neq in N1. rewrite N1. reflexivity. }
    rewrite V.
    apply nth_error_split in Hk. destruct Hk as (l1 & l2 & El & L1). unfold views. rewrite El, !map_app. cbn [map].
    replace (firstn k (map (view nD (st_heap s)) l1 ++ view nD (st_heap s) x :: map (view nD (st_heap s)) l2)) with (map (view nD (st_heap s)) l1)
      by (symmetry; rewrite firstn_app, firstn_all2, map_length by (rewrite map_length; lia); replace (k - length l1)%nat with 0%nat by lia; apply app_nil_r).
    replace (skipn (Datatypes.S k) (map (view nD (st_heap s)) l1 ++ view nD (st_heap s) x :: map (view nD (st_heap s)) l2)) with (map (view nD (st_heap s)) l2)
      by (symmetry; rewrite skipn_app, skipn_all2, map_length by (rewrite map_length; lia); replace (Datatypes.S k - length l1)%nat with 1%nat by lia; reflexivity).
    assert (Same : forall m, (forall j y, nth_error m j = Some y -> exists q, q <> k /\ nth_error (st_objs s) q = Some y) ->
      map (view nD (put_arr (st_heap s) (o_dobs x) (mkArr (a_cplx a) w))) m = map (view nD (st_heap s)) m).
    { intros m Hm. apply map_ext_in. intros y Hy. apply In_nth_error in Hy. destruct Hy as [j Hj]. destruct (Hm j y Hj) as (q & Hq & Hqy).
      apply view_put_other; [exact Dx|]. intro Z.
      assert (Hkx : nth_error (st_objs s) k = Some x) by (rewrite El, nth_error_app2, L1, Nat.sub_diag by lia; reflexivity).
      exact (S2 q k y x Hq Hqy Hkx (o_dobs x) Z (or_introl eq_refl)). }
    f_equal; [|f_equal]; apply Same; intros j y Hj.
    + exists j. assert (j < length l1)%nat by (apply nth_error_Some; congruence). split; [lia|]. rewrite El, nth_error_app1 by lia. exact Hj.
    + exists (Datatypes.S (length l1 + j))%nat. split; [lia|]. rewrite El, nth_error_app2 by lia. replace (Datatypes.S (length l1 + j) - length l1)%nat with (Datatypes.S j) by lia. exact Hj.
Qed.

(** What an array handed over satisfies. *)
Definition free (s : state) (i : nat) : Prop := (i < length (st_heap s))%nat /\ forall x, In x (st_objs s) -> ~ In i (held x).

Lemma step_rel : forall l nD s k u, separate s -> (forall i, In i (refs u) -> free s i) ->
  separate (after l nD s (OSetRel k u)) /\ views nD (after l nD s (OSetRel k u)) = by_value l nD (st_heap s) (views nD s) (OSetRel k u).
Proof.
  intros l nD s k u S Fr. unfold after, exec, by_value, get_obj.
  pose proof (keep_uncert_value nD (st_heap s) u) as K.
  destruct (nth_error (st_objs s) k) as [x|] eqn:Hk; cbn [bind].
  2:{ split; [exact S|]. destruct (value_of (st_heap s) u); [|reflexivity]. rewrite change_none; [reflexivity|]. rewrite views_nth, Hk. reflexivity. }
  destruct (value_of (st_heap s) u) as [v|e]; cbn [bind] in K.
  2:{ destruct K as [e' K]. rewrite K. split; [exact S|reflexivity]. }
  destruct (check_uncert nD v) as [w|e] eqn:C.
  2:{ destruct K as [e' K]. rewrite K. split; [exact S|]. rewrite change_same; [reflexivity|]. intros y Hy. rewrite views_nth, Hk in Hy. injection Hy as <-.
      unfold set_rel. cbn [view v_data d_nD]. rewrite C. reflexivity. }
  destruct K as (h' & i & K & X & Sw & O). rewrite K. cbn [bind fst snd].
  destruct (sep_nth s k x S Hk) as (Nx & Dx & Rx). destruct (held_inv x Nx) as (N1 & N2 & N3 & N4 & N5 & N6).
  pose proof (nth_error_In _ _ Hk) as Ix. pose proof (extends_len _ _ X) as L.
  assert (Ni : forall j, i = Some j -> ~ In j (held x)).
  { intros j Hj Z. destruct (O j Hj) as [[A _]|A]; [exact (proj2 (Fr j A) x Ix Z)|]. apply Rx in Z. lia. }
  apply (separate_put nD s h' k x); [exact S|exact X|exact Hk| | |].
  - apply held_nodup; try assumption.
    + intros j Hj ->. apply (Ni _ Hj). left. reflexivity.
    + intros j Hj Z. apply (Ni j Hj). apply held_clean. exact Z.
    + intros j Hj Z. apply (Ni j Hj). apply held_floor. exact Z.
  - intros j Hj. apply in_held in Hj. destruct Hj as [->|[Hj|[Hj|Hj]]].
    + split; [lia|left; left; reflexivity].
    + apply held_clean in Hj. split; [apply Rx in Hj; lia|left; exact Hj].
    + destruct (O j Hj) as [[A B]|A]; [split; [lia|right; left; apply Fr, A]|split; [lia|right; right; lia]].
    + apply held_floor in Hj. split; [apply Rx in Hj; lia|left; exact Hj].
  - unfold with_data, set_rel. cbn [view v_data v_cplx v_clean d_nD d_dobs d_rel d_floor]. rewrite C. cbn [fst].
    destruct X as [ee ->]. unfold view. cbn [o_dobs o_clean o_rel o_floor]. rewrite Sw, shown_ext, kind_ext by exact Dx.
    rewrite (shown_real_ext _ _ (o_floor x)) by (intros j Hj; apply Rx, held_floor, Hj). f_equal.
    destruct (o_clean x) as [c|] eqn:Ec; [|reflexivity]. cbn. rewrite shown_ext; [reflexivity|]. apply Rx, held_clean, Ec.
Qed.

Lemma step_floor : forall l nD s k u, separate s -> (forall i, In i (refs u) -> free s i) ->
  separate (after l nD s (OSetFloor k u)) /\ views nD (after l nD s (OSetFloor k u)) = by_value l nD (st_heap s) (views nD s) (OSetFloor k u).
Proof.
  intros l nD s k u S Fr. unfold after, exec, by_value, get_obj.
  pose proof (keep_uncert_value nD (st_heap s) u) as K.
  destruct (nth_error (st_objs s) k) as [x|] eqn:Hk; cbn [bind].
  2:{ split; [exact S|]. destruct (value_of (st_heap s) u); [|reflexivity]. rewrite change_none; [reflexivity|]. rewrite views_nth, Hk. reflexivity. }
  destruct (value_of (st_heap s) u) as [v|e]; cbn [bind] in K.
  2:{ destruct K as [e' K]. rewrite K. split; [exact S|reflexivity]. }
  destruct (check_uncert nD v) as [w|e] eqn:C.
  2:{ destruct K as [e' K]. rewrite K. split; [exact S|]. rewrite change_same; [reflexivity|]. intros y Hy. rewrite views_nth, Hk in Hy. injection Hy as <-.
      unfold set_floor. cbn [view v_data d_nD]. rewrite C. reflexivity. }
  destruct K as (h' & i & K & X & Sw & O). rewrite K. cbn [bind fst snd].
  destruct (sep_nth s k x S Hk) as (Nx & Dx & Rx). destruct (held_inv x Nx) as (N1 & N2 & N3 & N4 & N5 & N6).
  pose proof (nth_error_In _ _ Hk) as Ix. pose proof (extends_len _ _ X) as L.
  assert (Ni : forall j, i = Some j -> ~ In j (held x)).
  { intros j Hj Z. destruct (O j Hj) as [[A _]|A]; [exact (proj2 (Fr j A) x Ix Z)|]. apply Rx in Z. lia. }
  apply (separate_put nD s h' k x); [exact S|exact X|exact Hk| | |].
  - apply held_nodup; try assumption.
    + intros j Hj ->. apply (Ni _ Hj). left. reflexivity.
    + intros j Hj Z. apply (Ni j Hj). apply held_clean. exact Z.
    + intros j Hj Z. apply (Ni j Z). apply held_rel. exact Hj.
  - intros j Hj. apply in_held in Hj. destruct Hj as [->|[Hj|[Hj|Hj]]].
    + split; [lia|left; left; reflexivity].
    + apply held_clean in Hj. split; [apply Rx in Hj; lia|left; exact Hj].
    + apply held_rel in Hj. split; [apply Rx in Hj; lia|left; exact Hj].
    + destruct (O j Hj) as [[A B]|A]; [split; [lia|right; left; apply Fr, A]|split; [lia|right; right; lia]].
  - unfold with_data, set_floor. cbn [view v_data v_cplx v_clean d_nD d_dobs d_rel d_floor]. rewrite C. cbn [fst].
    destruct X as [ee ->]. unfold view. cbn [o_dobs o_clean o_rel o_floor]. rewrite Sw, shown_ext, kind_ext by exact Dx.
    rewrite (shown_real_ext _ _ (o_rel x)) by (intros j Hj; apply Rx, held_rel, Hj). f_equal.
    destruct (o_clean x) as [c|] eqn:Ec; [|reflexivity]. cbn. rewrite shown_ext; [reflexivity|]. apply Rx, held_clean, Ec.
Qed.

Lemma step_std : forall l nD s k u, separate s -> (forall i, In i (refs u) -> free s i) ->
  separate (after l nD s (OSetStd k u)) /\ views nD (after l nD s (OSetStd k u)) = by_value l nD (st_heap s) (views nD s) (OSetStd k u).
Proof.
  intros l nD s k u S Fr. unfold after, exec, by_value, get_obj.
  destruct (nth_error (st_objs s) k) as [x|] eqn:Hk; cbn [bind].
  2:{ split; [exact S|]. destruct (value_of (st_heap s) u); rewrite change_none; try reflexivity; rewrite views_nth, Hk; reflexivity. }
  destruct (sep_nth s k x S Hk) as (Nx & Dx & Rx). destruct (held_inv x Nx) as (N1 & N2 & N3 & N4 & N5 & N6).
  pose proof (nth_error_In _ _ Hk) as Ix.
  pose proof (keep_std_value nD (st_heap s) x u Dx (fun j Hj => proj1 (Fr j Hj))) as K.
  assert (Good : forall xv, (do v <- value_of (st_heap s) u; match set_std (v_data (view nD (st_heap s) x)) v with (y, None) => Ok y | (_, Some e) => Err e end) = Ok xv ->
     match keep_std nD (st_heap s) x u with Ok p => separate (mkState (fst p) (put_obj (st_objs s) k (snd p))) /\ views nD (mkState (fst p) (put_obj (st_objs s) k (snd p))) = change (views nD s) k (fun v => with_data v xv) | Err _ => False end).
  { intros xv E. rewrite E in K. destruct K as (h' & o' & K & X & D & Cl & V & P & Q & N). rewrite K. cbn [fst snd]. pose proof (extends_len _ _ X) as L.
    destruct o' as [d' c' r' f']. cbn [o_dobs o_clean o_rel o_floor] in *. subst d' c'.
    assert (Nf : forall j, f' = Some j -> ~ In j (held x)).
    { intros j Hj Z. destruct (Q j Hj) as [[A _]|A]; [exact (proj2 (Fr j A) x Ix Z)|]. apply Rx in Z. lia. }
    assert (Nr : forall j, r' = Some j -> ~ In j (held x)) by (intros j Hj Z; specialize (P j Hj); apply Rx in Z; lia).
    apply (separate_put nD s h' k x); [exact S|exact X|exact Hk| | |].
    - apply held_nodup; try assumption.
      + intros j Hj ->. apply (Nr _ Hj). left. reflexivity.
      + intros j Hj ->. apply (Nf _ Hj). left. reflexivity.
      + intros j Hj Z. apply (Nr j Hj). apply held_clean. exact Z.
      + intros j Hj Z. apply (Nf j Hj). apply held_clean. exact Z.
    - intros j Hj. apply in_held in Hj. destruct Hj as [->|[Hj|[Hj|Hj]]].
      + split; [lia|left; left; reflexivity].
      + apply held_clean in Hj. split; [apply Rx in Hj; lia|left; exact Hj].
      + specialize (P j Hj). split; [lia|right; right; lia].
      + destruct (Q j Hj) as [[A B]|A]; [split; [lia|right; left; apply Fr, A]|split; [lia|right; right; lia]].
    - unfold with_data. cbn [view v_cplx v_clean]. rewrite <- V. destruct X as [ee ->]. unfold view. cbn [o_dobs o_clean o_rel o_floor]. rewrite shown_ext, kind_ext by exact Dx. f_equal.
      destruct (o_clean x) as [c|] eqn:Ec; [|reflexivity]. cbn. rewrite shown_ext; [reflexivity|]. apply Rx, held_clean, Ec. }
  assert (exists a, get_arr (st_heap s) (o_dobs x) = Ok a) as [a Ea].
  { unfold get_arr. destruct (nth_error (st_heap s) (o_dobs x)) eqn:E; [eexists; reflexivity|]. apply nth_error_None in E. lia. }
  destruct (get_arr_ok _ _ _ Ea) as (_ & Hs & Hkd).
  assert (Zero : let z := match keep_uncert nD (st_heap s ++ [real_arr (repeat 0 (length (a_vals a)))]) (RArr (length (st_heap s))) with
       | Ok r => mkState (fst r) (put_obj (st_objs s) k (mkObj (o_dobs x) (o_clean x) (snd r) (o_floor x))) | Err _ => s end in
     separate z /\ views nD z = change (views nD s) k (fun v => with_data v (fst (set_rel (v_data v) (UVec (vzero (length (d_dobs (v_data v))))))))).
  { set (h0 := st_heap s ++ [real_arr (repeat 0 (length (a_vals a)))]).
    pose proof (keep_uncert_value nD h0 (RArr (length (st_heap s)))) as K0.
    assert (V0 : value_of h0 (RArr (length (st_heap s))) = Ok (UVec (vzero (length (shown (st_heap s) (o_dobs x)))))).
    { unfold value_of, h0. rewrite get_arr_last. cbn [bind real_arr a_cplx]. rewrite Hs. fold (real_arr (repeat 0 (length (a_vals a)))). rewrite real_vals. reflexivity. }
    rewrite V0 in K0. cbn [bind] in K0. cbv zeta.
    destruct (check_uncert nD (UVec (vzero (length (shown (st_heap s) (o_dobs x)))))) as [w|e] eqn:C.
    2:{ destruct K0 as [e' K0]. rewrite K0. split; [exact S|]. rewrite change_same; [reflexivity|]. intros y Hy. rewrite views_nth, Hk in Hy. injection Hy as <-.
        unfold set_rel. cbn [view v_data d_nD d_dobs]. rewrite C. reflexivity. }
    destruct K0 as (h' & i & K0 & X0 & Sw & O). rewrite K0. cbn [fst snd].
    assert (X : extends (st_heap s) h') by (eapply extends_trans; [exists [real_arr (repeat 0 (length (a_vals a)))]; reflexivity|exact X0]).
    assert (L0 : length h0 = Datatypes.S (length (st_heap s))) by (unfold h0; rewrite app_length; cbn; lia). pose proof (extends_len _ _ X0) as L.
    assert (Ri : forall j, i = Some j -> (length (st_heap s) <= j < length h')%nat).
    { intros j Hj. destruct (O j Hj) as [[[<-|[]] A]|A]; lia. }
    assert (Ni : forall j, i = Some j -> ~ In j (held x)) by (intros j Hj Z; specialize (Ri j Hj); apply Rx in Z; lia).
    apply (separate_put nD s h' k x); [exact S|exact X|exact Hk| | |].
    - apply held_nodup; try assumption.
      + intros j Hj ->. apply (Ni _ Hj). left. reflexivity.
      + intros j Hj Z. apply (Ni j Hj). apply held_clean. exact Z.
      + intros j Hj Z. apply (Ni j Hj). apply held_floor. exact Z.
    - intros j Hj. apply in_held in Hj. destruct Hj as [->|[Hj|[Hj|Hj]]].
      + split; [lia|left; left; reflexivity].
      + apply held_clean in Hj. split; [apply Rx in Hj; lia|left; exact Hj].
      + specialize (Ri j Hj). split; [lia|right; right; lia].
      + apply held_floor in Hj. split; [apply Rx in Hj; lia|left; exact Hj].
    - unfold with_data, set_rel. cbn [view v_data v_cplx v_clean d_nD d_dobs d_rel d_floor]. rewrite C. cbn [fst].
      destruct X as [ee ->]. unfold view. cbn [o_dobs o_clean o_rel o_floor]. rewrite Sw, shown_ext, kind_ext by exact Dx.
      rewrite (shown_real_ext _ _ (o_floor x)) by (intros j Hj; apply Rx, held_floor, Hj). f_equal.
      destruct (o_clean x) as [c|] eqn:Ec; [|reflexivity]. cbn. rewrite shown_ext; [reflexivity|]. apply Rx, held_clean, Ec. }
  rewrite Ea.
  assert (Chg : forall f g, f (view nD (st_heap s) x) = g (view nD (st_heap s) x) -> change (views nD s) k f = change (views nD s) k g).
  { intros f g E. unfold change. rewrite views_nth, Hk. cbn [option_map]. rewrite E. reflexivity. }
  destruct (value_of (st_heap s) u) as [v|e] eqn:Vu; cbn [bind] in K, Good.
  - destruct (set_std (v_data (view nD (st_heap s) x)) v) as [y [e|]] eqn:Es.
    + destruct K as [e' K]. rewrite K. cbn [bind].
      rewrite (Chg _ (fun v => with_data v (fst (set_rel (v_data v) (UVec (vzero (length (d_dobs (v_data v))))))))); [exact Zero|].
      cbv beta. f_equal. rewrite Es. cbn [fst]. unfold set_std in Es.
      destruct (set_rel (v_data (view nD (st_heap s) x)) (UVec (vzero (length (d_dobs (v_data (view nD (st_heap s) x))))))) as [d1 [e1|]]; [injection Es as <- _; reflexivity|].
      unfold set_floor in Es. destruct (check_uncert (d_nD d1) v); [discriminate|]. injection Es as <- _. reflexivity.
    + specialize (Good y eq_refl). destruct (keep_std nD (st_heap s) x u) as [q|]; [|destruct Good]. cbn [bind].
      rewrite (Chg _ (fun v => with_data v y)); [exact Good|]. cbv beta. rewrite Es. reflexivity.
  - destruct K as [e' K]. rewrite K. cbn [bind]. exact Zero.
Qed.
