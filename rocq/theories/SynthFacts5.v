(** Histories of data objects, and synthetic data. *)
From Verif Require Import Py Vec Survey DataM Synth SpecSynth SynthFacts SynthFacts2 SynthFacts3 SynthFacts4.
From Coq Require Import Lia Lra.
Local Open Scope R_scope.
Local Open Scope list_scope.

Lemma step_dobs : forall l nD s k i, separate s -> free s i ->
  separate (after l nD s (OSetDobs k i)) /\ views nD (after l nD s (OSetDobs k i)) = by_value l nD (st_heap s) (views nD s) (OSetDobs k i).
Proof.
  intros l nD s k i S [Fi Fr]. unfold after, exec, by_value, get_obj, keep_data.
  assert (exists a, get_arr (st_heap s) i = Ok a) as [a Ea].
  { unfold get_arr. destruct (nth_error (st_heap s) i) eqn:E; [eexists; reflexivity|]. apply nth_error_None in E. lia. }
  destruct (get_arr_ok _ _ _ Ea) as (_ & Hs & Hkd). rewrite Ea. cbn [bind].
  destruct (nth_error (st_objs s) k) as [x|] eqn:Hk; cbn [bind].
  2:{ split; [exact S|]. destruct (Nat.eqb (length (a_vals a)) nD); [|reflexivity]. rewrite change_none; [reflexivity|]. rewrite views_nth, Hk. reflexivity. }
  destruct (Nat.eqb (length (a_vals a)) nD) eqn:Ln; cbn [bind fst snd]; [|split; [exact S|reflexivity]].
  destruct (sep_nth s k x S Hk) as (Nx & Dx & Rx). destruct (held_inv x Nx) as (N1 & N2 & N3 & N4 & N5 & N6).
  pose proof (nth_error_In _ _ Hk) as Ix. specialize (Fr x Ix) as Fx.
  apply (separate_put nD s (st_heap s) k x); [exact S|apply extends_refl|exact Hk| | |].
  - apply held_nodup; try assumption; intros j Hj ->; apply Fx; [apply held_clean|apply held_rel|apply held_floor]; exact Hj.
  - intros j Hj. apply in_held in Hj. destruct Hj as [->|[Hj|[Hj|Hj]]]; [split; [exact Fi|right; left; exact Fr]|apply held_clean in Hj|apply held_rel in Hj|apply held_floor in Hj]; split; auto.
  - unfold set_dobs, fromvec. cbn [view v_data v_cplx v_clean d_nD d_dobs d_rel d_floor]. rewrite Ln. cbn [fst]. unfold view. cbn [o_dobs o_clean o_rel o_floor]. rewrite Hs, Hkd. reflexivity.
Qed.

Lemma step_clean : forall l nD s k i, separate s -> free s i ->
  separate (after l nD s (OSetClean k i)) /\ views nD (after l nD s (OSetClean k i)) = by_value l nD (st_heap s) (views nD s) (OSetClean k i).
Proof.
  intros l nD s k i S [Fi Fr]. unfold after, exec, by_value, get_obj, keep_data.
  assert (exists a, get_arr (st_heap s) i = Ok a) as [a Ea].
  { unfold get_arr. destruct (nth_error (st_heap s) i) eqn:E; [eexists; reflexivity|]. apply nth_error_None in E. lia. }
  destruct (get_arr_ok _ _ _ Ea) as (_ & Hs & Hkd). rewrite Ea. cbn [bind].
  destruct (nth_error (st_objs s) k) as [x|] eqn:Hk; cbn [bind].
  2:{ split; [exact S|]. destruct (Nat.eqb (length (a_vals a)) nD); [|reflexivity]. rewrite change_none; [reflexivity|]. rewrite views_nth, Hk. reflexivity. }
  destruct (Nat.eqb (length (a_vals a)) nD) eqn:Ln; cbn [bind fst snd]; [|split; [exact S|reflexivity]].
  destruct (sep_nth s k x S Hk) as (Nx & Dx & Rx). destruct (held_inv x Nx) as (N1 & N2 & N3 & N4 & N5 & N6).
  pose proof (nth_error_In _ _ Hk) as Ix. specialize (Fr x Ix) as Fx.
  apply (separate_put nD s (st_heap s) k x); [exact S|apply extends_refl|exact Hk| | |].
  - apply held_nodup; try assumption.
    + intros j Hj ->. injection Hj as Hj. apply Fx. left. symmetry. exact Hj.
    + intros j Hj Z. injection Z as ->. apply Fx, held_rel, Hj.
    + intros j Hj Z. injection Z as ->. apply Fx, held_floor, Hj.
  - intros j Hj. apply in_held in Hj. destruct Hj as [->|[Hj|[Hj|Hj]]]; [split; [exact Dx|left; left; reflexivity]|injection Hj as <-; split; [exact Fi|right; left; exact Fr]|apply held_rel in Hj|apply held_floor in Hj]; split; auto.
  - unfold view. cbn [v_data v_cplx o_dobs o_clean o_rel o_floor option_map]. rewrite Hs. reflexivity.
Qed.

Theorem step_value : forall l nD s o, separate s -> unshared s o ->
  separate (after l nD s o) /\ views nD (after l nD s o) = by_value l nD (st_heap s) (views nD s) o.
Proof.
  intros l nD s o S (ND & G & T). destruct o as [a|d r f sd|p r f n z kw|k key v|k i|k i|k u|k u|k u].
  - unfold after, exec, by_value. split.
    + destruct S as [S1 S2]. split; cbn [st_heap st_objs]; [|exact S2]. intros k x Hk. destruct (S1 k x Hk) as [A B]. split; [exact A|]. intros i Hi. specialize (B i Hi). rewrite app_length. lia.
    + unfold views. cbn [st_heap st_objs]. apply views_ext. intros k x Hk. apply S with k. exact Hk.
  - cbn [given] in *. unfold after, exec, by_value.
    assert (Hd : (d < length (st_heap s))%nat) by (apply G; left; reflexivity).
    assert (exists a, get_arr (st_heap s) d = Ok a) as [a Ea].
    { unfold get_arr. destruct (nth_error (st_heap s) d) eqn:E; [eexists; reflexivity|]. apply nth_error_None in E. lia. }
    destruct (get_arr_ok _ _ _ Ea) as (_ & Hs & Hkd). rewrite Ea. cbn [bind]. rewrite <- Hs, <- Hkd.
    pose proof (new_data_value nD (st_heap s) d None r f sd Hd ltac:(discriminate) (fun j Hj => proj1 (G j (or_intror Hj))) ND) as K.
    destruct (value_of (st_heap s) r) as [r'|e]; cbn [bind] in *; [|destruct K as [e' K]; rewrite K; split; [exact S|reflexivity]].
    destruct (value_of (st_heap s) f) as [f'|e]; cbn [bind] in *; [|destruct K as [e' K]; rewrite K; split; [exact S|reflexivity]].
    destruct (value_of (st_heap s) sd) as [s'|e]; cbn [bind] in *; [|destruct K as [e' K]; rewrite K; split; [exact S|reflexivity]].
    destruct (data_init nD (shown (st_heap s) d) r' f' s') as [x|e]; cbn [bind] in *; [|destruct K as [e' K]; rewrite K; split; [exact S|reflexivity]].
    destruct K as (h' & o & K & X & V & N & H). rewrite K. cbn [bind fst snd]. cbn [option_map] in V. rewrite <- V. apply separate_add; [exact S|exact X|exact N|].
    intros i Hi. destruct (H i Hi) as [H1 [H2|H2]]; (split; [exact H1|]); [left; apply (G i H2)|right; exact H2].
  - cbn [given] in *. subst n. unfold after, exec, by_value. destruct kw.
    { cbn [make_synthetic bind]. split; [exact S|]. destruct (value_of (st_heap s) r); cbn [bind]; [|reflexivity]. destruct (value_of (st_heap s) f); reflexivity. }
    pose proof (synthetic_value nD (st_heap s) p r f z (fun j Hj => proj1 (G j Hj)) ND) as K.
    destruct (value_of (st_heap s) r) as [r'|e]; cbn [bind] in *; [|destruct K as [e' K]; rewrite K; split; [exact S|reflexivity]].
    destruct (value_of (st_heap s) f) as [f'|e]; cbn [bind] in *; [|destruct K as [e' K]; rewrite K; split; [exact S|reflexivity]].
    destruct (match r', f' with UNone, _ | _, UNone => Err TypeError | _, _ => Ok tt end) as [u|e] eqn:U; cbn [bind] in *.
    2:{ destruct K as [e' K]. rewrite K. split; [exact S|]. destruct r'; [reflexivity| |]; (destruct f'; [reflexivity| |]); discriminate. }
    assert (R1 : match r', f' with UNone, _ | _, UNone => Err TypeError | _, _ => Ok tt end = Ok tt) by (rewrite U; destruct u; reflexivity).
    replace (do u0 <- match r', f' with UNone, _ | _, UNone => Err TypeError | _, _ => Ok tt end; do x <- data_init nD (noisy (a_vals p) r' f' z) r' f' UNone; Ok (mkValue x (a_cplx p) (Some (a_vals p))))
      with (do x <- data_init nD (noisy (a_vals p) r' f' z) r' f' UNone; Ok (mkValue x (a_cplx p) (Some (a_vals p)))) by (rewrite R1; reflexivity).
    destruct (data_init nD (noisy (a_vals p) r' f' z) r' f' UNone) as [x|e]; cbn [bind] in *; [|destruct K as [e' K]; rewrite K; split; [exact S|reflexivity]].
    destruct K as (h' & o & K & X & V & N & H & _). rewrite K. cbn [bind fst snd]. rewrite <- V. apply separate_add; [exact S|exact X|exact N|].
    intros i Hi. destruct (H i Hi) as [H1 [H2|H2]]; (split; [exact H1|]); [left; apply (G i H2)|right; exact H2].
  - apply step_item. exact S.
  - apply step_dobs; [exact S|]. apply G. left. reflexivity.
  - apply step_clean; [exact S|]. apply G. left. reflexivity.
  - apply step_rel; [exact S|]. exact G.
  - apply step_floor; [exact S|]. exact G.
  - apply step_std; [exact S|]. exact G.
Qed.

Lemma separate_run : forall l nD ops s, separate s -> all_unshared l nD s ops -> separate (run l nD s ops).
Proof.
  intros l nD. induction ops as [|o r IH]; intros s S A; [exact S|]. destruct A as [U A]. cbn. apply IH; [|exact A]. apply step_value; assumption.
Qed.
Lemma separate_start : separate start.
Proof. split; cbn; [intros k x H|intros j k x y _ H]; destruct k; try discriminate; destruct j; discriminate. Qed.
Lemma run_app : forall l nD ops s o, run l nD s (ops ++ [o]) = after l nD (run l nD s ops) o.
Proof. intros. unfold run. rewrite fold_left_app. reflexivity. Qed.
Lemma all_unshared_app : forall l nD ops s o, all_unshared l nD s (ops ++ [o]) <-> all_unshared l nD s ops /\ unshared (run l nD s ops) o.
Proof.
  intros l nD. induction ops as [|x r IH]; intros s o; cbn [app all_unshared run fold_left]; [tauto|]. rewrite IH. unfold run. tauto.
Qed.

Theorem values : forall l nD ops o, all_unshared l nD start (ops ++ [o]) ->
  let s := run l nD start ops in views nD (run l nD start (ops ++ [o])) = by_value l nD (st_heap s) (views nD s) o.
Proof.
  intros l nD ops o H. apply all_unshared_app in H. destruct H as [H U]. cbv zeta. rewrite run_app.
  apply step_value; [|exact U]. apply separate_run; [exact separate_start|exact H].
Qed.

(** ** One synthetic data set *)
Theorem synthetic_noise : forall nD h p r f z h' o, (forall j, In j (refs r ++ refs f) -> (j < length h)%nat) -> NoDup (refs r ++ refs f) ->
  make_synthetic nD h p r f FTrue z false = Ok (h', o) -> exists r' f',
    value_of h r = Ok r' /\ value_of h f = Ok f' /\ o_clean o <> Some (o_dobs o) /\ option_map (shown h') (o_clean o) = Some (a_vals p) /\ shown h' (o_dobs o) = noisy (a_vals p) r' f' z.
Proof.
  intros nD h p r f z h' o Hr ND M. pose proof (synthetic_value nD h p r f z Hr ND) as K.
  destruct (value_of h r) as [r'|e]; cbn [bind] in K; [|destruct K as [e' K]; congruence].
  destruct (value_of h f) as [f'|e]; cbn [bind] in K; [|destruct K as [e' K]; congruence].
  destruct (match r', f' with UNone, _ | _, UNone => Err TypeError | _, _ => Ok tt end) eqn:U; cbn [bind] in K; [|destruct K as [e' K]; congruence].
  destruct (data_init nD (noisy (a_vals p) r' f' z) r' f' UNone) as [x|e] eqn:DI; cbn [bind] in K; [|destruct K as [e' K]; congruence].
  destruct K as (h2 & o2 & K & X & V & N & H & C & D). rewrite M in K. injection K as <- <-.
  exists r', f'. split; [reflexivity|]. split; [reflexivity|]. split; [rewrite C, D; intro Z; injection Z; lia|].
  pose proof (f_equal v_clean V) as V1. pose proof (f_equal (fun v => d_dobs (v_data v)) V) as V2. cbn in V1, V2. split; [exact V1|]. rewrite V2.
  clear - DI U. unfold data_init, fromvec in DI. destruct (Nat.eqb (length (noisy (a_vals p) r' f' z)) nD); cbn [bind] in DI; [|discriminate].
  destruct (check_uncert nD r') as [w|]; cbn [bind] in DI; [|discriminate]. destruct (check_uncert nD f') as [w2|]; cbn [bind] in DI; [|discriminate].
  destruct r'; [destruct f'; discriminate| |]; cbn in DI; injection DI as <-; reflexivity.
Qed.
