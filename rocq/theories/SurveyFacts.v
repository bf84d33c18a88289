From Verif Require Import Py Survey SpecSurvey.

Definition key_of (p : src * rx) : pkey := (src_id (fst p), rx_id (snd p)).
Definition psum (ps : list (src * rx)) : nat := list_sum (map (fun p => rx_nD (snd p)) ps).

Ltac upsum := unfold psum, list_sum in *; cbn in *.

Lemma pkey_eqb_ok a b : pkey_eqb a b = true <-> a = b.
Proof.
  unfold pkey_eqb; rewrite andb_true_iff, !Nat.eqb_eq.
  destruct a, b; cbn; split; [intros [-> ->]; reflexivity|injection 1; auto].
Qed.

Lemma list_sum_nat_acc l a : fold_left Nat.add l a = a + list_sum l.
Proof. revert a; induction l; cbn; intros; [lia|rewrite IHl; unfold list_sum; lia]. Qed.
Lemma list_sum_nat_eq l : list_sum_nat l = list_sum l.
Proof. unfold list_sum_nat; rewrite list_sum_nat_acc; reflexivity. Qed.

Lemma psum_app a b : psum (a ++ b) = psum a + psum b.
Proof. unfold psum; rewrite map_app, list_sum_app; reflexivity. Qed.
Lemma psum_map s rs : psum (map (fun r => (s, r)) rs) = total_rx rs.
Proof. unfold psum, total_rx; rewrite map_map; reflexivity. Qed.
Lemma psum_pairs l : psum (pairs l) = total_data l.
Proof.
  induction l as [|s l IH]; [reflexivity|].
  unfold pairs in *; cbn [flat_map]. rewrite psum_app, psum_map, IH. reflexivity.
Qed.
Lemma pairs_app a b : pairs (a ++ b) = pairs a ++ pairs b.
Proof. unfold pairs; rewrite flat_map_app; reflexivity. Qed.
Lemma pair_keys_eq l : pair_keys l = map key_of (pairs l).
Proof.
  induction l as [|s l IH]; [reflexivity|].
  unfold pair_keys, pairs in *; cbn [map concat flat_map].
  rewrite map_app, <- IH, map_map. reflexivity.
Qed.
Lemma in_pairs l s r : In (s, r) (pairs l) <-> In s l /\ In r (src_rxs s).
Proof.
  unfold pairs; rewrite in_flat_map. split.
  - intros (x & Hx & Hi). apply in_map_iff in Hi. destruct Hi as (y & E & Hy).
    injection E as -> ->; auto.
  - intros [H1 H2]; exists s; split; [assumption|]. apply in_map_iff; eauto.
Qed.
Lemma pair_of_survey_keys l k : pair_of_survey l k <-> In k (map key_of (pairs l)).
Proof.
  unfold pair_of_survey; rewrite in_map_iff; split.
  - intros (s & r & H1 & H2 & ->). exists (s, r). split; [reflexivity|apply in_pairs; auto].
  - intros ([s r] & <- & H). apply in_pairs in H. destruct H; exists s, r; auto.
Qed.

Lemma accepted_nodup l : accepted l = true -> NoDup (map key_of (pairs l)).
Proof.
  unfold accepted, valid_src_list. rewrite andb_true_iff, nodupb_NoDup.
  intros [Hs Hr]. induction l as [|s l IH]; [constructor|].
  cbn [map] in Hs; inversion Hs as [|? ? Hn Hd]; subst.
  cbn [forallb] in Hr. apply andb_true_iff in Hr; destruct Hr as [Hr1 Hr2].
  unfold pairs; cbn [flat_map]. rewrite map_app.
  assert (N1 : NoDup (map key_of (map (fun r => (s, r)) (src_rxs s)))).
  { rewrite map_map. unfold key_of; cbn [fst snd].
    unfold valid_rx_list in Hr1. apply nodupb_NoDup in Hr1.
    clear - Hr1. induction (src_rxs s) as [|r rs IHr]; cbn in *; [constructor|].
    inversion Hr1; subst. constructor; [|apply IHr; assumption].
    rewrite in_map_iff. intros (x & E & Hx). injection E as E.
    apply H1. rewrite <- E. apply in_map; assumption. }
  specialize (IH Hd Hr2).
  fold (pairs l).
  assert (Disj : forall k, In k (map key_of (map (fun r => (s, r)) (src_rxs s))) ->
                           ~ In k (map key_of (pairs l))).
  { intros k H1 H2. rewrite map_map in H1. apply in_map_iff in H1.
    destruct H1 as (r & <- & Hr). apply in_map_iff in H2.
    destruct H2 as ([s' r'] & E & H'). apply in_pairs in H'. destruct H' as [H' _].
    unfold key_of in E; cbn in E. injection E as E _.
    apply Hn. rewrite <- E. apply in_map; assumption. }
  clear - N1 IH Disj.
  induction (map key_of (map (fun r => (s, r)) (src_rxs s))) as [|k ks IHk]; cbn; [assumption|].
  inversion N1; subst. constructor.
  - rewrite in_app_iff. intros [H|H]; [contradiction|]. apply (Disj k); cbn; auto.
  - apply IHk; [assumption|]. intros k' Hk'; apply Disj; cbn; auto.
Qed.

(** The loop in closed form. *)
Lemma loop_hit ps1 p ps2 off :
  ~ In (key_of p) (map key_of ps1) ->
  get_slice_loop (ps1 ++ p :: ps2) off (key_of p)
  = Some (off + psum ps1, off + psum ps1 + rx_nD (snd p)).
Proof.
  revert off; induction ps1 as [|[s r] ps1 IH]; cbn [app get_slice_loop]; intros off H.
  - destruct p as [s r]; unfold key_of; cbn. rewrite !Nat.eqb_refl; cbn.
    upsum. f_equal; f_equal; lia.
  - cbn in H.
    destruct (Nat.eqb (src_id s) (fst (key_of p)) && Nat.eqb (rx_id r) (snd (key_of p))) eqn:E.
    + exfalso; apply H; left. apply andb_true_iff in E; rewrite !Nat.eqb_eq in E.
      destruct E as [E1 E2]. unfold key_of in *; cbn in *. congruence.
    + rewrite IH by tauto. upsum. f_equal; f_equal; lia.
Qed.
Lemma loop_miss ps off k : ~ In k (map key_of ps) -> get_slice_loop ps off k = None.
Proof.
  revert off; induction ps as [|[s r] ps IH]; cbn [get_slice_loop]; intros off H; [reflexivity|].
  cbn in H.
  destruct (Nat.eqb (src_id s) (fst k) && Nat.eqb (rx_id r) (snd k)) eqn:E.
  - exfalso; apply H; left. apply andb_true_iff in E; rewrite !Nat.eqb_eq in E.
    destruct E as [E1 E2]; unfold key_of; destruct k; cbn in *; congruence.
  - apply IH; tauto.
Qed.
Lemma loop_split ps off k sl : get_slice_loop ps off k = Some sl ->
  exists ps1 p ps2, ps = ps1 ++ p :: ps2 /\ key_of p = k /\ ~ In k (map key_of ps1) /\
    sl = (off + psum ps1, off + psum ps1 + rx_nD (snd p)).
Proof.
  revert off; induction ps as [|[s r] ps IH]; cbn [get_slice_loop]; intros off H; [discriminate|].
  destruct (Nat.eqb (src_id s) (fst k) && Nat.eqb (rx_id r) (snd k)) eqn:E.
  - injection H as <-. apply andb_true_iff in E; rewrite !Nat.eqb_eq in E; destruct E as [E1 E2].
    exists [], (s, r), ps. split; [reflexivity|]. split; [|split].
    + unfold key_of; destruct k; cbn in *; congruence.
    + intros [].
    + upsum; f_equal; lia.
  - apply IH in H. destruct H as (ps1 & p & ps2 & -> & Hk & Hn & ->).
    exists ((s, r) :: ps1), p, ps2. split; [reflexivity|]. split; [exact Hk|split].
    + intros [H|H]; [|tauto]. rewrite <- H in E. unfold key_of in E; cbn in E.
      rewrite !Nat.eqb_refl in E; discriminate.
    + upsum; f_equal; lia.
Qed.

Lemma slice_position l l1 s l2 r1 r r2 :
  accepted l = true -> l = l1 ++ s :: l2 -> src_rxs s = r1 ++ r :: r2 ->
  get_slice l (src_id s, rx_id r)
  = Ok (total_data l1 + total_rx r1, total_data l1 + total_rx r1 + rx_nD r).
Proof.
  intros Ha -> Hr.
  assert (Hp : pairs (l1 ++ s :: l2)
     = (pairs l1 ++ map (fun r => (s, r)) r1) ++ (s, r) :: (map (fun r => (s, r)) r2 ++ pairs l2)).
  { rewrite pairs_app. unfold pairs at 2; cbn [flat_map]. rewrite Hr, map_app; cbn [map].
    rewrite <- !app_assoc. reflexivity. }
  pose proof (accepted_nodup _ Ha) as Hnd. rewrite Hp in Hnd.
  unfold get_slice. rewrite Hp. change (src_id s, rx_id r) with (key_of (s, r)).
  rewrite loop_hit.
  - rewrite psum_app, psum_pairs, psum_map. reflexivity.
  - rewrite (map_app key_of) in Hnd. cbn [map] in Hnd. apply NoDup_remove_2 in Hnd.
    rewrite in_app_iff in Hnd. tauto.
Qed.

Lemma slice_bounds l k a b : get_slice l k = Ok (a, b) ->
  a <= b /\ b <= total_data l /\
  exists s r, In s l /\ In r (src_rxs s) /\ k = (src_id s, rx_id r) /\ b - a = rx_nD r.
Proof.
  unfold get_slice. destruct (get_slice_loop (pairs l) 0 k) as [sl|] eqn:E; [|discriminate].
  intros H; injection H as ->. apply loop_split in E.
  destruct E as (ps1 & [s r] & ps2 & Hp & Hk & _ & E). injection E as -> ->.
  rewrite <- (psum_pairs l), Hp, psum_app. upsum.
  split; [lia|]. split; [lia|].
  exists s, r.
  assert (Hin : In (s, r) (pairs l)) by (rewrite Hp; apply in_elt).
  apply in_pairs in Hin; destruct Hin. repeat split; auto. lia.
Qed.

Lemma loop_cover ps off i : off <= i < off + psum ps ->
  exists ps1 p ps2, ps = ps1 ++ p :: ps2 /\
    off + psum ps1 <= i < off + psum ps1 + rx_nD (snd p).
Proof.
  revert off; induction ps as [|p ps IH]; intros off H; [upsum; lia|].
  destruct (Nat.lt_ge_cases i (off + rx_nD (snd p))).
  - exists [], p, ps. split; [reflexivity|]. upsum; lia.
  - destruct (IH (off + rx_nD (snd p))) as (ps1 & q & ps2 & -> & Hq).
    { upsum; lia. }
    exists (p :: ps1), q, ps2. split; [reflexivity|]. upsum; lia.
Qed.

Lemma split_unique (ps1 ps2 qs1 qs2 : list (src * rx)) p q i :
  ps1 ++ p :: ps2 = qs1 ++ q :: qs2 ->
  psum ps1 <= i < psum ps1 + rx_nD (snd p) ->
  psum qs1 <= i < psum qs1 + rx_nD (snd q) -> p = q.
Proof.
  revert qs1 i; induction ps1 as [|x ps1 IH]; intros [|y qs1] i E Hp Hq.
  - injection E; auto.
  - cbn in E; injection E as -> ->. upsum; lia.
  - cbn in E; injection E as -> <-. upsum; lia.
  - cbn in E; injection E as -> E. apply (IH qs1 (i - rx_nD (snd y))); [assumption| |];
    upsum; lia.
Qed.

Lemma slices_partition l i : accepted l = true -> i < total_data l ->
  exists! k, exists a b, get_slice l k = Ok (a, b) /\ a <= i < b.
Proof.
  intros Ha Hi. pose proof (accepted_nodup _ Ha) as Hnd.
  destruct (loop_cover (pairs l) 0 i) as (ps1 & p & ps2 & Hp & Hpi).
  { rewrite psum_pairs; lia. }
  exists (key_of p). split.
  - do 2 eexists. split; [|exact Hpi].
    unfold get_slice. rewrite Hp, loop_hit; [reflexivity|].
    rewrite Hp, map_app in Hnd; cbn in Hnd. apply NoDup_remove_2 in Hnd.
    rewrite in_app_iff in Hnd; tauto.
  - intros k (a & b & Hk & Hab). unfold get_slice in Hk.
    destruct (get_slice_loop (pairs l) 0 k) as [sl|] eqn:E; [|discriminate].
    injection Hk as ->. apply loop_split in E.
    destruct E as (qs1 & q & qs2 & Hq & Hk & _ & E). injection E as -> ->.
    subst k. f_equal. rewrite Hp in Hq. cbn in Hpi, Hab.
    eapply split_unique; eauto.
Qed.

Lemma foreign_pair l k : ~ pair_of_survey l k -> get_slice l k = Err KeyError.
Proof.
  rewrite pair_of_survey_keys. intros H; unfold get_slice. rewrite loop_miss; auto.
Qed.
Lemma member_pair l k : pair_of_survey l k -> exists a b, get_slice l k = Ok (a, b).
Proof.
  rewrite pair_of_survey_keys. unfold get_slice.
  destruct (get_slice_loop (pairs l) 0 k) as [[a b]|] eqn:E; [eauto|].
  intros H; exfalso. revert E H. generalize 0 as off.
  induction (pairs l) as [|[s r] ps IH]; cbn; intros off E H; [contradiction|].
  destruct (Nat.eqb (src_id s) (fst k) && Nat.eqb (rx_id r) (snd k)) eqn:Eb; [discriminate|].
  destruct H as [H|H]; [|eauto].
  subst k; unfold key_of in Eb; cbn in Eb. rewrite !Nat.eqb_refl in Eb; discriminate.
Qed.

(** [get_all_slices] in closed form. *)
Fixpoint slices_from (ps : list (src * rx)) (off : nat) : list (pkey * slice) :=
  match ps with
  | [] => []
  | p :: ps' => (key_of p, (off, off + rx_nD (snd p))) :: slices_from ps' (off + rx_nD (snd p))
  end.
Lemma slices_from_keys ps off : map fst (slices_from ps off) = map key_of ps.
Proof. revert off; induction ps; cbn; intros; [reflexivity|f_equal; auto]. Qed.
Lemma all_slices_fold ps d off :
  NoDup (map fst d ++ map key_of ps) ->
  fold_left all_slices_step ps (d, off) = (d ++ slices_from ps off, off + psum ps).
Proof.
  revert d off; induction ps as [|p ps IH]; cbn [fold_left slices_from map]; intros d off H.
  - rewrite app_nil_r. f_equal. upsum; lia.
  - cbn [all_slices_step]. fold (key_of p).
    assert (Hn : ~ In (key_of p) (map fst d)).
    { apply NoDup_remove_2 in H. rewrite in_app_iff in H; tauto. }
    rewrite (dict_set_new _ pkey_eqb_ok) by assumption.
    rewrite IH.
    + rewrite <- app_assoc. cbn. f_equal. upsum; lia.
    + rewrite map_app; cbn. rewrite <- app_assoc. exact H.
Qed.
Lemma all_slices_eq l : accepted l = true -> get_all_slices l = slices_from (pairs l) 0.
Proof.
  intros Ha. unfold get_all_slices. rewrite all_slices_fold; [reflexivity|].
  cbn. apply accepted_nodup; assumption.
Qed.
Lemma slices_from_get ps off k : dict_get pkey_eqb k (slices_from ps off) = get_slice_loop ps off k.
Proof.
  revert off; induction ps as [|[s r] ps IH]; cbn; intros; [reflexivity|].
  unfold pkey_eqb at 1, key_of; cbn [fst snd].
  rewrite (Nat.eqb_sym (fst k)), (Nat.eqb_sym (snd k)).
  destruct (Nat.eqb (src_id s) (fst k) && Nat.eqb (rx_id r) (snd k)); auto.
Qed.
Lemma all_slices_agree l : accepted l = true ->
  map fst (get_all_slices l) = pair_keys l /\
  forall k, get_slice l k = match dict_get pkey_eqb k (get_all_slices l) with
                            | Some sl => Ok sl | None => Err KeyError end.
Proof.
  intros Ha. rewrite all_slices_eq by assumption. split.
  - rewrite slices_from_keys, pair_keys_eq; reflexivity.
  - intros k; rewrite slices_from_get; reflexivity.
Qed.

(** Source indices. *)
Lemma source_order_fold l d ii :
  NoDup (map fst d ++ map src_id l) ->
  fst (fold_left source_order_step l (d, ii))
  = d ++ (fix go (l : list src) (ii : nat) : list (nat * list nat) :=
            match l with [] => [] | s :: l' => (src_id s, seq ii (src_nf s)) :: go l' (ii + src_nf s) end) l ii.
Proof.
  revert d ii; induction l as [|s l IH]; cbn [fold_left map]; intros d ii H.
  - rewrite app_nil_r; reflexivity.
  - cbn [source_order_step].
    assert (Hn : ~ In (src_id s) (map fst d)).
    { apply NoDup_remove_2 in H. rewrite in_app_iff in H; tauto. }
    rewrite (dict_set_new _ Nat.eqb_eq) by assumption.
    rewrite IH.
    + rewrite <- app_assoc.
      assert (forall n z, map (fun i => ii + i) (seq z n) = seq (ii + z) n) as E.
      { induction n; cbn; intros; [reflexivity|]. f_equal. rewrite IHn. f_equal; lia. }
      rewrite E, Nat.add_0_r. reflexivity.
    + rewrite map_app; cbn. rewrite <- app_assoc. exact H.
Qed.
Lemma source_order_get l1 s l2 : valid_src_list (l1 ++ s :: l2) = true ->
  dict_get Nat.eqb (src_id s) (source_order (l1 ++ s :: l2))
  = Some (seq (list_sum (map src_nf l1)) (src_nf s)).
Proof.
  unfold valid_src_list. rewrite nodupb_NoDup. intros Hnd.
  unfold source_order. rewrite source_order_fold by exact Hnd. cbn [app].
  change (list_sum (map src_nf l1)) with (0 + list_sum (map src_nf l1)).
  generalize 0 as ii. induction l1 as [|x l1 IH]; cbn [app map list_sum fold_right]; intros ii; cbn [dict_get].
  - rewrite Nat.eqb_refl. do 2 f_equal. cbn. lia.
  - cbn [app map] in Hnd. inversion Hnd as [|? ? Hn Hd]; subst.
    rewrite (proj2 (Nat.eqb_neq _ _)).
    + rewrite IH by exact Hd. do 2 f_equal. unfold list_sum; cbn. lia.
    + intros E; apply Hn. rewrite <- E. rewrite map_app, in_app_iff. cbn; auto.
Qed.
Lemma source_order_none l k : ~ In k (map src_id l) -> dict_get Nat.eqb k (source_order l) = None.
Proof.
  unfold source_order.
  assert (forall d ii, ~ In k (map fst d) -> ~ In k (map src_id l) ->
     dict_get Nat.eqb k (fst (fold_left source_order_step l (d, ii))) = None) as G; [|intros; apply G; cbn; auto].
  induction l as [|s l IH]; cbn [fold_left map]; intros d ii Hd Hl.
  - apply (dict_get_none _ Nat.eqb_eq); assumption.
  - cbn [source_order_step]. apply IH; [|cbn in Hl; tauto].
    rewrite <- (dict_get_none _ Nat.eqb_eq).
    rewrite (dict_get_set_neq _ Nat.eqb_eq) by (cbn in Hl; intuition congruence).
    apply (dict_get_none _ Nat.eqb_eq); assumption.
Qed.

(** Cached nD. *)
Lemma src_nD_total s : src_nD s = total_rx (src_rxs s).
Proof. unfold src_nD, src_vnD, total_rx; apply list_sum_nat_eq. Qed.
Lemma nD_fresh s : sv_vnD s = None -> fst (survey_nD s) = total_data (sv_srcs s).
Proof.
  intros H. unfold survey_nD, survey_vnD; rewrite H. cbn. rewrite list_sum_nat_eq.
  unfold total_data. f_equal. apply map_ext; intros; apply src_nD_total.
Qed.

Lemma init_cache l s : survey_init l = Ok s -> sv_vnD s = None.
Proof. unfold survey_init; destruct (valid_src_list l); [injection 1 as <-; reflexivity|discriminate]. Qed.
Lemma run_no_read ops s : (forall o, In o ops -> o <> OpReadND) -> sv_vnD s = None ->
  sv_vnD (survey_run s ops) = None.
Proof.
  unfold survey_run. revert s; induction ops as [|o ops IH]; cbn [fold_left]; intros s H Hs; [assumption|].
  apply IH; [intros; apply H; cbn; auto|].
  destruct o; cbn.
  - exfalso; apply (H OpReadND); cbn; auto.
  - unfold survey_set_sources; destruct (valid_src_list l); assumption.
  - unfold survey_set_receivers; destruct (valid_rx_list rxs); assumption.
Qed.
Lemma run_reads ops s v : (forall o, In o ops -> o = OpReadND) ->
  (sv_vnD s = None \/ sv_vnD s = Some (map src_nD (sv_srcs s))) ->
  fst (survey_nD s) = v ->
  fst (survey_nD (survey_run s ops)) = v /\ sv_srcs (survey_run s ops) = sv_srcs s.
Proof.
  unfold survey_run. revert s; induction ops as [|o ops IH]; cbn [fold_left]; intros s H Hs Hv; [auto|].
  rewrite (H o) by (cbn; auto).
  assert (E : sv_srcs (survey_step s OpReadND) = sv_srcs s /\
              sv_vnD (survey_step s OpReadND) = Some (map src_nD (sv_srcs s))).
  { cbn. unfold survey_nD, survey_vnD. destruct Hs as [Hs|Hs]; rewrite Hs; cbn; auto. }
  destruct E as [E1 E2]. rewrite <- E1. apply IH.
  - intros; apply H; cbn; auto.
  - right. rewrite E2, E1; reflexivity.
  - rewrite <- Hv. unfold survey_nD, survey_vnD at 1. rewrite E2. cbn.
    unfold survey_vnD. destruct Hs as [Hs|Hs]; rewrite Hs; reflexivity.
Qed.
Lemma nD_matches_static l s ops1 ops2 :
  survey_init l = Ok s ->
  (forall o, In o ops1 -> o <> OpReadND) -> (forall o, In o ops2 -> o = OpReadND) ->
  let s' := survey_run s (ops1 ++ ops2) in fst (survey_nD s') = total_data (sv_srcs s').
Proof.
  intros Hi H1 H2. cbn zeta. unfold survey_run. rewrite fold_left_app. fold (survey_run s ops1).
  pose proof (run_no_read ops1 s H1 (init_cache _ _ Hi)) as Hc.
  destruct (run_reads ops2 (survey_run s ops1) _ H2 (or_introl Hc) (nD_fresh _ Hc)) as [E1 E2].
  unfold survey_run in *. rewrite E1, E2. reflexivity.
Qed.

Definition stale_ex_ops : list survey_op :=
  [OpReadND; OpSetSources [mkSrc 1 [mkRx 1 5] 1]].
Lemma nD_stale :
  exists l s ops, survey_init l = Ok s /\
    let s' := survey_run s ops in
    accepted (sv_srcs s') = true /\ fst (survey_nD s') <> total_data (sv_srcs s').
Proof.
  exists [mkSrc 0 [mkRx 0 2] 1], (mkSurvey [mkSrc 0 [mkRx 0 2] 1] None), stale_ex_ops.
  split; [reflexivity|]. cbn. split; [reflexivity|discriminate].
Qed.

(** Projections. *)
Section ProjFacts.
  Context {Loc Mat : Type} (interp : Loc -> nat -> nat -> Mat).
  Notation run := (prx_run interp).
  Definition cache_ok (r : prx Loc Mat) : Prop :=
    forall m g P, dict_get pkey_eqb (m, g) (p_cache r) = Some P -> P = interp (p_locs r) m g.
  Lemma getP_ok r m g : cache_ok r -> fst (getP interp r m g) = interp (p_locs r) m g
    /\ cache_ok (snd (getP interp r m g)) /\ p_locs (snd (getP interp r m g)) = p_locs r.
  Proof.
    intros H. unfold getP. destruct (dict_get pkey_eqb (m, g) (p_cache r)) as [P|] eqn:E; cbn.
    - auto.
    - split; [reflexivity|]. destruct (p_store r); cbn; auto. split; auto.
      intros m' g' P' E'; cbn in *.
      destruct (pkey_eqb (m', g') (m, g)) eqn:Ek.
      + apply pkey_eqb_ok in Ek. injection Ek as -> ->.
        rewrite (dict_get_set_eq _ pkey_eqb_ok) in E'. congruence.
      + rewrite (dict_get_set_neq _ pkey_eqb_ok) in E'; [auto|].
        intros K; rewrite K in Ek. rewrite (proj2 (pkey_eqb_ok _ _)) in Ek; [discriminate|reflexivity].
  Qed.
  Definition is_setloc (o : prx_op Loc) : bool := match o with PSetLoc _ => true | _ => false end.
  Lemma run_no_move ops r : (forall o, In o ops -> is_setloc o = false) -> cache_ok r ->
    cache_ok (run r ops) /\ p_locs (run r ops) = p_locs r.
  Proof.
    unfold prx_run. revert r; induction ops as [|o ops IH]; cbn [fold_left]; intros r H Hc; [auto|].
    pose proof (H o (or_introl eq_refl)) as Ho.
    destruct o as [m g|l0|b]; cbn in Ho; try discriminate; cbn [prx_step].
    - destruct (getP_ok r m g Hc) as (_ & H1 & H2).
      destruct (IH (snd (getP interp r m g))) as [H3 H4]; [intros; apply H; cbn; auto|exact H1|].
      split; [exact H3|congruence].
    - destruct (IH (set_store r b)) as [H3 H4]; [intros; apply H; cbn; auto|exact Hc|].
      split; [exact H3|exact H4].
  Qed.
  Lemma getP_no_move l b ops m g : (forall o, In o ops -> is_setloc o = false) ->
    fst (getP interp (run (mkPrx l b []) ops) m g) = interp l m g.
  Proof.
    intros H. destruct (run_no_move ops (mkPrx l b []) H) as [H1 H2].
    { intros m' g' P E; discriminate. }
    destruct (getP_ok _ m g H1) as [H3 _]. rewrite H3, H2. reflexivity.
  Qed.
  Definition sets_store (o : prx_op Loc) : bool := match o with PSetStore true => true | _ => false end.
  Lemma getP_no_store l ops m g : (forall o, In o ops -> sets_store o = false) ->
    let r := run (mkPrx l false []) ops in fst (getP interp r m g) = interp (p_locs r) m g.
  Proof.
    intros H. cbn zeta.
    assert (p_cache (run (mkPrx l false []) ops) = []) as Hc.
    { unfold prx_run.
      assert (forall r, p_cache r = [] -> p_store r = false ->
               p_cache (fold_left (prx_step interp) ops r) = []) as G; [|apply G; reflexivity].
      induction ops as [|o ops IH]; cbn [fold_left]; intros r Hr Hs; [assumption|].
      pose proof (H o (or_introl eq_refl)) as Ho.
      apply IH; [intros; apply H; cbn; auto| |]; destruct o as [m' g'|l'|[]]; cbn in *;
        try discriminate; auto; unfold getP; rewrite Hr; cbn; rewrite ?Hs; auto. }
    unfold getP. rewrite Hc. reflexivity.
  Qed.
  Lemma getP_moved l l' m g : interp l m g <> interp l' m g ->
    let r := run (mkPrx l true []) [PGet m g; PSetLoc l'] in
    p_locs r = l' /\ fst (getP interp r m g) <> interp (p_locs r) m g.
  Proof.
    intros H. cbn. split; [reflexivity|].
    unfold getP; cbn. rewrite (proj2 (pkey_eqb_ok _ _) eq_refl). cbn. exact H.
  Qed.
End ProjFacts.

Lemma time_getP_hit {Mat} (interpT : nat -> nat -> nat -> nat -> Mat) m t g1 t1 g2 t2 :
  interpT m t g1 t1 <> interpT m t g2 t2 ->
  fst (time_getP interpT (snd (time_getP interpT [] m t g1 t1)) m t g2 t2) <> interpT m t g2 t2.
Proof. unfold time_getP; cbn. rewrite (proj2 (pkey_eqb_ok _ _) eq_refl). auto. Qed.

(** Lookup of field columns. *)
Lemma source_indices_block l l1 s l2 : valid_src_list l = true -> l = l1 ++ s :: l2 ->
  get_source_indices l [src_id s] = Ok (seq (list_sum (map src_nf l1)) (src_nf s)).
Proof.
  intros Hv ->. cbn. rewrite source_order_get by assumption. cbn. rewrite app_nil_r. reflexivity.
Qed.
Lemma source_indices_app l a b : get_source_indices l (a ++ b)
  = do x <- get_source_indices l a; do y <- get_source_indices l b; Ok (x ++ y).
Proof.
  induction a as [|k a IH]; cbn.
  - destruct (get_source_indices l b); reflexivity.
  - destruct (dict_get Nat.eqb k (source_order l)); cbn; [|reflexivity].
    rewrite IH. destruct (get_source_indices l a); cbn; [|reflexivity].
    destruct (get_source_indices l b); cbn; [|reflexivity]. rewrite app_assoc; reflexivity.
Qed.
Lemma source_indices_unknown l ks : (exists k, In k ks /\ ~ In k (map src_id l)) ->
  get_source_indices l ks = Err KeyError.
Proof.
  intros (k & Hk & Hn). induction ks as [|k0 ks IH]; cbn in *; [contradiction|].
  destruct Hk as [->|Hk].
  - rewrite source_order_none by assumption. reflexivity.
  - destruct (dict_get Nat.eqb k0 (source_order l)); [|reflexivity]. rewrite IH by assumption. reflexivity.
Qed.
Lemma source_indices_all l : valid_src_list l = true ->
  get_source_indices l (map src_id l) = Ok (seq 0 (list_sum (map src_nf l))).
Proof.
  intros Hv.
  assert (forall l1 l2, l = l1 ++ l2 -> get_source_indices l (map src_id l2)
    = Ok (seq (list_sum (map src_nf l1)) (list_sum (map src_nf l2)))) as G.
  { intros l1 l2; revert l1. induction l2 as [|s l2 IH]; intros l1 E; [reflexivity|].
    change (map src_id (s :: l2)) with ([src_id s] ++ map src_id l2).
    rewrite source_indices_app, (source_indices_block l l1 s l2 Hv E).
    cbn [bind]. rewrite (IH (l1 ++ [s])) by (rewrite <- app_assoc; exact E). cbn [bind].
    cbn [map]. rewrite map_app, list_sum_app. cbn [map].
    replace (list_sum [src_nf s]) with (src_nf s) by (cbn; lia).
    replace (list_sum (src_nf s :: map src_nf l2)) with (src_nf s + list_sum (map src_nf l2)) by reflexivity.
    rewrite seq_app. reflexivity. }
  apply (G [] l eq_refl).
Qed.
Lemma receiver_indices_raise s r rs : get_receiver_indices s (r :: rs) = Err TypeError.
Proof. reflexivity. Qed.
Lemma receiver_indices_member : exists s r, In r (src_rxs s) /\ get_receiver_indices s [rx_id r] = Err TypeError.
Proof. exists (mkSrc 0 [mkRx 3 2] 1), (mkRx 3 2). split; [cbn; auto|reflexivity]. Qed.
