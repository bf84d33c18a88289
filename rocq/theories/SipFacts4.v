From Coq Require Import Reals Lra Lia Sorted.
From Verif Require Import Py Vec VecDeriv Frechet Joint RichardsFacts RichardsFacts3 SelfPotFacts Sip SpecSip SipFacts SipFacts2 SipFacts3.
Local Open Scope R_scope.

(** Data *)
Lemma c89_data s m : sip_ok s -> length m = p_n s -> direct s \/ (kept s /\ exists ts, common s ts) ->
  snd (ydpred s yinit m false) = Ok (Some (readings_at s (polarization s m) (unique_times s))).
Proof.
  intros OK L [D|[D [ts CM]]].
  - unfold ydpred, ygiven, yfields. rewrite forward_direct by (first [apply stored_direct; assumption|assumption]). cbn [snd y_pred]. do 2 f_equal. unfold pred_with, readings_at. rewrite stored_direct by exact D. f_equal. apply map_ext. intros t. rewrite at_polar by assumption. reflexivity.
  - rewrite (dpred_value s OK ts CM (or_intror D) m L). do 2 f_equal. rewrite (common_times s ts CM), (pred_all s ts CM). f_equal. apply map_ext. intros t. rewrite at_polar by assumption. reflexivity.
Qed.
(** One receiver, or one time *)
Lemma block_whole n : forall rs w from, Forall (fun r => length (x_times r) = 1%nat) rs -> length w = (from + list_sum (map x_nd rs) * n)%nat -> n = 1%nat -> block rs w from 0 = skipn from w.
Proof.
  induction rs as [|r rs IH]; intros w from F Lw N; cbn [block]; subst n.
  - cbn in Lw. rewrite skipn_all2 by lia. reflexivity.
  - cbn [map] in Lw. rewrite list_sum_cons in Lw. rewrite (Forall_inv F). rewrite IH; [|exact (Forall_inv_tail F)|lia|reflexivity]. replace (from + 0 * x_nd r)%nat with from by lia. rewrite Nat.mul_1_r. rewrite <- (firstn_skipn (x_nd r) (skipn from w)) at 2. f_equal. rewrite skipn_skipn. f_equal. lia.
Qed.
Lemma chunks k : forall n from (w : vec), length w = (from + k * n)%nat -> concat (map (fun i => firstn k (skipn (from + i * k) w)) (seq 0 n)) = skipn from w.
Proof.
  induction n as [|n IH]; intros from w L; cbn [seq map concat].
  - rewrite skipn_all2 by lia. reflexivity.
  - rewrite <- seq_shift, map_map. rewrite (map_ext _ (fun i => firstn k (skipn ((from + k) + i * k) w))) by (intros i; do 2 f_equal; lia). rewrite IH by lia. rewrite Nat.mul_0_l, Nat.add_0_r. rewrite <- (firstn_skipn k (skipn from w)) at 2. f_equal. rewrite skipn_skipn. f_equal. lia.
Qed.
Lemma by_time_same s ts w : common s ts -> length w = nD s -> (exists t, ts = [t]) \/ (exists r, all_rx s = [r]) -> by_time s ts w = w.
Proof.
  intros CM Lw H. pose proof (nD_eq s ts CM) as ND. destruct CM as (_ & _ & _ & F). unfold by_time. rewrite ND in Lw. destruct H as [[t ->]|[r E]].
  - cbn [length seq map concat]. rewrite app_nil_r. rewrite (block_whole 1); [reflexivity| |exact Lw|reflexivity]. apply Forall_forall. intros r Hr. rewrite Forall_forall in F. rewrite (F r Hr). reflexivity.
  - rewrite E in *. cbn [block map] in *. rewrite list_sum_cons in Lw. cbn [list_sum fold_right] in Lw. rewrite (map_ext _ (fun i => firstn (x_nd r) (skipn (0 + i * x_nd r) w))) by (intros i; rewrite app_nil_r; reflexivity). rewrite chunks by (rewrite Lw; lia). reflexivity.
Qed.
Lemma c89_adjoint_partial s ts m v w : sip_ok s -> common s ts -> direct s -> (exists t, ts = [t]) \/ (exists r, all_rx s = [r]) -> length m = p_n s -> length v = p_n s -> length w = nD s ->
  exists j a, snd (yJvec s yinit m v false) = Ok j /\ snd (yJtvec s yinit m w false) = Ok a /\ dot w j = dot a v.
Proof.
  intros OK CM D H L Lv Lw. destruct (c89_direct_adjoint s OK ts CM (or_introl D) m v w D L Lv Lw) as (j & a & E1 & E2 & DD). exists j, a. rewrite by_time_same in DD by assumption. auto.
Qed.

(** Histories *)
Section H.
  Context (s : sip).
  Lemma inv_set st m : Jinv s st -> Jinv s (fst (yset s st m)).
  Proof. unfold yset. destruct (Nat.eqb _ _); auto. Qed.
  Lemma inv_with st m : Jinv s st -> Jinv s (fst (yJ_with s st m)).
  Proof.
    intros H. apply (inv_set st m) in H. unfold yJ_with. destruct (yset s st m) as [st' [u|e]]; cbn [fst] in *; [|exact H]. destruct (y_J st') eqn:E; [exact H|]. destruct (Jmat s) eqn:EJ; [exact EJ|exact H].
  Qed.
  Lemma inv_forward st m : Jinv s st -> Jinv s (fst (forward s st m)).
  Proof.
    intros H. apply (inv_set st m) in H. unfold forward. destruct (yset s st m) as [st' [u|e]]; cbn [fst] in *; [|exact H]. destruct (stored s); [|exact H].
    assert (H2 : Jinv s (mkY (y_model st') (Some (p_eta s m, (p_taui s m, p_c s m))) (y_pred st') (y_J st'))) by exact H. apply (inv_with _ m) in H2. destruct (yJ_with s _ m). exact H2.
  Qed.
  Lemma inv_fields st m : Jinv s st -> Jinv s (fst (yfields s st m)).
  Proof. intros H. apply (inv_forward st m) in H. unfold yfields. destruct (forward s st m) as [st' [d|e]]; exact H. Qed.
  Lemma inv_given st m g : Jinv s st -> Jinv s (fst (ygiven s st m g)).
  Proof. unfold ygiven. destruct g; [auto|apply inv_fields]. Qed.
  Lemma inv_getJ st m g : Jinv s st -> Jinv s (fst (ygetJ s st m g)).
  Proof.
    intros H. apply (inv_set st m) in H. unfold ygetJ. destruct (yset s st m) as [st' [u|e]]; cbn [fst] in *; [|exact H]. destruct (y_J st') eqn:E; [exact H|]. apply (inv_given st' m g) in H. destruct (ygiven s st' m g) as [st2 [u2|e]]; cbn [fst] in *; [|exact H]. apply inv_with. exact Logic.I.
  Qed.
  Lemma inv_do st c : Jinv s st -> Jinv s (ydo s st c).
  Proof.
    intros H. destruct c as [m|m g|m v g|m w g|m g]; cbn [ydo].
    - apply inv_fields, H.
    - apply (inv_given st m g) in H. unfold ydpred. destruct (ygiven s st m g) as [st' [u|e]]; exact H.
    - apply (inv_set st m) in H. unfold yJvec. destruct (yset s st m) as [st' [u|e]]; cbn [fst] in *; [|exact H]. destruct (stored s).
      + apply (inv_getJ st' m g) in H. destruct (ygetJ s st' m g). exact H.
      + apply (inv_given st' m g) in H. destruct (ygiven s st' m g) as [st2 [u2|e]]; exact H.
    - apply (inv_set st m) in H. unfold yJtvec. destruct (yset s st m) as [st' [u|e]]; cbn [fst] in *; [|exact H]. destruct (stored s).
      + apply (inv_getJ st' m g) in H. destruct (ygetJ s st' m g). exact H.
      + apply (inv_given st' m g) in H. destruct (ygiven s st' m g) as [st2 [u2|e]]; exact H.
    - apply inv_getJ, H.
  Qed.
  Lemma inv_history h : Jinv s (yhistory s h).
  Proof. unfold yhistory. assert (H : Jinv s yinit) by exact Logic.I. revert H. generalize yinit. induction h as [|c h IH]; intros st H; [exact H|]. cbn [fold_left]. apply IH, inv_do, H. Qed.

  Context (OK : sip_ok s) (KD : direct s \/ (kept s /\ exists ts, common s ts)).
  Lemma fields_state st m : Jinv s st -> length m = p_n s -> exists J d, yfields s st m = (mkY (Some m) (Some (estores s m)) (Some d) J, Ok tt) /\ snd (ydpred s yinit m false) = Ok (Some d) /\ (kept s -> exists J0, Jmat s = Ok J0 /\ J = Some J0) /\ Jinv s (mkY (Some m) (Some (estores s m)) (Some d) J).
  Proof.
    intros I L. unfold ydpred, ygiven. destruct KD as [D|[D [ts CM]]].
    - unfold yfields. rewrite !forward_direct by (first [apply stored_direct; assumption|assumption]). do 2 eexists. split; [reflexivity|]. split; [reflexivity|]. split; [intros [K2 _]; destruct D; congruence|exact I].
    - pose proof (Jmat_ok s OK ts CM D) as EJ. unfold yfields. rewrite (forward_stored s st m _ (stored_kept s D) L EJ I). rewrite (forward_stored s yinit m _ (stored_kept s D) L EJ Logic.I). do 2 eexists. split; [reflexivity|]. split; [reflexivity|]. split; [eexists; split; [exact EJ|reflexivity]|exact EJ].
  Qed.
  Lemma c89_dpred_history h m : length m = p_n s -> snd (ydpred s (yhistory s h) m false) = snd (ydpred s yinit m false).
  Proof. intros L. destruct (fields_state (yhistory s h) m (inv_history h) L) as (J & d & E & P & _). rewrite P. unfold ydpred, ygiven. rewrite E. reflexivity. Qed.
  Lemma direct_jvec st m v : direct s -> length m = p_n s -> snd (yJvec s st m v false) = snd (yJvec s yinit m v false).
  Proof. intros D L. rewrite !yJvec_direct by (first [apply stored_direct; assumption|assumption]). reflexivity. Qed.
  Lemma direct_jtvec st m w : direct s -> length m = p_n s -> snd (yJtvec s st m w false) = snd (yJtvec s yinit m w false).
  Proof. intros D L. unfold yJtvec. rewrite !yset_ok by exact L. rewrite stored_direct by exact D. unfold ygiven, yfields. rewrite !forward_direct by (first [apply stored_direct; assumption|assumption]). reflexivity. Qed.
  Lemma after_fields st m v w g : Jinv s st -> length m = p_n s -> let st1 := fst (yfields s st m) in
    snd (ydpred s st1 m g) = snd (ydpred s yinit m false) /\ snd (yJvec s st1 m v g) = snd (yJvec s yinit m v false) /\ snd (yJtvec s st1 m w g) = snd (yJtvec s yinit m w false).
  Proof.
    intros I L. destruct (fields_state st m I L) as (J & d & E & P & EJ & I1). cbv zeta. rewrite E. cbn [fst]. set (st1 := mkY (Some m) (Some (estores s m)) (Some d) J) in *. split; [|split].
    - destruct g; [rewrite P; reflexivity|]. destruct (fields_state st1 m I1 L) as (J2 & d2 & E2 & P2 & _). rewrite P2. unfold ydpred, ygiven. rewrite E2. reflexivity.
    - destruct KD as [D|[D _]].
      + destruct g; [|apply direct_jvec; assumption]. rewrite yJvec_direct by (first [apply stored_direct; assumption|assumption]). unfold yJvec. rewrite yset_ok by exact L. rewrite stored_direct by exact D. unfold jvec_with. rewrite stored_direct by exact D. reflexivity.
      + destruct (EJ D) as (J0 & EJ0 & ->). rewrite (yJvec_stored s yinit m v false J0 (estores s m)); [|apply stored_kept; exact D|exact L|exact EJ0|exact Logic.I|].
        * rewrite (yJvec_stored s st1 m v g J0 (estores s m)); [reflexivity|apply stored_kept; exact D|exact L|exact EJ0|exact I1|]. rewrite (ygetJ_stores s _ m J0); [reflexivity|apply stored_kept; exact D|exact L|exact EJ0|exact I1].
        * rewrite (ygetJ_stores s _ m J0); [reflexivity|apply stored_kept; exact D|exact L|exact EJ0|exact Logic.I].
    - destruct KD as [D|[D _]].
      + destruct g; [|apply direct_jtvec; assumption]. unfold yJtvec. rewrite !yset_ok by exact L. rewrite stored_direct by exact D. unfold ygiven, yfields. rewrite forward_direct by (first [apply stored_direct; assumption|assumption]). reflexivity.
      + destruct (EJ D) as (J0 & EJ0 & ->). unfold yJtvec. rewrite !yset_ok by exact L. rewrite stored_kept by exact D.
        set (sa := mkY (Some m) (y_stores st1) (y_pred st1) (y_J st1)). set (sb := mkY (Some m) (y_stores yinit) (y_pred yinit) (y_J yinit)).
        pose proof (ygetJ_ok s sa m J0 g (stored_kept s D) L EJ0 I1) as A1. pose proof (ygetJ_stores s sa m J0 g (stored_kept s D) L EJ0 I1) as A2.
        pose proof (ygetJ_ok s sb m J0 false (stored_kept s D) L EJ0 Logic.I) as B1. pose proof (ygetJ_stores s sb m J0 false (stored_kept s D) L EJ0 Logic.I) as B2.
        destruct (ygetJ s sa m g) as [sta ra]. destruct (ygetJ s sb m false) as [stb rb]. cbn [fst snd] in *. subst ra rb. unfold need. rewrite A2, B2. reflexivity.
  Qed.
  Lemma c89_history h m v w : length m = p_n s ->
    snd (ydpred s (yhistory s h) m false) = snd (ydpred s yinit m false) /\
    (direct s -> snd (yJvec s (yhistory s h) m v false) = snd (yJvec s yinit m v false) /\ snd (yJtvec s (yhistory s h) m w false) = snd (yJtvec s yinit m w false)) /\
    forall g, let st := yhistory s (h ++ [YFields m]) in snd (ydpred s st m g) = snd (ydpred s yinit m false) /\ snd (yJvec s st m v g) = snd (yJvec s yinit m v false) /\ snd (yJtvec s st m w g) = snd (yJtvec s yinit m w false).
  Proof.
    intros L. split; [apply c89_dpred_history; exact L|]. split; [intros D; split; [apply direct_jvec|apply direct_jtvec]; assumption|]. intros g. cbv zeta. unfold yhistory. rewrite fold_left_app. cbn [fold_left ydo]. apply after_fields; [apply inv_history|exact L].
  Qed.
End H.
Lemma c89_store3d s h m : p_2d s = false -> p_storeJ s = true -> length m = p_n s -> snd (yfields s (yhistory s h) m) = Err AttributeError.
Proof.
  intros A B L. assert (EJ : Jmat s = Err AttributeError) by (unfold Jmat; rewrite A; reflexivity). pose proof (inv_history s h) as I. unfold Jinv in I. unfold yfields, forward. rewrite yset_ok by exact L. unfold stored. rewrite A, B. cbn [orb y_J]. unfold yJ_with. rewrite yset_ok by exact L. cbn [y_J]. destruct (y_J (yhistory s h)) as [J|]; [congruence|]. rewrite EJ. reflexivity.
Qed.
Lemma c89_diag s st m g : exists e, snd (ygetJtJdiag s st m g) = Err e.
Proof. unfold ygetJtJdiag. destruct (ygetJ s st m g) as [st' [J|e]]; eexists; reflexivity. Qed.

(** Projections *)
Lemma rowscale_mv P : forall a u, length a = length P -> mv (rowscale a P) u = vmul a (mv P u).
Proof. induction P as [|r P IH]; intros [|x a] u L; cbn in *; try lia; [reflexivity|]. unfold vmul in *. cbn. f_equal; [unfold rowscale in *; apply dot_vscale_l|apply IH; lia]. Qed.
Lemma vmul_inv_self v : Forall (fun x => x <> 0) v -> vmul (map Rinv v) v = repeat 1 (length v).
Proof. induction 1 as [|x v H _ IH]; [reflexivity|]. cbn. unfold vmul in *. cbn. rewrite IH. f_equal. field. exact H. Qed.
Lemma rowscale_ones P n : length P = n -> rowscale (map Rinv (repeat 1 n)) P = P.
Proof. revert P. induction n as [|n IH]; intros [|r P] L; cbn in *; try lia; [reflexivity|]. unfold rowscale in *. cbn. f_equal; [rewrite Rinv_1; unfold vscale; rewrite <- (map_id r) at 2; apply map_ext; intros; ring|apply IH; lia]. Qed.
Lemma set_again P u : Forall (fun x => x <> 0) (mv P u) -> forall v, set_voltage true P u (Some (rowscale (map Rinv (mv P u)) P), v) = (Some (rowscale (map Rinv (mv P u)) P), Some (repeat 1 (length P))).
Proof.
  intros N v. unfold set_voltage, proj_volt. cbn [fst]. assert (E : mv (rowscale (map Rinv (mv P u)) P) u = repeat 1 (length P)). { rewrite rowscale_mv by (rewrite map_length, mv_length; reflexivity). rewrite vmul_inv_self by exact N. rewrite mv_length. reflexivity. }
  rewrite E. do 2 f_equal. apply rowscale_ones. unfold rowscale. rewrite map_length, combine_length, map_length, mv_length. apply Nat.min_id.
Qed.
Lemma c89_projection P u k : Forall (fun x => x <> 0) (mv P u) ->
  snd (proj_charge true P (Nat.iter (S k) (set_voltage true P u) (None, None))) = Ok (rowscale (map Rinv (mv P u)) P) /\
  snd (proj_charge false P (Nat.iter (S k) (set_voltage false P u) (None, None))) = Ok (rowscale (map Rinv (mv P u)) P).
Proof.
  intros N. split.
  - assert (E : exists v, Nat.iter (S k) (set_voltage true P u) (None, None) = (Some (rowscale (map Rinv (mv P u)) P), v)).
    { induction k as [|k [v IH]]; [eexists; reflexivity|]. change (Nat.iter (S (S k)) (set_voltage true P u) (None, None)) with (set_voltage true P u (Nat.iter (S k) (set_voltage true P u) (None, None))). rewrite IH. rewrite set_again by exact N. eexists. reflexivity. }
    destruct E as [v ->]. reflexivity.
  - assert (E : Nat.iter (S k) (set_voltage false P u) (None, None) = (None, Some (mv P u))).
    { induction k as [|k IH]; [reflexivity|]. change (Nat.iter (S (S k)) (set_voltage false P u) (None, None)) with (set_voltage false P u (Nat.iter (S k) (set_voltage false P u) (None, None))). rewrite IH. reflexivity. }
    rewrite E. reflexivity.
Qed.
Lemma c89_voltage P u k : Forall (fun x => x <> 0) (mv P u) -> snd (Nat.iter (S (S k)) (set_voltage true P u) (None, None)) = Some (repeat 1 (length P)).
Proof.
  intros N. assert (E : exists v, Nat.iter (S k) (set_voltage true P u) (None, None) = (Some (rowscale (map Rinv (mv P u)) P), v)).
  { induction k as [|k [v IH]]; [eexists; reflexivity|]. change (Nat.iter (S (S k)) (set_voltage true P u) (None, None)) with (set_voltage true P u (Nat.iter (S k) (set_voltage true P u) (None, None))). rewrite IH. rewrite set_again by exact N. eexists. reflexivity. }
  destruct E as [v E]. change (Nat.iter (S (S k)) (set_voltage true P u) (None, None)) with (set_voltage true P u (Nat.iter (S k) (set_voltage true P u) (None, None))). rewrite E, set_again by exact N. reflexivity.
Qed.
