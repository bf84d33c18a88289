From Coq Require Import Reals Lra Lia Sorted.
From Verif Require Import Py Vec VecDeriv Frechet Joint RichardsFacts RichardsFacts3 SelfPotFacts Sip SpecSip SipFacts SipFacts2 SipFacts3 SipFacts4.
Local Open Scope R_scope.

Lemma one_mat x : is_mat 1 1 [[x]].
Proof. split; [reflexivity|]. constructor; [reflexivity|constructor]. Qed.
Definition ones_rx (rs : list srx) : Prop := Forall (fun r => is_mat (x_nd r) 1 (x_G r)) rs.
Lemma cell1_ok two rs : ones_rx rs -> sip_ok (cell1 two rs).
Proof.
  intros H. split; [|split; [reflexivity|]]. { intros m L. repeat (split; [first [exact L|reflexivity|apply one_mat]|]). apply one_mat. }
  unfold all_rx. cbn. rewrite app_nil_r. exact H.
Qed.
Lemma tau1_ok two rs : ones_rx rs -> sip_ok (tau1 two rs).
Proof.
  intros H. split; [|split; [reflexivity|]]. { intros m L. repeat (split; [first [exact L|reflexivity|apply one_mat]|]). apply one_mat. }
  unfold all_rx. cbn. rewrite app_nil_r. exact H.
Qed.
Lemma common_rx rs ts s : all_rx s = rs -> rs <> [] -> ts <> [] -> increasing ts -> Forall (fun r => x_times r = ts) rs -> common s ts.
Proof. intros <-. unfold common. auto. Qed.
Lemma all_cell1 two rs : all_rx (cell1 two rs) = rs.
Proof. apply app_nil_r. Qed.
Lemma all_tau1 two rs : all_rx (tau1 two rs) = rs.
Proof. apply app_nil_r. Qed.
Lemma inc12 : increasing [1; 2].
Proof. unfold increasing. constructor; [constructor; [constructor|constructor]|]. constructor; [lra|constructor]. Qed.
Lemma inc1 : increasing [1].
Proof. unfold increasing. constructor; [constructor|constructor]. Qed.
Definition two_rx : list srx := [rx1 1 [1; 2]; rx1 2 [1; 2]].
Lemma two_rx_ones : ones_rx two_rx.
Proof. repeat (constructor; [apply one_mat|]). constructor. Qed.
Lemma two_common two : common (cell1 two two_rx) [1; 2].
Proof. apply (common_rx two_rx); [apply all_cell1|discriminate|discriminate|exact inc12|]. constructor; [reflexivity|]. constructor; [reflexivity|constructor]. Qed.
Lemma tau_common two : common (tau1 two [rx1 1 [1]]) [1].
Proof. apply (common_rx [rx1 1 [1]]); [apply all_tau1|discriminate|discriminate|exact inc1|]. constructor; [reflexivity|constructor]. Qed.
Lemma pow1 x : 0 < x -> Rpower x 1 = x.
Proof. apply Rpower_1. Qed.
Lemma cell1_pderiv two rs m v t : 0 < t -> pderiv (cell1 two rs) (estores (cell1 two rs) [m]) [m] [v] t = [exp (- t) * v].
Proof.
  intros H. unfold pderiv, estores, at_, cellwise. cbn [p_pulses p_T p_eta p_taui p_c p_deta p_dtaui p_dc cell1 fst snd combine map response]. unfold step_off_eta, step_off_taui, step_off_c, exponent. rewrite pow1 by lra. rewrite Rmult_1_r. unfold vadd, vmul. cbn [zipw mv map dot]. f_equal. ring.
Qed.
Lemma tau1_at two rs m t : 0 < t -> 0 < m -> at_ (tau1 two rs) step_off (estores (tau1 two rs) [m]) t = [exp (- (t * m))].
Proof.
  intros H Hm. assert (0 < t * m) by (apply Rmult_lt_0_compat; assumption). unfold estores, at_, cellwise. cbn [p_pulses p_T p_eta p_taui p_c tau1 fst snd combine map response]. unfold step_off, exponent. rewrite pow1 by assumption. f_equal. ring.
Qed.
Lemma tau1_pderiv two rs a m v t : 0 < t -> 0 < a -> pderiv (tau1 two rs) (estores (tau1 two rs) [a]) [m] [v] t = [- t * exp (- (t * a)) * v].
Proof.
  intros H Ha. assert (0 < t * a) by (apply Rmult_lt_0_compat; assumption). unfold pderiv, estores, at_, cellwise. cbn [p_pulses p_T p_eta p_taui p_c p_deta p_dtaui p_dc tau1 fst snd combine map response]. unfold step_off_eta, step_off_taui, step_off_c, exponent. rewrite pow1 by assumption. unfold vadd, vmul. cbn [zipw mv map dot]. f_equal. field. lra.
Qed.
Lemma direct_cell1 rs : direct (cell1 false rs).
Proof. split; reflexivity. Qed.
Lemma kept_cell1 rs : kept (cell1 true rs).
Proof. split; reflexivity. Qed.
Lemma direct_tau1 rs : direct (tau1 false rs).
Proof. split; reflexivity. Qed.
Lemma kept_tau1 rs : kept (tau1 true rs).
Proof. split; reflexivity. Qed.

Lemma c89_adjoint_refuted : exists s ts m v w, sip_ok s /\ common s ts /\ direct s /\ length m = p_n s /\ length v = p_n s /\ length w = nD s /\
  exists j a, snd (yJvec s yinit m v false) = Ok j /\ snd (yJtvec s yinit m w false) = Ok a /\ dot w j <> dot a v.
Proof.
  set (s := cell1 false two_rx). exists s, [1; 2], [1], [1], [0; 1; 0; 0]. assert (OK : sip_ok s) by (apply cell1_ok, two_rx_ones). pose proof (two_common false : common s [1; 2]) as CM. split; [exact OK|]. split; [exact CM|]. split; [apply direct_cell1|]. do 3 (split; [reflexivity|]).
  destruct (c89_direct_adjoint s OK [1; 2] CM (or_introl (direct_cell1 _)) [1] [1] [0; 1; 0; 0] (direct_cell1 _) eq_refl eq_refl eq_refl) as (j & a & E1 & E2 & D). exists j, a. split; [exact E1|]. split; [exact E2|]. rewrite <- D.
  rewrite (jvec_value s OK [1; 2] CM (or_introl (direct_cell1 _)) [1] [1] eq_refl) in E1. cbn [map concat] in E1. unfold s in E1. rewrite !cell1_pderiv in E1 by lra. rewrite !all_cell1 in E1. cbn in E1. assert (EJ : j = [1 * (exp (- (1)) * 1) + 0; 2 * (exp (- (1)) * 1) + 0; 1 * (exp (- (2)) * 1) + 0; 2 * (exp (- (2)) * 1) + 0]) by congruence. subst j. unfold by_time, s. rewrite all_cell1. cbn [block two_rx rx1 x_nd x_times length seq map concat app Nat.mul Nat.add skipn firstn dot].
  assert (exp (- (2)) < exp (- (1))) by (apply exp_increasing; lra). pose proof (exp_pos (- (1))). lra.
Qed.
Lemma c89_fields_refuted : ~ forall s h m, sip_ok s -> direct s -> length m = p_n s -> In (YFields m) h -> snd (ydpred s (yhistory s h) m true) = snd (ydpred s yinit m false).
Proof.
  intros H. set (s := tau1 false [rx1 1 [1]]). assert (OK : sip_ok s) by (apply tau1_ok; constructor; [apply one_mat|constructor]). pose proof (tau_common false : common s [1]) as CM. specialize (H s [YFields [2]; YFields [1]] [2] OK (direct_tau1 _) eq_refl (or_introl eq_refl)).
  rewrite (dpred_value s OK [1] CM (or_introl (direct_tau1 _)) [2] eq_refl) in H. unfold yhistory in H. cbn [fold_left ydo] in H. set (st := fst (yfields s yinit [2])) in H.
  assert (I : Jinv s st) by (apply inv_fields; exact Logic.I).
  destruct (fields_state s OK (or_introl (direct_tau1 _)) st [1] I eq_refl) as (J & d & E & P & _). rewrite E in H. cbn [fst ydpred ygiven snd y_pred] in H. rewrite (dpred_value s OK [1] CM (or_introl (direct_tau1 _)) [1] eq_refl) in P.
  cbn [map concat] in H, P. unfold s in H, P. rewrite tau1_at in H by lra. rewrite tau1_at in P by lra. rewrite all_tau1 in *. cbn in H, P. assert (E2 : [1 * exp (- (1 * 1)) + 0] = [1 * exp (- (1 * 2)) + 0]) by congruence. assert (E3 : 1 * exp (- (1 * 1)) + 0 = 1 * exp (- (1 * 2)) + 0) by congruence.
  assert (exp (- (1 * 2)) < exp (- (1 * 1))) by (apply exp_increasing; lra). lra.
Qed.
Lemma c89_jvec_refuted : ~ forall s h m v, sip_ok s -> kept s -> (exists ts, common s ts) -> length m = p_n s -> snd (yJvec s (yhistory s h) m v false) = snd (yJvec s yinit m v false).
Proof.
  intros H. set (s := tau1 true [rx1 1 [1]]). assert (OK : sip_ok s) by (apply tau1_ok; constructor; [apply one_mat|constructor]). pose proof (tau_common true : common s [1]) as CM. specialize (H s [YFields [1]] [2] [1] OK (kept_tau1 _) (ex_intro _ [1] CM) eq_refl).
  rewrite (jvec_value s OK [1] CM (or_intror (kept_tau1 _)) [2] [1] eq_refl) in H. unfold yhistory in H. cbn [fold_left ydo] in H.
  destruct (fields_state s OK (or_intror (conj (kept_tau1 _) (ex_intro _ [1] CM))) yinit [1] Logic.I eq_refl) as (J & d & E & P & EJ & I). rewrite E in H. cbn [fst] in H. destruct (EJ (kept_tau1 _)) as (J0 & EJ0 & ->).
  rewrite (yJvec_stored s _ [2] [1] false J0 (estores s [1])) in H; [|reflexivity|reflexivity|exact EJ0|exact I|]. 2: { rewrite (ygetJ_stores s _ [2] J0); [reflexivity|reflexivity|reflexivity|exact EJ0|exact I]. }
  rewrite (Jmat_ok s OK [1] CM (kept_tau1 _)) in EJ0. assert (E0 : J0 = [[1]]) by (unfold s in EJ0; rewrite all_tau1 in EJ0; cbn in EJ0; congruence). subst J0. unfold jvec_with in H. rewrite (common_times s [1] CM) in H. change (stored s) with true in H. cbv iota in H. cbn [map concat] in H. unfold s in H. rewrite !tau1_pderiv in H by lra. rewrite all_tau1 in H. cbn in H.
  assert (E3 : 1 * (- (1) * exp (- (1 * 1)) * 1) + 0 = 1 * (- (1) * exp (- (1 * 2)) * 1) + 0) by congruence. assert (exp (- (1 * 2)) < exp (- (1 * 1))) by (apply exp_increasing; lra). lra.
Qed.
Definition mixed : sip := cell1 false [rx1 1 [1]; rx1 1 [2]].
Lemma mixed_times : unique_times mixed = [1; 2].
Proof.
  destruct (c89_times mixed) as [S E]. apply sorted_unique; [exact S|exact inc12|]. intros t. rewrite E. unfold mixed. rewrite all_cell1. cbn. split.
  - intros (r & [H|[H|[]]] & Ht); subst r; cbn in Ht; destruct Ht as [<-|[]]; auto.
  - intros [<-|[<-|[]]]; [exists (rx1 1 [1])|exists (rx1 1 [2])]; cbn; auto.
Qed.
Lemma c89_mixed_refuted : exists s m, sip_ok s /\ direct s /\ length m = p_n s /\
  length (value (snd (yJvec s yinit m m false))) <> length (predicted (snd (ydpred s yinit m false))) /\
  length (predicted (snd (ydpred s yinit m false))) = nD s /\ forall w, length w = nD s -> snd (yJtvec s yinit m w false) = Err KeyError.
Proof.
  exists mixed, [1]. assert (OK : sip_ok mixed) by (apply cell1_ok; repeat (constructor; [apply one_mat|]); constructor). split; [exact OK|]. split; [apply direct_cell1|]. split; [reflexivity|].
  rewrite (c89_data mixed [1] OK eq_refl (or_introl (direct_cell1 _))). rewrite yJvec_direct by reflexivity. cbn [predicted value]. unfold jvec_with, readings_at. change (stored mixed) with false. cbv iota. rewrite mixed_times.
  assert (LP : length (concat (map (fun t => concat (map (fun r => if has_time t (x_times r) then mv (x_G r) (polarization mixed [1] t) else []) (all_rx mixed))) [1; 2])) = nD mixed).
  { change (all_rx mixed) with [rx1 1 [1]; rx1 1 [2]]. cbn. destruct (Req_EM_T 1 1); [|congruence]. destruct (Req_EM_T 2 2); [|congruence]. destruct (Req_EM_T 2 1); [lra|]. destruct (Req_EM_T 1 2); [lra|]. reflexivity. }
  rewrite LP. split; [cbn; lia|]. split; [reflexivity|]. intros w Lw. unfold yJtvec. rewrite yset_ok by reflexivity. change (stored mixed) with false. cbv iota. unfold ygiven, yfields. rewrite forward_direct by reflexivity. cbn [snd]. rewrite Lw, Nat.eqb_refl. unfold add_times. rewrite mixed_times. change (all_rx mixed) with [rx1 1 [1]; rx1 1 [2]].
  cbn [fold_left bind back]. unfold entry at 1. cbn [rx1 x_times pos]. destruct (Req_EM_T 1 1); [|congruence]. cbn [bind]. unfold entry at 1. cbn [rx1 x_times pos]. destruct (Req_EM_T 2 1); [lra|]. reflexivity.
Qed.
Lemma cell1_smooth two rs m : smooth (cell1 two rs) [m].
Proof.
  split; [reflexivity|].
  assert (C : forall k, has_jacobian 1 1 (fun _ => [k]) [m] (mv [[0]])).
  { intros k h Lh. split; [reflexivity|]. split; [reflexivity|]. intros i Hi. assert (i = O) by lia. subst i. eapply dpl_eq; [|apply dpl_const]. destruct h as [|x [|y h]]; cbn in *; try lia. ring. }
  split; [|split; apply C]. intros h Lh. destruct h as [|x [|y h]]; cbn in Lh; try lia. cbn. split; [reflexivity|]. split; [reflexivity|]. intros i Hi. assert (i = O) by lia. subst i. cbn. apply (dpl_ext (fun t => x * t + m)); [intros; ring|]. eapply dpl_eq; [|apply (dpl_plus (fun t => x * t) (fun _ => m)); [apply dpl_scal, dpl_id|apply dpl_const]]. ring.
Qed.
Lemma one_rx_ones : ones_rx [rx1 1 [1]].
Proof. constructor; [apply one_mat|constructor]. Qed.
