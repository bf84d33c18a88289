(** Counterexamples and examples for layered DC resistivity. *)
From Verif Require Import Py Vec VecDeriv PropsM Geom SpecGeom GeomFacts GeomFacts2 Dc1d SpecDc1d Dc1dFacts Dc1dFacts2 Dc1dFacts3 Dc1dFacts4 Dc1dFacts5.
From Verif Require Mt1d SpecMt1d Mt1dFacts5 Survey.
From Coq Require Import Lra Lia String.
Local Open Scope R_scope.
Notation length := List.length.
Notation concat := List.concat.

Lemma half_usable x : 0 < x -> usable_sim half 1 0 [x].
Proof.
  intros Hx. split; [reflexivity|]. split.
  - split; [reflexivity|]. split; [constructor; [exact Hx|constructor]|]. cbn. split; [auto|].
    split; [split; [reflexivity|constructor; [reflexivity|constructor]]|].
    intros h Hh. eapply vderiv_ext with (f := fun t => vadd [x] (vscale t h)); [reflexivity|].
    destruct h as [|y [|]]; try discriminate. replace (mv [[1]] [y]) with [y] by (cbn; f_equal; ring).
    apply vderiv_line; reflexivity.
  - split; [reflexivity|]. split; [constructor|exact I].
Qed.
Lemma two_usable : usable_sim two 2 1 [3; 4] /\ invertible two.
Proof.
  assert (V : forall h : vec, length h = 2%nat -> exists x y, h = [x; y]).
  { intros [|x [|y [|]]] H; try discriminate. eauto. }
  split; [|left; reflexivity]. split; [reflexivity|]. split.
  - split; [reflexivity|]. split; [repeat (constructor; [cbn; lra|]); constructor|]. split; [reflexivity|].
    split; [split; [reflexivity|repeat (constructor; [reflexivity|]); constructor]|].
    intros h Hh. destruct (V h Hh) as (x & y & ->). split; [reflexivity|]. split; [reflexivity|].
    intros [|[|i]] Hi; [| |lia]; cbn.
    * eapply dpl_eq; [|apply dpl_const]. ring.
    * eapply dpl_eq; [|apply dpl_plus; [apply dpl_const|apply dpl_mult; [apply dpl_id|apply dpl_const]]]. cbn. ring.
  - split; [reflexivity|]. split; [repeat (constructor; [cbn; lra|]); constructor|]. split; [reflexivity|].
    split; [split; [reflexivity|repeat (constructor; [reflexivity|]); constructor]|].
    intros h Hh. destruct (V h Hh) as (x & y & ->). split; [reflexivity|]. split; [reflexivity|].
    intros [|i] Hi; [|lia]; cbn.
    eapply dpl_eq; [|apply dpl_plus; [apply dpl_const|apply dpl_mult; [apply dpl_id|apply dpl_const]]]. cbn. ring.
Qed.
Lemma no_maps rnd spline s sv f co m v u n : Mt1d.is_mapped (dc_rho s) = false -> Mt1d.is_mapped (dc_thick s) = false -> coefficients rnd spline f [] sv = Ok co ->
  length (Mt1d.pval (dc_rho s) m) = S n -> length (Mt1d.pval (dc_thick s) m) = n ->
  (exists d, fresh rnd spline s sv f (CallDpred m) = Ok d) /\ fresh rnd spline s sv f (CallJvec m v) = Err ValueError /\ fresh rnd spline s sv f (CallJtvec m u) = Err AttributeError.
Proof.
  intros H1 H2 HC L1 L2. rewrite fresh_dpred, fresh_jvec, fresh_jtvec, HC. cbn [bind]. unfold dpred0, phi_tilde, getJ0, dphi_tilde. rewrite (layers_ok n) by assumption. cbn [bind].
  destruct (dc_rho s), (dc_thick s); try discriminate. cbn. eauto.
Qed.
(** A change of survey is not noticed. *)
Lemma stale_survey rnd spline s sv sv' f m co : coefficients rnd spline f [] sv = Ok co ->
  snd (do_call rnd spline s (do_calls rnd spline s (st0 sv f false) [CallDpred m; SetSurvey sv']) (CallDpred m)) = fresh rnd spline s sv f (CallDpred m).
Proof. intros H. rewrite fresh_dpred, H. cbn [do_calls do_call compute st0 st_co st_filt st_survey]. rewrite H. reflexivity. Qed.
Lemma survey_refuted : exists sv sv' f m, dipole_tables sv' /\ volts sv' /\
  (exists d, fresh (fun x => x) flat_spline half sv' f (CallDpred m) = Ok d) /\
  snd (do_call (fun x => x) flat_spline half (do_calls (fun x => x) flat_spline half (st0 sv f false) [CallDpred m; SetSurvey sv']) (CallDpred m)) <> fresh (fun x => x) flat_spline half sv' f (CallDpred m).
Proof.
  exists (line Volt [1]), (line Volt [2]), (simple_filter 1), [1]. split; [apply line_ok|]. split; [repeat constructor; discriminate|].
  assert (N : Volt <> AppRes) by discriminate.
  destruct (line_coef (fun x => x) flat_spline Volt 1 [] (simple_filter 1) N ltac:(repeat constructor; lra) eq_refl) as [co EC].
  rewrite (stale_survey _ _ half _ (line Volt [2]) _ [1] co EC). rewrite !line_data by (try apply flat_keeps; try exact N; lra). split; [eauto|].
  intros K. injection K as K. pose proof PI_RGT_0 as PP. assert (K2 : 1 / (2 * PI * 1) = 2 * (1 / (2 * PI * 2))) by (field; lra).
  assert (0 < 1 / (2 * PI * 2)) by (apply Rdiv_lt_0_compat; lra). lra.
Qed.
(** A change of filter is noticed by the data, not by a stored Jacobian. *)
Lemma half_jvec spline c d m v : keeps_constants spline -> 0 < d -> 0 < m -> fresh (fun x => x) spline half (line Volt [d]) (simple_filter c) (CallJvec [m] [v]) = Ok [c * (v / (2 * PI * d))].
Proof.
  intros HK Hd Hm. assert (N : Volt <> AppRes) by discriminate.
  destruct (line_coef (fun x => x) spline Volt d [] (simple_filter c) N ltac:(repeat constructor; exact Hd) eq_refl) as [co EC].
  destruct (line_ok Volt [d]) as (L1 & L2 & L3). pose proof PI_RGT_0 as PP. destruct (line_clear d Hd) as (A & B & C).
  rewrite fresh_jvec, EC. cbn [bind]. rewrite (getJ0_ok half 1 0 [m] co (half_usable m Hm)). cbn [bind]. rewrite (jvec_ok half 1 0 [m] co [v] (or_introl eq_refl) eq_refl).
  unfold Jv. cbn [half dc_rho dc_thick Mt1dFacts5.dir]. f_equal.
  replace (map _ (snd co)) with (vconst (length (snd co)) v).
  - rewrite (homogeneous_coef (fun x => x) spline HK (simple_filter c) (line Volt [d]) co v 1 c EC (simple_weighs c) L1 L2 L3).
    + cbn [line g_pairs flat_map map g_rxs app List.concat fst snd pair_spreads g_src receiver_spreads g_rx]. unfold reading. cbn [g_type]. rewrite voltage_half by assumption. rewrite C. f_equal. field. lra.
    + cbn [line g_pairs flat_map map g_rxs app]. constructor; [|constructor]. cbn [fst snd pair_spreads g_src receiver_spreads g_rx map g_type]. split; [|discriminate]. constructor; [|constructor]. auto.
  - induction (snd co) as [|lam l IH]; [reflexivity|]. cbn [length map]. change (vconst (S (length l)) v) with (v :: vconst (length l) v). rewrite <- IH. f_equal.
    unfold Rr, Rh, rowr, rowh, lay, half. cbn. ring.
Qed.
Lemma filter_refuted : exists sv f f' m v, 
  (exists d, fresh (fun x => x) flat_spline half sv f' (CallJvec m v) = Ok d) /\
  snd (do_call (fun x => x) flat_spline half (do_calls (fun x => x) flat_spline half (st0 sv f false) [CallJvec m v; SetFilter f']) (CallJvec m v)) <> fresh (fun x => x) flat_spline half sv f' (CallJvec m v).
Proof.
  exists (line Volt [1]), (simple_filter 1), (simple_filter 2), [1], [1].
  rewrite (half_jvec flat_spline 2 1 1 1 flat_keeps) by lra. split; [eauto|].
  pose proof (half_jvec flat_spline 1 1 1 1 flat_keeps ltac:(lra) ltac:(lra)) as H1. unfold fresh in H1.
  cbn [do_calls do_call] in *.
  destruct (getJ (fun x => x) flat_spline half (st0 (line Volt [1]) (simple_filter 1) false) [1]) as [x1 r] eqn:EG.
  cbn [fst snd] in *. destruct r as [J|]; [|discriminate]. cbn [bind] in H1.
  assert (S : st_J x1 = Some J /\ st_model x1 = Some [1]).
  { unfold getJ in EG. cbn [set_model st0 st_model st_J st_fix orb st_survey st_filt st_co compute] in EG.
    destruct (coefficients _ _ _ _ _) as [co|]; cbn [bind] in EG; [|discriminate]. destruct (getJ0 half co [1]) as [J0|]; [|discriminate]. injection EG as <- <-. split; reflexivity. }
  destruct S as [S1 S2].
  assert (AC : allclose [1] [1] = Ok true).
  { unfold allclose. cbn. unfold close. destruct (Rle_dec _ _) as [|F]; [reflexivity|]. exfalso. apply F. replace (1 - 1) with 0 by ring. rewrite Rabs_R0. pose proof (Rabs_pos 1). lra. }
  unfold getJ at 1. unfold set_model. cbn [st_model st_J st_fix st_survey st_filt st_co]. rewrite S2, AC. cbn [orb]. rewrite S1. cbn [snd bind]. rewrite H1.
  pose proof PI_RGT_0 as PP. intros K. injection K as K. assert (0 < 1 / (2 * PI * 1)) by (apply Rdiv_lt_0_compat; lra). lra.
Qed.
(** Four data in one receiver. *)
Lemma four_points : n_out (fun x => x) (f_base (simple_filter 1)) 1 4 = 5%nat.
Proof.
  unfold n_out. cbv zeta. cbn [simple_filter f_base nth last List.length].
  assert (P : ppd (fun x => x) [1; exp 1] = 1). { unfold ppd. cbn [nth]. replace (exp 1 / 1) with (exp 1) by field. rewrite ln_exp. field. }
  rewrite P. assert (E : exp 1 / 1 / (1 / 4) = exp 1 * 4) by field. rewrite E, ln_mult, ln_exp, Rmult_1_r by (try apply exp_pos; lra).
  assert (L : ln 4 < 2). { rewrite <- (ln_exp 2). apply ln_increasing; [lra|]. replace 2 with (1 + 1) by ring. rewrite exp_plus. pose proof (exp_ineq1 1 ltac:(lra)) as X. pose proof (exp_pos 1).
    apply Rlt_le_trans with (2 * exp 1); [lra|]. apply Rmult_le_compat_r; lra. }
  destruct (ceil_spec (1 + ln 4)) as [_ C]. assert (CZ : (ceil (1 + ln 4) < 4)%Z) by (apply lt_IZR; lra).
  replace (_ <? 3)%Z with true; [reflexivity|]. symmetry. apply Z.ltb_lt. cbn [Z.of_nat Pos.of_succ_nat Pos.succ]. lia.
Qed.
Lemma four_coef : exists co, coefficients (fun x => x) flat_spline (simple_filter 1) [] (line AppRes [1; 2; 3; 4]) = Ok co /\
  forall rho, mv (fst co) (vconst (length (snd co)) rho) = [rho; rho / 2; rho / 3; rho / 4].
Proof.
  pose proof PI_RGT_0 as PP.
  unfold coefficients. rewrite line_offsets by (repeat constructor; lra). cbn [bind].
  destruct (line_factor AppRes [1; 2; 3; 4]) as [[d G] HG]. rewrite HG. cbn [bind fst].
  assert (L1 : lowest [1; 2; 3; 4] = 1). { unfold lowest. cbn. rewrite (Rmin_right 4 1), (Rmin_right 3 1), (Rmin_right 2 1), (Rmin_left 1 1) by lra. reflexivity. }
  assert (L2 : highest [1; 2; 3; 4] = 4). { unfold highest. cbn. rewrite (Rmax_left 4 1), (Rmax_right 3 4), (Rmax_right 2 4), (Rmax_right 1 4) by lra. reflexivity. }
  rewrite L1, L2. set (pts := dlf_points (fun x => x) (f_base (simple_filter 1)) 1 4). 
  assert (LL : length (fst pts) = 5%nat /\ length (snd pts) = 4%nat) by (unfold pts, dlf_points; cbn [fst snd]; rewrite four_points, !map_length, !seq_length; auto).
  destruct pts as [lams rs]. cbn [fst snd] in LL. destruct LL as [LEN LR]. rewrite LEN, LR.
  destruct (A_dht 4 5 (f_j0 (simple_filter 1))) as [dht|] eqn:ED; [|discriminate]. cbn [bind].
  destruct (line_ok AppRes [1; 2; 3; 4]) as (Hd & Ht & _).
  destruct (own_factors _ _ _ _ _ HG Hd Ht) as (c & Ec & _ & Hf).
  assert (c = 2) as -> by (unfold space_factor in Ec; change (has whole_names (lower "halfspace")) with false in Ec; change (has half_names (lower "halfspace")) with true in Ec; congruence).
  set (s := hd {| g_sid := 0; g_src := SPole []; g_cur := []; g_rxs := [] |} (line AppRes [1; 2; 3; 4])).
  set (r := {| g_rid := 0; g_type := AppRes; g_rx := RPole (map (fun d => [d; 0]) [1; 2; 3; 4]) |}).
  change (g_pairs (line AppRes [1; 2; 3; 4])) with [(s, r)]. cbn [mapM].
  specialize (Hf s r ltac:(left; reflexivity) ltac:(left; reflexivity) eq_refl).
  assert (EA : a_rows flat_spline (map ln (rev rs)) 4 (combine (g_cur s) (elecs s)) r = map (fun d => [1 / d; 0; 0; 0]) [1; 2; 3; 4]).
  { unfold a_rows, r, s. cbn [line hd g_cur g_src elecs combine g_rx]. rewrite map_map. apply map_ext_in. intros x Hx. cbn [seq map fst snd].
    unfold a_entry, term, flat_spline. cbn [fold_left Nat.eqb fst snd]. assert (0 < x) by (cbn in Hx; destruct Hx as [<-|[<-|[<-|[<-|[]]]]]; lra). rewrite line_dist by assumption. repeat (f_equal; [field; lra|]). f_equal; field; lra. }
  assert (EF : finite (map (fun e => gfac 2 (quad_of e)) (pair_spreads s r)) = Some [/ (2 * PI * 1); / (2 * PI * 2); / (2 * PI * 3); / (2 * PI * 4)]).
  { unfold pair_spreads, receiver_spreads, s, r. cbn [line hd g_src g_rx map].
    destruct (line_clear 1 ltac:(lra)) as (C1 & _ & D1). destruct (line_clear 2 ltac:(lra)) as (C2 & _ & D2). destruct (line_clear 3 ltac:(lra)) as (C3 & _ & D3). destruct (line_clear 4 ltac:(lra)) as (C4 & _ & D4).
    rewrite (gfac_clear 2 _ C1), (gfac_clear 2 _ C2), (gfac_clear 2 _ C3), (gfac_clear 2 _ C4), D1, D2, D3, D4. cbn [finite].
    assert (NZ : forall x, 0 < x -> / (2 * PI * x) <> 0). { intros x Hx. apply Rinv_neq_0_compat. assert (0 < 2 * PI * x) by (apply Rmult_lt_0_compat; lra). lra. }
    destruct (Req_EM_T (/ (2 * PI * 1)) 0) as [K|_]; [exfalso; revert K; apply NZ; lra|]. destruct (Req_EM_T (/ (2 * PI * 2)) 0) as [K|_]; [exfalso; revert K; apply NZ; lra|].
    destruct (Req_EM_T (/ (2 * PI * 3)) 0) as [K|_]; [exfalso; revert K; apply NZ; lra|]. destruct (Req_EM_T (/ (2 * PI * 4)) 0) as [K|_]; [exfalso; revert K; apply NZ; lra|]. reflexivity. }
  unfold rx_coef. cbn [fst snd]. rewrite EA. change (g_type r) with AppRes. cbn [bind]. rewrite Hf. unfold over_factor. rewrite EF. cbn [List.length Nat.eqb bind List.concat app].
  eexists. split; [reflexivity|]. intros rho. cbn [fst snd]. rewrite app_nil_r. pose proof (dht_mat _ _ _ _ ED) as MD.
  unfold mv, mm. rewrite !map_map.
  assert (KEY : forall x, 0 < x -> dot (vscale (/ (2 * PI)) (mtv 5 dht (vdiv [1 / x; 0; 0; 0] [/ (2 * PI * 1); / (2 * PI * 2); / (2 * PI * 3); / (2 * PI * 4)]))) (vconst 5 rho) = rho / x).
  { intros x Hx. rewrite dot_vscale_l. rewrite <- (mv_mtv_adjoint 4 5 dht) by (try exact MD; reflexivity). rewrite (dht_rowsum 4 5 _ dht rho ED). rewrite dot_const by reflexivity. unfold vdiv. cbn [zipw vsum simple_filter f_j0]. field. split; lra. }
  rewrite LEN. cbn [map]. rewrite !KEY by lra. f_equal. field.
Qed.

(** Data after filters were exchanged *)
Section Filter.
  Context (rnd : R -> R) (spline : vec -> nat -> R -> R).
  Definition tuned (sv : list gsrc) (f : filt) (x : st) : Prop := st_survey x = sv /\ st_filt x = f /\ forall co, st_co x = Some co -> coefficients rnd spline f [] sv = Ok co.
  Lemma tuned_model sv f x m : tuned sv f x -> tuned sv f (set_model x m). Proof. intros T. exact T. Qed.
  Lemma tuned_compute sv f x : tuned sv f x -> tuned sv f (fst (compute rnd spline x)) /\ snd (compute rnd spline x) = coefficients rnd spline f [] sv.
  Proof.
    intros (A & B & C). unfold compute. destruct (st_co x) as [co|] eqn:E; cbn [fst snd]; [split; [split; [exact A|split; [exact B|intros c Q; apply C; congruence]]|symmetry; exact (C co eq_refl)]|].
    rewrite A, B. destruct (coefficients rnd spline f [] sv) as [co|e] eqn:D; cbn [fst snd]; (split; [|reflexivity]).
    - split; [reflexivity|]. split; [reflexivity|]. cbn [st_co]. intros c Q. injection Q as <-. exact D.
    - split; [exact A|]. split; [exact B|]. intros c Q. congruence.
  Qed.
  Lemma tuned_getJ s sv f x m : tuned sv f x -> tuned sv f (fst (getJ rnd spline s x m)).
  Proof.
    intros T. unfold getJ. destruct (st_J (set_model x m)); [exact T|]. destruct (tuned_compute sv f _ (tuned_model sv f x m T)) as [T1 _].
    destruct (compute rnd spline (set_model x m)) as [x2 r]. destruct (do co <- r; getJ0 s co m); exact T1.
  Qed.
  Lemma tuned_call s sv f x c : same_survey c = true -> tuned sv f x -> tuned sv (last_filter f [c]) (fst (do_call rnd spline s x c)).
  Proof.
    intros Y T. destruct c as [m|m v|m u|sv'|f']; cbn [do_call last_filter fold_left]; [| | |discriminate|].
    - destruct (tuned_compute sv f x T) as [T1 _]. destruct (compute rnd spline x) as [x1 [co|e]]; exact T1.
    - pose proof (tuned_getJ s sv f x m T). destruct (getJ rnd spline s x m). assumption.
    - pose proof (tuned_getJ s sv f x m T). destruct (getJ rnd spline s x m). assumption.
    - destruct T as (A & _). split; [exact A|]. split; [reflexivity|]. discriminate.
  Qed.
  Lemma filters s sv f cs m : forallb same_survey cs = true ->
    snd (do_call rnd spline s (do_calls rnd spline s (st0 sv f false) cs) (CallDpred m)) = fresh rnd spline s sv (last_filter f cs) (CallDpred m).
  Proof.
    intros Y. assert (T : tuned sv (last_filter f cs) (do_calls rnd spline s (st0 sv f false) cs)).
    { assert (G : forall cs f x, forallb same_survey cs = true -> tuned sv f x -> tuned sv (last_filter f cs) (do_calls rnd spline s x cs)).
      { clear. induction cs as [|c cs IH]; intros f x Y T; [exact T|]. cbn [forallb] in Y. apply andb_prop in Y. destruct Y as [Y1 Y2].
        exact (IH (last_filter f [c]) _ Y2 (tuned_call s sv f x c Y1 T)). }
      apply G; [exact Y|]. split; [reflexivity|]. split; [reflexivity|]. discriminate. }
    unfold fresh. generalize (last_filter f cs) T. clear T. intros f' T.
    assert (T0 : tuned sv f' (st0 sv f' false)) by (split; [reflexivity|]; split; [reflexivity|]; discriminate).
    cbn [do_call]. destruct (tuned_compute _ _ _ T) as [_ E]. destruct (tuned_compute _ _ _ T0) as [_ E0].
    destruct (compute rnd spline (do_calls rnd spline s (st0 sv f false) cs)) as [x1 r1]. destruct (compute rnd spline (st0 sv f' false)) as [x2 r2]. cbn [snd] in E, E0. rewrite E, E0.
    destruct (coefficients rnd spline f' [] sv); reflexivity.
  Qed.
End Filter.
