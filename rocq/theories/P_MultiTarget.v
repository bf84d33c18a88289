(** C90: the directive with several targets and the schedule of beta and alpha it drives. *)
From Coq Require Import Reals Lra Lia.
From Verif Require Import Py Vec Scaling MultiTarget SpecMultiTarget MultiTargetFacts MultiTargetFacts2 MultiTargetFacts3.
Local Open Scope R_scope.

(** After any history of assignments and iterations, an iteration asks the inversion to stop exactly
    when it had been asked before or all targets in force now are reached. *)
Theorem C90_stop g o w h x0 x : s_over w = None -> s_overC w = None -> askable g o -> sized g (wishes w h) (length (a_dm x)) ->
  let st := fold_left (happen g) h (started g o w x0) in
  exists st', end_iter g st x = (st', Ok tt) /\ (k_stop st' = true <-> k_stop st = true \/ reached g o (wishes w h) x) /\ (k_DM st' = true <-> fitted g (wishes w h) (a_dm x)) /\ k_dm st' = Some (a_dm x).
Proof. exact (c90_stop g o w h x0 x). Qed.
Print Assumptions C90_stop.
Example C90_stop_case : let g := mkGround [20; 30] Approx false 4 in let o := mkOptions false true true (1 / 10) in let w := mkWish [1] None None 1 None None in
  let h := [Iteration (mkMeasure [50; 50] (fun _ => 9) [1] 1); Assign (AChi [1; 2])] in let x := mkMeasure [15; 50] (fun _ => 4) [1] (1 / 20) in
  askable g o /\ sized g (wishes w h) (length (a_dm x)) /\ reached g o (wishes w h) x.
Proof.
  cbv zeta. unfold askable, reached, sized, fitted, fits. cbn. repeat split; try discriminate; try lra; auto.
  intros [|[|i]] Hi; cbn; try lra; lia.
Qed.
(** One target given for two misfits: the second is ignored. *)
Theorem C90_truncated_refuted g o w x0 x u v c s : askable g o -> o_trig o = false -> o_theta o = false -> s_over w = None -> s_chi w = [c] -> s_star w = Some [s] -> a_dm x = [u; v] -> u < c * s -> c * s <= v ->
  exists st', end_iter g (started g o w x0) x = (st', Ok tt) /\ k_stop st' = true.
Proof. exact (c90_truncated g o w x0 x u v c s). Qed.
Print Assumptions C90_truncated_refuted.
Example C90_truncated_case : exists st', end_iter (mkGround [20; 30] NoPgi true 4) (started (mkGround [20; 30] NoPgi true 4) (mkOptions false false false 1) (mkWish [1] (Some [25]) None 1 None None) (mkMeasure [50; 50] (fun _ => 0) [] 0)) (mkMeasure [20; 1000] (fun _ => 0) [] 0) = (st', Ok tt) /\ k_stop st' = true.
Proof. apply (c90_truncated _ _ _ _ _ 20 1000 1 25); try reflexivity; try lra. split; discriminate. Qed.
(** With the exact smallness and TriggerSmall, every iteration fails. *)
Theorem C90_exact_refuted g o w h x0 x : s_over w = None -> s_overC w = None -> g_pgi g = Exact -> o_trig o = true -> sized g (wishes w h) (length (a_dm x)) -> snd (end_iter g (fold_left (happen g) h (started g o w x0)) x) = Err TypeError.
Proof. exact (c90_exact g o w h x0 x). Qed.
Print Assumptions C90_exact_refuted.
Example C90_exact_case : sized (mkGround [20; 30] Exact false 4) (wishes (mkWish [1] None None 1 None None) [Assign (AChi [1; 2])]) 2.
Proof. left. split; [reflexivity|left; reflexivity]. Qed.
(** With TriggerTheta and a sum of regularizations, or none with a mixture, every iteration fails. *)
Theorem C90_theta_refuted g o w h x0 x : s_over w = None -> s_overC w = None -> g_pgi g <> Exact -> o_theta o = true -> (g_two g = true \/ g_pgi g = NoPgi) -> sized g (wishes w h) (length (a_dm x)) ->
  snd (end_iter g (fold_left (happen g) h (started g o w x0)) x) = Err AttributeError.
Proof. exact (c90_theta g o w h x0 x). Qed.
Print Assumptions C90_theta_refuted.
Example C90_theta_case : g_pgi (mkGround [20; 30] Approx true 4) <> Exact /\ sized (mkGround [20; 30] Approx true 4) (mkWish [1] None None 1 None None) 2.
Proof. split; [discriminate|]. right. split; [reflexivity|right; reflexivity]. Qed.
(** The smallness is never normalized by the weights, whether or not they are in the target. *)
Theorem C90_normalization_refuted : exists g st x, k_w st = true /\ vsum (map (fun a => a ^ 2) (a_W x)) / INR (g_nP g) = 4 /\ phims g st x = a_ms x true.
Proof. exists (mkGround [1] Approx false 1), (new_mtm true [1] None true 1 None false 1), (mkMeasure [1] (fun _ => 8) [2] 0). split; [reflexivity|]. split; [cbn; field|exact (c90_norm _ _ _)]. Qed.
Print Assumptions C90_normalization_refuted.
(** A schedule listed before the targets cannot be initialized. *)
Theorem C90_order_refuted w chi star trig chiS ms theta tol mode beta alpha : s_init (new_mtm w chi star trig chiS ms theta tol) mode beta alpha = Err AttributeError.
Proof. exact (c90_order w chi star trig chiS ms theta tol mode beta alpha). Qed.
Print Assumptions C90_order_refuted.
(** Over a whole run beta stays positive and never rises, and alpha never falls. *)
Theorem C90_monotone c t xs iter st : sane c -> posv t -> Forall (fun dm => posv dm /\ dm <> [] /\ length dm = length t) xs -> 0 < b_beta st -> 0 <= b_alpha st ->
  0 < b_beta (s_run c iter t xs st) <= b_beta st /\ b_alpha st <= b_alpha (s_run c iter t xs st).
Proof. intros A B. exact (run_mono c t A B xs iter st). Qed.
Print Assumptions C90_monotone.
Example C90_monotone_case : sane (mkSconf 0 (1 / 10) 2 1 10 (1 / 10) 1 true) /\ posv [10; 20] /\ Forall (fun dm => posv dm /\ dm <> [] /\ length dm = length [10; 20]) [[30; 15]; [9; 18]].
Proof. unfold sane, posv. cbn. repeat split; try lra; repeat constructor; try lra; discriminate. Qed.
(** No iteration changes both. *)
Theorem C90_one_at_a_time c iter dm t st : sane c -> posv dm -> posv t -> dm <> [] -> length dm = length t -> 0 < b_beta st -> 0 <= b_alpha st ->
  b_beta (step c iter dm t st) = b_beta st \/ b_alpha (step c iter dm t st) = b_alpha st.
Proof. intros A B C D E F G. exact (proj2 (proj2 (step_mono c iter dm t st A B C D E F G))). Qed.
Print Assumptions C90_one_at_a_time.
(** The schedule is in its second mode exactly from the first iteration on that reached all targets. *)
Theorem C90_mode c t xs iter st : Forall (fun dm => length dm = length t) xs -> (b_mode st = 1 \/ b_mode st = 2)%nat ->
  (b_mode (s_run c iter t xs st) = 2%nat <-> b_mode st = 2%nat \/ exists dm, In dm xs /\ all_below dm t).
Proof. intros A B. exact (proj1 (run_mode c t xs iter st A B)). Qed.
Print Assumptions C90_mode.
(** Nothing changes between updates. *)
Theorem C90_not_due c iter dm t st : ~ due c iter -> b_beta (step c iter dm t st) = b_beta st /\ b_alpha (step c iter dm t st) = b_alpha st /\ b_prev (step c iter dm t st) = dm.
Proof. intros H. exact (conj (proj1 (not_due c iter dm t st H)) (conj (proj2 (not_due c iter dm t st H)) (step_prev c iter dm t st))). Qed.
Print Assumptions C90_not_due.
Example C90_not_due_case : ~ due (mkSconf 0 (1 / 10) 2 1 10 (1 / 10) 3 true) 4.
Proof. intros [_ H]. discriminate. Qed.
(** First mode: beta is divided by the cooling factor exactly when the misfits have stalled. *)
Theorem C90_cool c iter dm t st : due c iter -> sane c -> posv dm -> posv t -> length dm = length t -> length (b_prev st) = length t -> b_mode st = 1%nat -> ~ all_below dm t -> c_ratio c = false -> 0 < b_beta st ->
  b_alpha (step c iter dm t st) = b_alpha st /\
  (stalled c dm t (b_prev st) /\ c_bmin c < b_beta st -> b_beta (step c iter dm t st) = b_beta st / c_cf c) /\
  (~ (stalled c dm t (b_prev st) /\ c_bmin c < b_beta st) -> b_beta (step c iter dm t st) = b_beta st).
Proof.
  intros D SA Pd Pt L Lp M NB NR Hb. rewrite <- (proj2 (proj2 (cool_spec c dm t (b_beta st) SA Pd Pt Hb)) NR). exact (first_mode c iter dm t st D L Lp M NB).
Qed.
Print Assumptions C90_cool.
Example C90_cool_case : let c := mkSconf 0 (1 / 10) 2 1 10 (1 / 10) 1 false in let st := mkS 1 [31; 14] 1 1 in due c 2 /\ ~ all_below [30; 15] [10; 20] /\ stalled c [30; 15] [10; 20] (b_prev st) /\ c_bmin c < b_beta st.
Proof.
  cbv zeta. unfold due, all_below, stalled. cbn. repeat split; try lia; try lra; [intros H; specialize (H 0%nat ltac:(lia)); cbn in H; lra|..]; destruct i as [|[|i]]; try lra; lia.
Qed.
(** All targets reached: beta stays and alpha is warmed by the median of target over misfit. *)
Theorem C90_warm c iter dm t st : due c iter -> sane c -> posv dm -> posv t -> length dm = length t -> all_below dm t ->
  b_mode (step c iter dm t st) = 2%nat /\ b_beta (step c iter dm t st) = b_beta st /\ (b_alpha st < c_amax c -> b_alpha (step c iter dm t st) = b_alpha st * (c_wf c * median (map (fun p => snd p / fst p) (combine dm t)))) /\ (c_amax c <= b_alpha st -> b_alpha (step c iter dm t st) = b_alpha st).
Proof. exact (all_reached c iter dm t st). Qed.
Print Assumptions C90_warm.
Example C90_warm_case : due (mkSconf 0 (1 / 10) 2 1 10 (1 / 10) 2 false) 4 /\ all_below [5; 15] [10; 20].
Proof. split; [split; [lia|reflexivity]|]. intros [|[|i]] Hi; cbn in *; try lra; lia. Qed.
(** Second mode with a target lost: beta is cooled exactly when a misfit exceeds its target by more
    than the tolerance. *)
Theorem C90_cool_again c iter dm t st : due c iter -> sane c -> posv dm -> posv t -> length dm = length t -> b_mode st = 2%nat -> ~ all_below dm t -> c_ratio c = false -> 0 < b_beta st ->
  let exceeds := exists i, (i < length dm)%nat /\ (1 + c_tol c) * nth i t 0 < nth i dm 0 in
  b_alpha (step c iter dm t st) = b_alpha st /\ (exceeds /\ c_bmin c < b_beta st -> b_beta (step c iter dm t st) = b_beta st / c_cf c) /\ (~ (exceeds /\ c_bmin c < b_beta st) -> b_beta (step c iter dm t st) = b_beta st).
Proof.
  intros D SA Pd Pt L M NB NR Hb. cbv zeta. rewrite <- (proj2 (proj2 (cool_spec c dm t (b_beta st) SA Pd Pt Hb)) NR). exact (second_mode c iter dm t st D L M NB).
Qed.
Print Assumptions C90_cool_again.
Example C90_cool_again_case : let c := mkSconf (1 / 10) (1 / 10) 2 1 10 (1 / 10) 1 false in ~ all_below [12; 15] [10; 20] /\ exists i, (i < length [12; 15])%nat /\ (1 + c_tol c) * nth i [10; 20] 0 < nth i [12; 15] 0.
Proof. cbv zeta. split; [intros H; specialize (H 0%nat ltac:(cbn; lia)); cbn in H; lra|exists 0%nat; cbn; split; [lia|lra]]. Qed.
(** Any cooling, with the ratio of misfits and targets too, divides by at least the cooling factor. *)
Theorem C90_cool_ratio c dm t b : sane c -> posv dm -> posv t -> 0 < b -> 0 < cool c t dm b /\ cool c t dm b <= b / c_cf c.
Proof. intros A B C D. exact (conj (proj1 (proj1 (cool_spec c dm t b A B C D))) (proj1 (proj2 (cool_spec c dm t b A B C D)))). Qed.
Print Assumptions C90_cool_ratio.
(** The tolerance is not used in the first mode: a misfit within it still cools beta. *)
Theorem C90_tolerance_refuted : let c := mkSconf 1 (1 / 10) 2 1 10 (1 / 10) 1 false in let st := mkS 1 [15] 1 1 in sane c /\ nth 0 [15] 0 <= (1 + c_tol c) * nth 0 [10] 0 /\ b_beta (step c 1 [15] [10] st) = 1 / 2.
Proof. exact c90_tolerance. Qed.
Print Assumptions C90_tolerance_refuted.
