(** Properties C29, C30 and C31: beta cooling, target misfit and IRLS. *)
From Coq Require Import Lra.
From Verif Require Import Py Vec Directives Irls SpecDirectives DirectivesFacts IrlsFacts.
Local Open Scope R_scope.

(** C29 *)
Theorem C29_closed_form : forall b k beta0, bs_valid b ->
  bs_run b k beta0 = beta0 / bs_factor b ^ multiples (bs_rate b) (Nat.min k (bs_maxIter b - 1)).
Proof. exact bs_counts. Qed.
Print Assumptions C29_closed_form.
Theorem C29_positive : forall b k beta0, bs_valid b -> 0 < beta0 -> 0 < bs_run b k beta0.
Proof. exact bs_positive. Qed.
Print Assumptions C29_positive.
Theorem C29_never_increases : forall b k beta0, bs_valid b -> 1 <= bs_factor b -> 0 < beta0 -> bs_run b (S k) beta0 <= bs_run b k beta0.
Proof. exact bs_monotone. Qed.
Print Assumptions C29_never_increases.
(** Three iterations at rate 2 with factor 8 cool once. *)
Example C29_case : bs_valid (mkBs 2 8 20) /\ bs_run (mkBs 2 8 20) 3 16 = 2.
Proof. split; [split; cbn; [auto|lra]|]. cbn. lra. Qed.

(** C30.  The target is the last one the user asked for, whatever they set, read or ran in
    between. *)
Theorem C30_target : forall nD target star chi t ops, tm_init target star chi = Ok t ->
  fst (tm_get_target nD (fold_left (tm_step nD) ops t)) = wish_target nD (fold_left wish_step ops (mkWish chi star target)).
Proof. exact tm_target_history. Qed.
Print Assumptions C30_target.
(** A run ends at the first iteration whose misfit is below the target, and not before. *)
Theorem C30_stops_first : forall nD target star chi t ops phis, tm_init target star chi = Ok t ->
  let n := tm_iterations nD (fold_left (tm_step nD) ops t) phis in let T := wish_target nD (fold_left wish_step ops (mkWish chi star target)) in
  (n <= length phis)%nat /\ (forall i, (S i < n)%nat -> T <= nth i phis 0) /\
  ((exists p, In p phis /\ p < T) -> (0 < n)%nat /\ nth (n - 1) phis 0 < T) /\ (Forall (fun p => T <= p) phis -> n = length phis).
Proof. intros nD target star chi t ops phis H. apply tm_iter_ok, tm_run_ok, tm_init_ok, H. Qed.
Print Assumptions C30_stops_first.
Example C30_case : exists t, tm_init None None 1 = Ok t /\ wish_target [2%nat; 1%nat] (mkWish 1 None None) = 3 /\
  (exists p, In p [5; 4; 2.5; 1] /\ p < 3).
Proof. exists (mkTm 1 None None). split; [reflexivity|]. split; [cbn; lra|]. exists 2.5. split; [cbn; auto|lra]. Qed.
(** Refuted when the number of data changes after the target was read: the directive keeps
    the number of data of its first use. *)
Theorem C30_new_survey_refuted : exists nD nD' t, tm_init None None 1 = Ok t /\
  fst (tm_get_target nD' (snd (tm_get_target nD t))) <> wish_target nD' (mkWish 1 None None).
Proof. exists [3%nat], [7%nat], (mkTm 1 None None). split; [reflexivity|]. cbn. lra. Qed.
Print Assumptions C30_new_survey_refuted.

(** C31.  Iterations are numbered from 1; [obs] lists what is observed at their ends.
    As long as the start misfit is not reached, all norms are 2, the thresholds are the
    user's and beta follows the plain cooling schedule. *)
Theorem C31_before_start : forall o s obs s', (1 <= o_rate o)%nat -> i_cf s <> 0 ->
  (forall b, In b obs -> INR (o_nD o) * o_chi_start o <= ob_phi b) ->
  irls_run o (irls_init s) 1 obs = Ok s' ->
  i_start s' = None /\ all_two (i_regs s') /\ map (option_map s_thr) (i_regs s') = map (option_map s_thr) (i_regs s) /\
  i_beta s' = i_beta s / i_cf s ^ (length obs / o_rate o).
Proof. exact before_start. Qed.
Print Assumptions C31_before_start.
(** From the first iteration that reaches it on, the norms are the user's and the thresholds
    the percentiles of that iteration, divided by the cooling factor once per reweighting;
    there are at most [max_irls_iterations] reweightings. *)
Theorem C31_after_start : forall o s a b c s', (1 <= o_rate o)%nat -> i_cf s <> 0 ->
  (forall x, In x a -> INR (o_nD o) * o_chi_start o <= ob_phi x) ->
  ob_phi b < INR (o_nD o) * o_chi_start o -> length (ob_pct b) = length (i_regs s) ->
  irls_run o (irls_init s) 1 (a ++ b :: c) = Ok s' ->
  i_start s' = Some (S (length a)) /\ (i_count s' <= o_max o)%nat /\ ((0 < o_max o)%nat -> (1 <= i_count s')%nat) /\
  regs_are (fun t => t / o_irls_cool o ^ i_count s') (user_norms (i_regs s)) (ob_pct b) (i_regs s').
Proof. exact after_start. Qed.
Print Assumptions C31_after_start.
(** After the start, beta goes down above the band, up below it, and stays within it; it
    does move on the iterations of the cooling rate that do not stop the inversion. *)
Theorem C31_beta : forall o s0 obs s k it phi phim pct s', (forall b, In b obs -> length (ob_pct b) = length (i_regs s0)) ->
  irls_run o (irls_init s0) 1 obs = Ok s -> i_start s = Some k ->
  endIter o s it phi phim pct = Ok s' -> 0 < i_beta s -> 0 <= o_tol o ->
  (above_band o phi -> 3 / 8 * i_beta s < i_beta s' <= i_beta s) /\ (below_band o phi -> i_beta s <= i_beta s') /\ (in_band o phi -> i_beta s' = i_beta s) /\
  ((0 < it)%nat -> (it mod o_rate o = 0)%nat -> i_stop s' = false -> (above_band o phi -> i_beta s' < i_beta s) /\ (below_band o phi -> 3 / 2 * i_beta s < i_beta s')).
Proof. exact reach_beta. Qed.
Print Assumptions C31_beta.
(** One reweighting at most per iteration, none off the cooling rate, and the inversion is
    stopped when the maximum has been reached. *)
Theorem C31_reweightings : forall o s0 obs s k it phi phim pct s', (forall b, In b obs -> length (ob_pct b) = length (i_regs s0)) ->
  irls_run o (irls_init s0) 1 obs = Ok s -> i_start s = Some k ->
  endIter o s it phi phim pct = Ok s' ->
  (i_count s' <= S (i_count s))%nat /\ (i_count s = o_max o -> ((it - k) mod o_rate o = 0)%nat -> i_stop s' = true /\ i_count s' = o_max o) /\
  (((it - k) mod o_rate o)%nat <> 0%nat -> i_regs s' = i_regs s /\ i_count s' = i_count s).
Proof. exact reach_count. Qed.
Print Assumptions C31_reweightings.
(** A run of two iterations: the second reaches the start misfit. *)
Example C31_case : let o := mkIo 1 1 1 2 (1/100) 30 (1/10) 10 in let s := mkI [] 0 None 0 2 8 false [Some (mkSr [0; 1] [1; 1])] in
  exists s', irls_run o (irls_init s) 1 [mkOb 20 0 [[]]; mkOb 9 0 [[4; 6]]] = Ok s' /\ i_start s' = Some 2%nat /\
    i_regs s' = [Some (mkSr [0; 1] [4 / 2; 6 / 2])] /\ i_beta s' = 8 / 2 / 1.
Proof.
  cbn [irls_run irls_init i_regs map option_map s_norms s_thr i_cf i_beta i_stop]. unfold endIter, adjust, misfit_of. cbn [i_start bind o_nD o_chi_start o_chi_target ob_phi ob_phim ob_pct].
  destruct (Rlt_dec 20 (INR 10 * 1)) as [G|_]; [cbn in G; lra|]. cbn -[Rlt_dec Rdiv INR]. destruct (Rlt_dec 9 (INR 10 * 1)) as [_|G]; [|cbn in G; lra].
  unfold start_irls. cbn -[Rlt_dec Rdiv INR]. destruct (Rlt_dec 0 4) as [_|G]; [|lra]. destruct (Rlt_dec 0 6) as [_|G]; [|lra]. cbn -[Rlt_dec Rdiv INR].
  unfold stopping. cbn -[Rlt_dec Rdiv INR]. destruct (Rlt_dec _ _); eexists; repeat split.
Qed.
(** Refuted: an exact fit after the start raises instead of raising beta. *)
Theorem C31_exact_fit_refuted : forall o s k it phim pct, i_start s = Some k -> o_tol o < 1 -> endIter o s it 0 phim pct = Err ValueError.
Proof. exact exact_fit_raises. Qed.
Print Assumptions C31_exact_fit_refuted.
(** Refuted: at the start, a term whose percentile is zero (such as the gradient of a model
    that is constant along one direction) raises. *)
Theorem C31_flat_model_refuted : forall o s0 a b s r p regs' pct', (forall x, In x a -> INR (o_nD o) * o_chi_start o <= ob_phi x) ->
  (1 <= o_rate o)%nat -> i_cf s0 <> 0 ->
  irls_run o (irls_init s0) 1 a = Ok s -> ob_phi b < INR (o_nD o) * o_chi_start o ->
  i_regs s0 = Some r :: regs' -> ob_pct b = p :: pct' -> In 0 p -> irls_run o (irls_init s0) 1 (a ++ [b]) = Err ValueError.
Proof. exact run_flat. Qed.
Print Assumptions C31_flat_model_refuted.
(** Refuted: when an inversion never reaches the start misfit, the next one takes 2 for the
    user's norms. *)
Theorem C31_norms_lost_refuted : forall o s obs s', (1 <= o_rate o)%nat -> i_cf s <> 0 ->
  (forall b, In b obs -> INR (o_nD o) * o_chi_start o <= ob_phi b) ->
  irls_run o (irls_init s) 1 obs = Ok s' -> forall ns, In (Some ns) (i_input (irls_init s')) -> Forall (fun p => p = 2) ns.
Proof. exact norms_lost. Qed.
Print Assumptions C31_norms_lost_refuted.
