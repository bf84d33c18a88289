(** C86: the Jacobi preconditioner follows the system being solved. *)
From Coq Require Import Reals.
From Verif Require Import Py Vec SolveDeriv Precond SpecPrecond PrecondFacts.
Local Open Scope R_scope.

(** At every solve of an inversion whose preconditioner directive comes after all those that change
    beta or the weights, the preconditioner is within a factor two of the Jacobi preconditioner of
    the Hessian of that very solve, whatever models the optimizer steps to. *)
Theorem C86_every_solve : forall p pre post m0 beta0 w0 steps,
  well_posed p -> unit_multipliers p -> Forall no_wj pre -> Forall keeps post ->
  exists sf tr, invert p (pre ++ DPre true :: post) m0 beta0 w0 steps = Ok (sf, tr) /\ length tr = length steps /\
    Forall (fun s => exists d, s_pc s = Some d /\ (0 <= s_beta s -> near_jacobi p (s_m s) (s_beta s) (s_w s) d)) tr.
Proof. exact every_solve. Qed.
Print Assumptions C86_every_solve.
Example C86_every_solve_ex : well_posed two2 /\ unit_multipliers two2 /\
  Forall no_wj [DEst (fun _ _ => 1); DBeta 2 1 10; DWeights (fun m w => w)] /\ Forall keeps [DOther] /\
  H_diag two2 [0; 0] 1 [] 0 = 2 + 1 * 2 /\ precond true two2 [0; 0] 1 [] = Ok [/ 3; / 2].
Proof.
  split; [apply two2_posed|]. split; [apply two2_posed|]. split; [repeat (apply Forall_cons; [exact I|]); apply Forall_nil|].
  split; [repeat (apply Forall_cons; [exact I|]); apply Forall_nil|]. split; [apply (two2_H [0; 0] [] 1)|apply two2_pc].
Qed.

(** With any multipliers and any regularization terms, Zero objects included at the first call, the
    preconditioner is positive semidefinite. *)
Theorem C86_nonnegative : forall init p m beta w d j, good p m w -> 0 <= beta -> is_combo p ->
  (init = true \/ Forall (fun r => r_deriv2 r m w <> None) (rterms (p_reg p))) ->
  precond init p m beta w = Ok d -> 0 <= nth j d 0.
Proof. exact sign. Qed.
Print Assumptions C86_nonnegative.
Example C86_nonnegative_ex : good two2 [0; 0] [] /\ is_combo two2 /\ precond true two2 [0; 0] 1 [] = Ok [/ 3; / 2].
Proof. split; [apply two2_good|]. split; [apply two2_posed|apply two2_pc]. Qed.

(** A misfit term without explicit sensitivities is refused, and only that is. *)
Theorem C86_needs_sensitivities : forall init p m beta w, is_combo p ->
  (init = true \/ Forall (fun r => r_deriv2 r m w <> None) (rterms (p_reg p))) ->
  ((exists t, In t (p_misfit p) /\ t_sens t = HasNone) -> precond init p m beta w = Err AssertionError) /\
  (~ (exists t, In t (p_misfit p) /\ t_sens t = HasNone) -> exists d, precond init p m beta w = Ok d).
Proof. exact needs. Qed.
Print Assumptions C86_needs_sensitivities.
Example C86_needs_sensitivities_ex : is_combo no_sens /\ precond true no_sens [0] 1 [] = Err AssertionError.
Proof. split; [eexists; reflexivity|reflexivity]. Qed.

(** It is not the Jacobi preconditioner, not even a multiple of it: the misfit enters without its
    factor two. *)
Theorem C86_jacobi_refuted : well_posed two2 /\ unit_multipliers two2 /\
  exists d, precond true two2 [0; 0] 1 [] = Ok d /\
  ~ (exists c, forall j, (j < 2)%nat -> nth j d 0 = c / H_diag two2 [0; 0] 1 [] j).
Proof. exact not_jacobi. Qed.
Print Assumptions C86_jacobi_refuted.

(** The multipliers of a combination are not used, so no factor bounds the difference in general. *)
Theorem C86_multipliers_refuted : forall K, 0 < K -> exists p d, (forall m w, good p m w) /\ is_combo p /\
  Forall (fun t => 0 < t_mult t) (p_misfit p) /\ Forall (fun r => 0 < r_mult r) (rterms (p_reg p)) /\ p_n p = 1%nat /\
  0 < H_diag p [0] 1 [] 0 /\ precond true p [0] 1 [] = Ok d /\ K / H_diag p [0] 1 [] 0 < nth 0 d 0.
Proof. exact no_factor. Qed.
Print Assumptions C86_multipliers_refuted.

(** Listed before the cooling schedule, the directive leaves the preconditioner of the old beta. *)
Theorem C86_order_refuted : exists sf s1 s2,
  invert two2 [DPre true; DBeta 2 1 10] [0; 0] 1 [] [[0; 0]; [0; 0]] = Ok (sf, [s1; s2]) /\
  s_beta s2 = 1 / 2 /\ ~ fresh two2 s2 /\ exists d, s_pc s2 = Some d /\ precond false two2 (s_m s2) 1 (s_w s2) = Ok d.
Proof. exact stale. Qed.
Print Assumptions C86_order_refuted.

(** A regularization term whose second derivative is a Zero object is accepted at the start and makes
    the first update fail. *)
Theorem C86_zero_refuted : (exists r, invert zero_reg [DPre true] [0] 1 [] [] = Ok r) /\
  forall m' steps, invert zero_reg [DPre true] [0] 1 [] (m' :: steps) = Err AttributeError.
Proof. exact zero_fails. Qed.
Print Assumptions C86_zero_refuted.

(** A single regularization that is not a combination makes the directive fail. *)
Theorem C86_plain_refuted : forall p r pre every post m0 beta0 w0 steps, p_reg p = Plain r -> Forall other pre ->
  invert p (pre ++ DPre every :: post) m0 beta0 w0 steps = Err AttributeError.
Proof. exact plain_fails. Qed.
Print Assumptions C86_plain_refuted.
Example C86_plain_refuted_ex : p_reg plain_reg = Plain (small [[2]] 1) /\ Forall other [DBeta 2 1 10].
Proof. split; [reflexivity|]. apply Forall_cons; [exact I|apply Forall_nil]. Qed.

(** Update_Wj fails in every inversion that reaches the iteration it acts at. *)
Theorem C86_update_wj_refuted : forall p pre k itr post m0 beta0 w0 steps,
  Forall other pre -> Forall other post -> acts_by itr (length steps) ->
  invert p (pre ++ DWj k itr :: post) m0 beta0 w0 steps = Err AttributeError.
Proof. exact wj_fails. Qed.
Print Assumptions C86_update_wj_refuted.
Example C86_update_wj_refuted_ex : acts_by (Some 2%nat) (length [[0]; [1]; [2]]) /\ acts_by None (length [[0]]).
Proof. cbn. auto with arith. Qed.
