(** Property theorems C67: time domain electromagnetic simulations. *)
From Verif Require Import Py Vec VecDeriv Joint Tdem SpecTdem TdemFacts TdemFacts2 TdemFacts3 TdemFacts6 TdemFacts8 TdemFacts9.
From Coq Require Import Reals.
Local Open Scope R_scope.

(** The fields of the formulations for b and h are the only solution of the discrete Maxwell
    equations at all nodes that starts from the initial b or h. *)
Theorem C67_maxwell_bh s srcs m : setup_ok s srcs -> solvable s m -> apart (t_thr s) (t_steps s) -> (t_form s = FormB \/ t_form s = FormH) ->
  exists uss, fields s srcs m = Ok (m, uss) /\ Forall2 (fun src us =>
    let xs := history_of s m src (if isEB s then Fe else Fj) us in let ys := history_of s m src (if isEB s then Fb else Fh) us in
    evolution s m src xs ys /\ nth 0 ys [] = initial s m src /\
    forall xs' ys', evolution s m src xs' ys' -> nth 0 ys' [] = initial s m src -> xs' = xs /\ ys' = ys) srcs uss.
Proof. exact (maxwell_y s srcs m). Qed.
Print Assumptions C67_maxwell_bh.
(** The fields of the formulation for e (and for j where the change of the source is taken over
    the right step) are those of any solution that starts from the initial e or j, and there is
    one for every initial b or h that agrees with it. *)
Theorem C67_maxwell_ej s srcs m : setup_ok s srcs -> solvable s m -> apart (t_thr s) (t_steps s) ->
  (t_form s = FormE \/ (t_form s = FormJ /\ Forall (same_rate s) srcs)) ->
  exists uss, fields s srcs m = Ok (m, uss) /\ Forall2 (fun src us =>
    let xs := history_of s m src (if isEB s then Fe else Fj) us in
    nth 0 xs [] = initial s m src /\
    (forall xs' ys', evolution s m src xs' ys' -> nth 0 xs' [] = initial s m src -> xs' = xs) /\
    (forall y0, length y0 = nO s -> ampere s m src 0 (initial s m src) y0 -> exists ys, nth 0 ys [] = y0 /\ evolution s m src xs ys)) srcs uss.
Proof. exact (maxwell_x s srcs m). Qed.
Print Assumptions C67_maxwell_ej.
(** The formulation for j takes the right change of the source if it is steady, or if the steps
    are equal, there are two or more, and it changes by the same amount over each. *)
Theorem C67_rate_steady s src : sizes s -> t_form s = FormJ -> length (s_vec s src) = nS s -> (forall k, (k <= nT s)%nat -> s_e s src (time s k) = s_e s src (time s 0)) -> same_rate s src.
Proof. exact (same_rate_steady s src). Qed.
Print Assumptions C67_rate_steady.
Theorem C67_rate_ramp s src d c : sizes s -> t_form s = FormJ -> length (s_vec s src) = nS s -> (2 <= nT s)%nat ->
  (forall k, (k < nT s)%nat -> step s k = d /\ strength s src (time s (S k)) - strength s src (time s k) = c) -> same_rate s src.
Proof. exact (same_rate_ramp s src d c). Qed.
Print Assumptions C67_rate_ramp.
(** The formulations for b and e have the same fields if their initial fields agree; so have
    those for h and j. *)
Theorem C67_agree_be s S1 S2 src m : let sB := with_form s FormB S1 in let sE := with_form s FormE S2 in
  sizes sB -> sizes sE -> src_ok sB src -> apart (t_thr s) (t_steps s) -> solvable sB m -> solvable sE m -> initial sE m src = getfield sB m src 0 Fe (initial sB m src) ->
  forall x, no_field sE x = None -> history_of sE m src x (solution sE m src) = history_of sB m src x (solution sB m src).
Proof. exact (agree_BE s S1 S2 src m). Qed.
Print Assumptions C67_agree_be.
Theorem C67_agree_hj s S1 S2 src m : let sH := with_form s FormH S1 in let sJ := with_form s FormJ S2 in
  sizes sH -> sizes sJ -> src_ok sH src -> apart (t_thr s) (t_steps s) -> solvable sH m -> solvable sJ m -> same_rate sJ src -> initial sJ m src = getfield sH m src 0 Fj (initial sH m src) ->
  forall x, no_field sJ x = None -> history_of sJ m src x (solution sJ m src) = history_of sH m src x (solution sH m src).
Proof. exact (agree_HJ s S1 S2 src m). Qed.
Print Assumptions C67_agree_hj.
(** The initial fields of a grounded wire carry a current that closes the one in the wire. *)
Theorem C67_initial_current s m q : sizes s -> solvable s m -> length q = nS s -> grad s (vconst (t_nn s) 1) = vzero (nS s) ->
  gradT s (vadd (if isEB s then vmul (Sg s m) (e0 s m q) else j0 s m q) q) = vzero (t_nn s).
Proof. exact (initial_dc s m q). Qed.
Print Assumptions C67_initial_current.
(** Jvec is the derivative of dpred if no receiver uses the last time. *)
Theorem C67_jacobian_partial s srcs m : setup_ok s srcs -> apart (t_thr s) (t_steps s) -> regular s m -> Forall (fun src => Forall (not_last s) (s_rx src)) srcs ->
  (forall m', exists d, dpred s srcs m' None = Ok d) /\ (forall v, exists j, Jvec s srcs m v None = Ok j) /\
  has_jacobian (t_p s) (data_size srcs) (fun m' => val [] (dpred s srcs m' None)) m (fun v => val [] (Jvec s srcs m v None)).
Proof. exact (c67_jacobian s srcs m). Qed.
Print Assumptions C67_jacobian_partial.
(** Jtvec is the adjoint of the derivative of dpred, whatever the receivers, if the initial
    fields do not depend on the model, or for e if the first two steps are equal. *)
Theorem C67_gradient_partial s srcs m : setup_ok s srcs -> apart (t_thr s) (t_steps s) -> regular s m -> Forall (start_ok s) srcs ->
  exists J, has_jacobian (t_p s) (data_size srcs) (fun m' => val [] (dpred s srcs m' None)) m J /\
    forall w, length w = data_size srcs -> exists a, Jtvec s srcs m w None = Ok a /\ length a = t_p s /\ forall v, length v = t_p s -> dot a v = dot w (J v).
Proof. exact (c67_jacobian_any s srcs m). Qed.
Print Assumptions C67_gradient_partial.
Theorem C67_adjoint_partial s srcs m v w : setup_ok s srcs -> solvable s m -> Forall (fun src => Forall (not_last s) (s_rx src)) srcs -> Forall (start_ok s) srcs -> length v = t_p s -> length w = data_size srcs ->
  exists j a, Jvec s srcs m v None = Ok j /\ Jtvec s srcs m w None = Ok a /\ length j = data_size srcs /\ length a = t_p s /\ dot w j = dot a v.
Proof. exact (c67_adjoint s srcs m v w). Qed.
Print Assumptions C67_adjoint_partial.

Example C67_ex_be f : f = FormB \/ f = FormE -> let s := tiny f [1; 2; 2] 0 0 in let srcs := [ramp_src [tiny_rx s Fe 1; tiny_rx s Fdb 2]; loop_src [tiny_rx s Fj 0]] in
  setup_ok s srcs /\ apart (t_thr s) (t_steps s) /\ regular s [3] /\ solvable s [3] /\ Forall (start_ok s) srcs /\ Forall (fun src => Forall (not_last s) (s_rx src)) srcs.
Proof. exact (ex_b f). Qed.
Example C67_ex_hj f : f = FormH \/ f = FormJ -> let s := tiny f [1; 2; 2] 0 1 in let srcs := [mkSrc (Line [1] [0] true) false (fun _ => 1) [tiny_rx s Fe 1; tiny_rx s Fj 2]] in
  setup_ok s srcs /\ apart (t_thr s) (t_steps s) /\ regular s [3] /\ solvable s [3] /\ Forall (start_ok s) srcs /\ Forall (fun src => Forall (not_last s) (s_rx src)) srcs /\ (f = FormJ -> Forall (same_rate s) srcs).
Proof. exact (ex_j f). Qed.
Example C67_ex_fields : solution (tiny FormB [1; 2; 2] 0 0) [1] (ramp_src []) = [[0]; [1 / 2]; [13 / 6]; [73 / 18]].
Proof. exact ex_ramp. Qed.
Example C67_ex_agree_be : let s := tiny FormB [1; 2; 2] 0 0 in let sB := with_form s FormB tsolve in let sE := with_form s FormE tsolve in
  sizes sB /\ sizes sE /\ src_ok sB (ramp_src []) /\ apart (t_thr s) (t_steps s) /\ solvable sB [3] /\ solvable sE [3] /\ initial sE [3] (ramp_src []) = getfield sB [3] (ramp_src []) 0 Fe (initial sB [3] (ramp_src [])).
Proof. exact ex_agree. Qed.
Example C67_ex_agree_hj : let s := tiny FormH [1; 1; 1] 0 1 in let src := mkSrc (Line [1] [0] true) false (fun t => t) [] in let sH := with_form s FormH tsolve in let sJ := with_form s FormJ tsolve in
  sizes sH /\ sizes sJ /\ src_ok sH src /\ apart (t_thr s) (t_steps s) /\ solvable sH [3] /\ solvable sJ [3] /\ same_rate sJ src /\ initial sJ [3] src = getfield sH [3] src 0 Fj (initial sH [3] src).
Proof. exact ex_agree_j. Qed.

(** Jvec leaves out the last time: it is neither the derivative of dpred nor adjoint to Jtvec. *)
Theorem C67_last_time_refuted : exists s srcs m j a, setup_ok s srcs /\ apart (t_thr s) (t_steps s) /\ regular s m /\ Forall (start_ok s) srcs /\
  Jvec s srcs m [1] None = Ok j /\ Jtvec s srcs m [1] None = Ok a /\ dot [1] j <> dot a [1] /\
  ~ has_jacobian (t_p s) (data_size srcs) (fun m' => val [] (dpred s srcs m' None)) m (fun v => val [] (Jvec s srcs m v None)).
Proof. exact c67_last. Qed.
Print Assumptions C67_last_time_refuted.
(** Steps that differ by no more than dt_threshold are solved with the matrix of the first, and
    the fields do not satisfy the equations. The threshold is 1e-8 seconds, its default. *)
Theorem C67_threshold_refuted : exists s src m us, setup_ok s [src] /\ solvable s m /\ t_thr s = 10 * ns /\ t_form s = FormB /\ fields s [src] m = Ok (m, [us]) /\
  ~ evolution s m src (history_of s m src Fe us) (history_of s m src Fb us).
Proof. exact c67_threshold. Qed.
Print Assumptions C67_threshold_refuted.
(** The formulation for j takes the change of the source over the wrong step. *)
Theorem C67_rate_refuted : exists s src m us, setup_ok s [src] /\ solvable s m /\ apart (t_thr s) (t_steps s) /\ t_form s = FormJ /\ fields s [src] m = Ok (m, [us]) /\
  forall ys, ~ evolution s m src (history_of s m src Fj us) ys.
Proof. exact c67_rate. Qed.
Print Assumptions C67_rate_refuted.
(** Jtvec of a grounded wire: for e it uses the second step for the initial fields, ... *)
Theorem C67_grounded_e_refuted : exists s srcs m j a, setup_ok s srcs /\ apart (t_thr s) (t_steps s) /\ regular s m /\ t_form s = FormE /\ Forall (fun src => Forall (not_last s) (s_rx src)) srcs /\
  Jvec s srcs m [1] None = Ok j /\ Jtvec s srcs m [1] None = Ok a /\ dot [1] j <> dot a [1].
Proof. exact c67_grounded_e. Qed.
Print Assumptions C67_grounded_e_refuted.
(** ... and raises if there is none; ... *)
Theorem C67_one_step_refuted s srcs m w : setup_ok s srcs -> t_form s = FormE -> nT s = 1%nat -> Exists (fun src => exists q a, s_kind src = Line q a true) srcs -> Jtvec s srcs m w None = Err GenericException.
Proof. exact (c67_one_step s srcs m w). Qed.
Print Assumptions C67_one_step_refuted.
(** ... for j it leaves the initial fields out. *)
Theorem C67_grounded_j_refuted : exists s srcs m j a, setup_ok s srcs /\ apart (t_thr s) (t_steps s) /\ solvable s m /\ t_form s = FormJ /\ Forall (fun src => Forall (not_last s) (s_rx src)) srcs /\
  Jvec s srcs m [1] None = Ok j /\ Jtvec s srcs m [1] None = Ok a /\ dot [1] j <> dot a [1].
Proof. exact c67_grounded_j. Qed.
Print Assumptions C67_grounded_j_refuted.
(** Receivers of b or h have no data in the formulations for e and j. *)
Theorem C67_missing_fields_refuted s src r m v : sizes s -> src_ok s src -> s_rx src = [r] -> missing (t_form s) (r_field r) = true ->
  dpred s [src] m None = Err (match t_form s, r_field r with FormE, Fb => NotImplementedError | _, _ => KeyError end) /\ Jvec s [src] m v None = Err AttributeError.
Proof. exact (c67_missing s src r m v). Qed.
Print Assumptions C67_missing_fields_refuted.
(** A dipole with initial fields stays at full strength until the time exceeds the second step,
    whatever its waveform. *)
Theorem C67_dipole_refuted s src p k t : s_kind src = Dip p k -> s_init src = true -> t < step s 1 -> s_e s src t = s_vec s src.
Proof. exact (c67_dipole s src p k t). Qed.
Print Assumptions C67_dipole_refuted.
(** Fields of grounded wires in the formulation for b, and of such dipoles with one step. *)
Theorem C67_no_fields_refuted s srcs m : (0 < nT s)%nat ->
  (t_form s = FormB -> Exists (fun src => s_init src = true /\ exists q a, s_kind src = Line q a true) srcs -> fields s srcs m = Err NotImplementedError) /\
  (t_form s <> FormB -> nT s = 1%nat -> Exists (fun src => s_init src = true /\ exists p k, s_kind src = Dip p k) srcs -> fields s srcs m = Err IndexError).
Proof. exact (c67_fields_err s srcs m). Qed.
Print Assumptions C67_no_fields_refuted.
