(** C63: time stepping of Richards' equation, its data and the products with its sensitivity. *)
From Verif Require Import Py Vec VecDeriv Joint Gncg Empir SpecEmpir Richards SpecRichards RichardsFacts RichardsFacts2 RichardsFacts3 RichardsFacts4 RichardsFacts5 RichardsFacts6.
From Coq Require Import Lra.
Local Open Scope R_scope.

(** The three blocks of diagsJacobian are the derivatives of the residual of one step with
    respect to the new head, the old head and (with the opposite sign) the model. *)
Theorem C63_blocks s p xs hns hs x' hn' h' dt : let n := g_n (q_grid s) in
  grid_ok (q_grid s) (length (q_bc s)) -> q_method s = Mixed -> dt <> 0 ->
  vderiv p xs 0 x' -> vderiv n hns 0 hn' -> vderiv n hs 0 h' ->
  smooth_at p n (q_theta s) (xs 0) (hns 0) -> smooth_at p n (q_theta s) (xs 0) (hs 0) -> smooth_at p n (q_k s) (xs 0) (hs 0) ->
  k_ok (q_grid s) (r_call (q_k s) (xs 0) (hs 0)) ->
  vderiv n (fun t => residual s (xs t) (hns t) (hs t) dt) 0
    (vsub (vadd (act false (Adiag s (xs 0) (hs 0) dt) h') (act false (Asub s (xs 0) (hns 0) dt) hn')) (act false (Bmat s (xs 0) (hns 0) (hs 0) dt) x')).
Proof. exact (fun GO => res_deriv s GO p xs hns hs x' hn' h' dt). Qed.
Print Assumptions C63_blocks.
(** With do_newton the matrix of the Newton step is the Jacobian of the residual. *)
Theorem C63_newton_matrix s p x hn h dt : let n := g_n (q_grid s) in
  q_method s = Mixed -> q_newton s = true -> dt <> 0 -> length x = p -> length h = n ->
  grid_ok (q_grid s) (length (q_bc s)) -> smooth_at p n (q_theta s) x h -> smooth_at p n (q_k s) x h -> length (r_call (q_theta s) x hn) = n ->
  k_ok (q_grid s) (r_call (q_k s) x h) ->
  has_jacobian n n (fun h => residual s x hn h dt) h (act false (step_matrix s x h dt)).
Proof. exact (c63_newton s p x hn h dt). Qed.
Print Assumptions C63_newton_matrix.
(** Jvec is the derivative of the data along every differentiable family of models whose heads
    solve the equation, whatever model was stored before. *)
Theorem C63_sensitivity s p x fs st xs cs v ds : setup s p x fs -> invertible s x fs ->
  q_method s = Mixed -> solution_branch s p xs cs v ds -> xs 0 = x -> map (fun c => c 0) cs = fs ->
  exists j, jvec s st (Some x) v (Some fs) = (Some x, Ok j) /\
    vderiv (n_data s) (fun t => data_of s (xs t) (map (fun c => c t) cs)) 0 j.
Proof. exact (fun SU I => c63_sensitivity s p x fs SU I st xs cs v ds). Qed.
Print Assumptions C63_sensitivity.
Example C63_sensitivity_ex : let fs := map (fun c => c 0) ex_cs in
  setup ex_flow 1 [1] fs /\ invertible ex_flow [1] fs /\ invertible_T ex_flow [1] fs /\ solution_branch ex_flow 1 ex_xs ex_cs [1] [[0]; [1 / 4]] /\ ex_xs 0 = [1].
Proof. exact c63_ex. Qed.
(** Solving the whole block system at once gives the same product. *)
Theorem C63_full s p x fs solve_all st v : setup s p x fs -> invertible s x fs -> length v = p ->
  solves_all (g_n (q_grid s)) solve_all (map fst (block_rows s x v fs (q_steps s))) (map snd (block_rows s x v fs (q_steps s))) ->
  jfull s solve_all st (Some x) v (Some fs) = jvec s st (Some x) v (Some fs).
Proof. exact (fun SU I => c63_full s p x fs SU I solve_all st v). Qed.
Print Assumptions C63_full.
(** Jtvec is the adjoint of Jvec when the model handed over is the one stored. *)
Theorem C63_adjoint_partial s p x fs v w : setup s p x fs -> invertible s x fs -> invertible_T s x fs -> length v = p -> length w = n_data s ->
  exists j jt, jvec s (Some x) (Some x) v (Some fs) = (Some x, Ok j) /\ jtvec s (Some x) (Some x) w (Some fs) = (Some x, Ok jt) /\
    length jt = p /\ dot w j = dot jt v.
Proof. exact (fun SU I => c63_adjoint s p x fs SU I v w). Qed.
Print Assumptions C63_adjoint_partial.
(** The fields start at the initial conditions and have one more entry than there are steps;
    each head solves its step to the tolerance, or the iterations ran out. *)
Theorem C63_fields s st m l : snd (fields s st m) = Ok l ->
  needs_model s = (match m with Some _ => true | None => false end) /\ length l = S (length (q_steps s)) /\ hd None l = Some (q_init s) /\
  forall i, (i < length (q_steps s))%nat -> exists hn, nth i l None = Some hn /\ step_outcome s (arg_model m) hn (nth i (q_steps s) 0) (nth (S i) l None).
Proof. exact (c63_fields s st m l). Qed.
Print Assumptions C63_fields.
(** A model is refused exactly when it is not needed, and its absence when it is. *)
Theorem C63_refuses s st m : needs_model s <> (match m with Some _ => true | None => false end) <-> fields s st m = (st, Err AssertionError).
Proof. exact (c63_refuses s st m). Qed.
Print Assumptions C63_refuses.
(** Data computed without given fields do not depend on what was stored before. *)
Theorem C63_history s st x fs : q_steps s <> [] -> snd (fields s st (Some x)) = Ok (map Some fs) -> dpred s st (Some x) None = (Some x, Ok (data_of s x fs)).
Proof. exact (c63_history s st x fs). Qed.
Print Assumptions C63_history.
(** The conductivity of a face between the cells [i] and [j] is their harmonic mean over twice
    the averaging weight. *)
Theorem C63_face_conductivity g K f i j w : (f < length (AV g))%nat -> length K = g_n g -> (i < g_n g)%nat -> (j < g_n g)%nat -> i <> j ->
  nth f (AV g) [] = two_entries (g_n g) i j w -> 0 < nth i K 0 -> 0 < nth j K 0 -> 0 < w ->
  nth f (face_k g K) 0 = harmonic (nth i K 0) (nth j K 0) / (2 * w).
Proof. exact (c63_face g K f i j w). Qed.
Print Assumptions C63_face_conductivity.
Example C63_face_ex : two_entries 3 0 2 (1 / 4) = [1 / 4; 0; 1 / 4].
Proof. reflexivity. Qed.
(** With the method "head" neither matrix is the Jacobian of the residual. *)
Theorem C63_head_method_refuted : ~ has_jacobian 1 1 (fun h => residual ex_head [] [1] h 1) [2] (act false (step_matrix ex_head [] [2] 1)) /\
  ~ has_jacobian 1 1 (fun h => residual ex_head [] [1] h 1) [2] (act false (Adiag ex_head [] [2] 1)).
Proof. exact c63_head. Qed.
Print Assumptions C63_head_method_refuted.
(** With given fields the data use the model stored before, not the argument. *)
Theorem C63_stale_data_refuted : exists d, snd (dpred ex_sim (Some [2]) (Some [1]) (Some [[1]; [1]])) = Ok d /\ d <> data_of ex_sim [1] [[1]; [1]].
Proof. exact c63_stale_data. Qed.
Print Assumptions C63_stale_data_refuted.
(** Jtvec is then not the adjoint of Jvec at the model of the arguments. *)
Theorem C63_stale_adjoint_refuted : exists j jt, snd (jvec ex_sim (Some [2]) (Some [1]) [1] (Some [[1]; [1]])) = Ok j /\
  snd (jtvec ex_sim (Some [2]) (Some [1]) [1] (Some [[1]; [1]])) = Ok jt /\ dot [1] j <> dot jt [1].
Proof. exact c63_stale_adjoint. Qed.
Print Assumptions C63_stale_adjoint_refuted.
(** Jtvec cannot compute the fields itself. *)
Theorem C63_no_fields_refuted s st m w : jtvec s st m w None = (st, Err AttributeError).
Proof. exact (c63_no_fields s st m w). Qed.
Print Assumptions C63_no_fields_refuted.
