(** C87: 2.5D DC resistivity. *)
From Coq Require Import Reals Lra Lia.
From Verif Require Import Py Vec VecDeriv Dc SpecDc Dc2d SpecDc2d Dc2dFacts Dc2dFacts2 Dc2dFacts3 Dc2dFacts4 Dc2dFacts5.
Local Open Scope R_scope.

(** Data are the weighted readings of the only solutions of the discrete equations of all
    wavenumbers, one for each source. *)
Theorem C87_data : forall s bc m, sizes2 s -> bc_ok s bc -> e_fixJ s = false -> plain_bc s bc -> length m = e_p s -> solves2 s bc m ->
  exists u, snd (dpred2 s (init2 bc) m None) = Ok (readings2 s u) /\
    forall i c, (i < length (e_ks s))%nat -> In c (e_srcs s) ->
      length (u i c) = e_n s /\ system2 s bc i m (u i c) = c_q c /\ forall y, length y = e_n s -> system2 s bc i m y = c_q c -> y = u i c.
Proof. intros s bc m SZ BC FJ. exact (data_ok s bc SZ BC FJ m). Qed.
Print Assumptions C87_data.
Example C87_data_ex : sizes2 square2 /\ bc_ok square2 Robin /\ e_fixJ square2 = false /\ plain_bc square2 Robin /\ solves2 square2 Robin [3].
Proof. split; [exact sizes_square|]. split; [exact I|]. split; [reflexivity|]. split; [exact I|]. apply solves_square. lra. Qed.
(** The weights of the trapezoidal rule integrate over the wavenumbers from 0 on. *)
Theorem C87_trapezoid : forall ks fs, length fs = length ks -> ks <> [] -> dot (trap_weights ks) fs = (nth 0 ks 0 * nth 0 fs 0 + trapezoids ks fs) / PI.
Proof. exact trap_ok. Qed.
Print Assumptions C87_trapezoid.
Example C87_trapezoid_ex : dot (trap_weights [1; 2; 4]) [1; 1; 1] = 4 / PI.
Proof. rewrite trap_ok by (reflexivity || discriminate). cbn. f_equal. field. Qed.

(** Jvec is the derivative of the data. *)
Theorem C87_jacobian : forall s bc m, sizes2 s -> bc_ok s bc -> e_fixJ s = false -> regular2 s bc m -> (e_storeJ s = true -> symmetric2 s bc m) ->
  exists F J, (forall m', length m' = e_p s -> snd (dpred2 s (init2 bc) m' None) = Ok (F m')) /\
    (forall v, length v = e_p s -> snd (Jvec2 s (init2 bc) m v None) = Ok (J v)) /\ has_jacobian (e_p s) (nD2 s) F m J.
Proof. intros s bc m SZ BC FJ. exact (jac_ok s bc SZ BC FJ m). Qed.
Print Assumptions C87_jacobian.
Example C87_jacobian_ex : regular2 square2 Robin [3] /\ snd (Jvec2 square2 (init2 Robin) [3] [1] None) = Ok [- 1 / 3 ^ 3].
Proof. split; [apply regular_square; lra|apply fresh_square; lra]. Qed.
(** The matrices are symmetric for nodes, and for cells whose boundary condition scales the gradient. *)
Theorem C87_symmetric : forall s bc m, sizes2 s -> bc_ok s bc -> length m = e_p s ->
  (e_form s = Cell -> forall i, (i < length (e_ks s))%nat -> scaled_gradient s bc i) -> symmetric2 s bc m.
Proof. intros s bc m SZ BC. exact (symmetric_ok s bc SZ BC m). Qed.
Print Assumptions C87_symmetric.
Example C87_symmetric_ex : sizes2 cell2 /\ bc_ok cell2 Robin /\ scaled_gradient cell2 Robin 0.
Proof. split; [exact sizes_cell|]. split; [exact I|apply scaled_cell]. Qed.
(** Jtvec is the adjoint of Jvec, stored matrix or not. *)
Theorem C87_adjoint : forall s bc m v y, sizes2 s -> bc_ok s bc -> e_fixJ s = false -> length m = e_p s -> solves2 s bc m -> symmetric2 s bc m -> length v = e_p s -> length y = nD2 s ->
  exists d g, snd (Jvec2 s (init2 bc) m v None) = Ok d /\ snd (Jtvec2 s (init2 bc) m y None) = Ok g /\ length d = nD2 s /\ length g = e_p s /\ dot g v = dot y d.
Proof. intros s bc m v y SZ BC FJ. exact (adj_ok s bc SZ BC FJ m v y). Qed.
Print Assumptions C87_adjoint.
Example C87_adjoint_ex : forall b, solves2 (linear2 b) Robin [3] /\ symmetric2 (linear2 b) Robin [3].
Proof. intros b. split; [apply solves_linear; lra|]. apply symmetric_ok; [apply sizes_linear|exact I|reflexivity|discriminate]. Qed.
(** The sensitivity matrix has the products Jvec gives. *)
Theorem C87_getJ : forall s bc m, sizes2 s -> bc_ok s bc -> e_fixJ s = false -> length m = e_p s -> solves2 s bc m -> symmetric2 s bc m ->
  exists J, snd (getJ2 s (init2 bc) m None) = Ok J /\ is_mat (nD2 s) (e_p s) J /\ forall v, length v = e_p s -> snd (Jvec2 s (init2 bc) m v None) = Ok (mv J v).
Proof. intros s bc m SZ BC FJ. exact (getJ_new s bc SZ BC FJ m). Qed.
Print Assumptions C87_getJ.

(** After any history of calls every answer is that of a new object: for cell-centred simulations,
    Neumann conditions and linear mappings. *)
Theorem C87_history_partial : forall s bc h m v w g, e_fixJ s = false -> no_stale s bc ->
  let st := fst (history2 s bc h) in let f := pick2 (snd (history2 s bc h)) m g in
  snd (dpred2 s st m f) = snd (dpred2 s (init2 bc) m None) /\ snd (Jvec2 s st m v f) = snd (Jvec2 s (init2 bc) m v None) /\
  snd (Jtvec2 s st m w f) = snd (Jtvec2 s (init2 bc) m w None) /\ snd (getJ2 s st m f) = snd (getJ2 s (init2 bc) m None).
Proof. intros s bc h m v w g FJ NS. exact (history_free2 s bc FJ NS h m v w g). Qed.
Print Assumptions C87_history_partial.
Example C87_history_ex : no_stale (linear2 true) Robin /\ no_stale cell2 Robin /\ no_stale square2 Neumann.
Proof. split; [right; right; reflexivity|]. split; [left; reflexivity|right; left; reflexivity]. Qed.
(** FINDING: not for nodes with the default Robin condition and a nonlinear mapping. Sensitivities at
    a second model contain the mapping's derivative at the first: -3/32 for -1/8. *)
Theorem C87_stale_refuted : sizes2 square2 /\ bc_ok square2 Robin /\ e_fixJ square2 = false /\ regular2 square2 Robin [1] /\ regular2 square2 Robin [2] /\
  snd (Jvec2 square2 (init2 Robin) [2] [1] None) = Ok [- (1 / 8)] /\
  snd (Jvec2 square2 (fst (history2 square2 Robin [DJvec [1] [1] false])) [2] [1] None) = Ok [- (3 / 32)].
Proof. exact stale_refuted. Qed.
Print Assumptions C87_stale_refuted.
(** FINDING: with the cell-centred Neumann condition 1 is added to the first entry of the matrix, and
    data are not those of the solution of the discrete equation, which is unique already. *)
Theorem C87_neumann_refuted : sizes2 cell2 /\ bc_ok cell2 Neumann /\ forall m, 0 < m ->
  solves2 cell2 Neumann [m] /\ snd (dpred2 cell2 (init2 Neumann) [m] None) = Ok [/ (1 + m)] /\
  forall y, system2 cell2 Neumann 0 [m] y = [1] -> readings2 cell2 (fun _ _ => y) = [/ m].
Proof. exact neumann_refuted. Qed.
Print Assumptions C87_neumann_refuted.
(** FINDING: boundary matrices are kept by wavenumber when bc_type is assigned. *)
Theorem C87_bc_type_refuted : forall m, 0 < m -> let st := fst (set_bc cell2 (fst (dpred2 cell2 (init2 Robin) [m] None)) Neumann) in
  snd (dpred2 cell2 st [m] None) = Ok [/ (1 + 3 * m)] /\ snd (dpred2 cell2 (init2 Neumann) [m] None) = Ok [/ (1 + m)].
Proof. exact bc_refuted. Qed.
Print Assumptions C87_bc_type_refuted.
