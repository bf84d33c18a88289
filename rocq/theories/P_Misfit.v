(** C05, C06: the least-squares data misfit. *)
From Verif Require Import Py Vec VecDeriv Survey DataM SpecData Misfit SpecMisfit MisfitFacts.
Local Open Scope R_scope.

(** C05: the value is the sum of squared residuals over standard deviations. *)
Theorem C05_misfit_value : forall nD (d : vec -> vec) dobs, length dobs = nD ->
  forall m std, length (d m) = nD -> length std = nD ->
  misfit (fun m => map Fin (d m)) dobs (sdiag (map (fun s => 1 / s) std)) m
  = Ok (chi_squared (d m) dobs std).
Proof. exact misfit_value. Qed.
Print Assumptions C05_misfit_value.

(** Non-finite predictions raise ValueError, in value and gradient alike. *)
Theorem C05_nonfinite_raises : forall dpred Jtvec dobs W m,
  Exists (fun x => x = NaN \/ x = Infinite) (dpred m) ->
  misfit dpred dobs W m = Err ValueError /\ misfit_deriv dpred Jtvec dobs W m = Err ValueError.
Proof. exact misfit_nonfinite. Qed.
Print Assumptions C05_nonfinite_raises.

(** [deriv] is the gradient of the value, for any simulation whose [Jvec] is its
    directional derivative and whose [Jtvec] is adjoint to [Jvec], and any square
    weighting matrix. *)
Theorem C05_deriv_is_gradient : forall nP nD (d : vec -> vec) Jvec Jtvec dobs, length dobs = nD ->
  forall W m g,
  is_mat nD nD W -> length m = nP ->
  has_jacobian nP nD d m (Jvec m) ->
  (forall v w, length v = nP -> length w = nD -> dot w (Jvec m v) = dot (Jtvec m w) v) ->
  (forall w, length w = nD -> length (Jtvec m w) = nP) ->
  misfit_deriv (fun m => map Fin (d m)) Jtvec dobs W m = Ok g ->
  has_gradient nP (phi d dobs W) m g.
Proof. exact misfit_gradient. Qed.
Print Assumptions C05_deriv_is_gradient.

(** [deriv2] is 2 J^T W^T W J for symmetric W (in particular the diagonal one built
    from the uncertainties): the bilinear form below shows it symmetric and
    positive semi-definite. *)
Theorem C05_deriv2_gauss_newton : forall nP nD Jvec Jtvec m,
  (forall v w, length v = nP -> length w = nD -> dot w (Jvec m v) = dot (Jtvec m w) v) ->
  (forall v, length v = nP -> length (Jvec m v) = nD) ->
  forall W u v, is_mat nD nD W -> length u = nP -> length v = nP ->
  (forall w, length w = nD -> mtv nD W w = mv W w) ->
  dot (misfit_deriv2 Jvec Jtvec W m v) u = 2 * dot (mv W (Jvec m v)) (mv W (Jvec m u)).
Proof. exact hessian_form. Qed.
Print Assumptions C05_deriv2_gauss_newton.
Theorem C05_std_weights_symmetric : forall w v, length v = length w ->
  mtv (length w) (sdiag w) v = mv (sdiag w) v.
Proof. exact sdiag_symmetric. Qed.
Print Assumptions C05_std_weights_symmetric.

(** For a simulation linear in the step, value, gradient and Hessian are
    consistent: the second-order expansion is exact. *)
Theorem C05_linear_expansion : forall nP nD (d : vec -> vec) Jvec Jtvec dobs W m h g,
  length dobs = nD -> is_mat nD nD W -> length m = nP -> length h = nP -> length (d m) = nD ->
  length (Jvec m h) = nD ->
  d (vadd m h) = vadd (d m) (Jvec m h) ->
  (forall v w, length v = nP -> length w = nD -> dot w (Jvec m v) = dot (Jtvec m w) v) ->
  (forall w, length w = nD -> mtv nD W w = mv W w) ->
  misfit_deriv (fun m => map Fin (d m)) Jtvec dobs W m = Ok g ->
  phi d dobs W (vadd m h) = phi d dobs W m + dot g h + / 2 * dot h (misfit_deriv2 Jvec Jtvec W m h).
Proof. exact misfit_quadratic. Qed.
Print Assumptions C05_linear_expansion.

(** FINDING: for a non-symmetric user-supplied W, [deriv2] is not the Gauss-Newton
    Hessian 2 J^T W^T W J (the transpose is missing), not even in sign of its form. *)
Theorem C05_deriv2_nonsymmetric_refuted : exists W m v,
  is_mat 2 2 W /\ length v = 2%nat /\
  dot (misfit_deriv2 (fun _ v => v) (fun _ w => w) W m v) v <> 2 * dot (mv W v) (mv W v).
Proof. exact deriv2_nonsym. Qed.
Print Assumptions C05_deriv2_nonsymmetric_refuted.

(** A one-datum, two-parameter nonlinear simulation d(m) = (m0 * m1). *)
Definition ex_d (m : vec) : vec := match m with [a; b] => [a * b] | _ => [0] end.
Definition ex_J (m v : vec) : vec := match m, v with [a; b], [x; y] => [x * b + a * y] | _, _ => [0] end.
Definition ex_Jt (m w : vec) : vec := match m, w with [a; b], [z] => [b * z; a * z] | _, _ => [0; 0] end.
Example C05_example :
  has_jacobian 2 1 ex_d [3; 5] (ex_J [3; 5]) /\
  (forall v w, length v = 2%nat -> length w = 1%nat ->
     dot w (ex_J [3; 5] v) = dot (ex_Jt [3; 5] w) v) /\
  misfit_deriv (fun m => map Fin (ex_d m)) ex_Jt [13] (sdiag [1 / 2]) [3; 5]
  = Ok [5; 3].
Proof.
  split; [|split].
  - intros h Hh. destruct h as [|x [|y [|z h]]]; try discriminate Hh.
    split; [reflexivity|]. split; [reflexivity|]. intros i Hi. destruct i; [|lia]. cbn.
    apply (dpl_ext (fun t => (3 + t * x) * (5 + t * y))); [reflexivity|].
    pose proof (dpl_mult (fun t => 3 + t * x) (fun t => 5 + t * y) 0 x y) as E.
    eapply dpl_eq; [|apply E]; [ring| |];
    (eapply dpl_eq; [|apply dpl_plus; [apply dpl_const|]; apply (dpl_mult (fun t => t) (fun _ => _)); [apply dpl_id|apply dpl_const]]; cbn; ring).
  - intros v w Hv Hw. destruct v as [|x [|y [|z v]]]; try discriminate Hv.
    destruct w as [|z [|? ?]]; try discriminate Hw. cbn. ring.
  - unfold misfit_deriv, residual. cbn. f_equal. f_equal; [|f_equal]; field.
Qed.

(** C06: the weights used are those of the current uncertainties as long as they
    have not been read or assigned before the data changed. *)
Theorem C06_weights_current : forall l d ps std, (forall p, In p ps -> touches_data p = true) ->
  let o := mf_run l (mkMf d None) ps in
  std_getter Rabs (mf_data o) = Ok std -> Forall (fun s => 0 < s) std ->
  fst (W_getter o) = Ok (sdiag (map (fun s => 1 / s) std)).
Proof. exact W_current. Qed.
Print Assumptions C06_weights_current.
Theorem C06_nonpositive_std_raises : forall o std, mf_W o = None -> std_getter Rabs (mf_data o) = Ok std ->
  Exists (fun s => s <= 0) std -> W_getter o = (Err GenericException, o).
Proof. exact W_nonpositive. Qed.
Print Assumptions C06_nonpositive_std_raises.
(** A weighting assigned by the user is the one used. *)
Theorem C06_assigned_weights_used : forall o w, length w = length (d_dobs (mf_data o)) ->
  W_setter o w = (mkMf (mf_data o) (Some (sdiag w)), None) /\ fst (W_getter (fst (W_setter o w))) = Ok (sdiag w).
Proof. exact W_set_get. Qed.
Print Assumptions C06_assigned_weights_used.
(** FINDING: once read, the weights never follow the data again. *)
Theorem C06_weights_frozen_after_read : forall l o ps W, fst (W_getter o) = Ok W ->
  (forall p, In p ps -> p = MRead \/ touches_data p = true) ->
  fst (W_getter (mf_run l (snd (W_getter o)) ps)) = Ok W.
Proof. exact W_sticky. Qed.
Print Assumptions C06_weights_frozen_after_read.
Theorem C06_weights_current_refuted : exists l d ps std,
  std_getter Rabs (mf_data (mf_run l (mkMf d None) ps)) = Ok std /\ Forall (fun s => 0 < s) std /\
  fst (W_getter (mf_run l (mkMf d None) ps)) <> Ok (sdiag (map (fun s => 1 / s) std)).
Proof. exact W_stale. Qed.
Print Assumptions C06_weights_current_refuted.
Example C06_example :
  let o := mf_run [] (mkMf (mkData 1 [5] None (Some [1])) None) [MData (OSetFloor (UScalar 2))] in
  std_getter Rabs (mf_data o) = Ok [2].
Proof.
  unfold mf_run; cbn [fold_left mf_step mf_data]. unfold data_step, set_floor; cbn.
  unfold Rltb. destruct (Rlt_dec 2 0); [exfalso; lra|]. cbn. unfold std_getter; cbn.
  do 2 f_equal. replace (0 + 2 * 2) with (Rsqr 2) by (unfold Rsqr; ring). apply sqrt_Rsqr; lra.
Qed.
