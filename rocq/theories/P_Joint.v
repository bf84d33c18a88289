(** Joint regularisations (C58). *)
From Verif Require Import Vec VecDeriv Joint SpecJoint JointFacts JointFacts2 JointFacts3 JointFacts4 JointFacts5.
Local Open Scope R_scope.

(** Linear correspondence: the gradient and the Hessian are the derivatives of the
    value, both forms of the Hessian agree, it is symmetric and positive
    semidefinite, and the value vanishes exactly when the relation holds in every cell. *)
Theorem C58_linear_correspondence : forall k1 k2 k3 n m, length m = (2 * n)%nat ->
  let k := (k1, k2, k3) in
  has_gradient (2 * n) (lc_value k n) m (lc_deriv k n m) /\
  has_jacobian (2 * n) (2 * n) (lc_deriv k n) m (lc_deriv2v k n) /\
  (forall v, length v = (2 * n)%nat -> act false (lc_deriv2m k n) v = lc_deriv2v k n v) /\
  symmetric_action (2 * n) (lc_deriv2v k n) /\ psd_action (2 * n) (lc_deriv2v k n) /\
  0 <= lc_value k n m /\
  (lc_value k n m = 0 <-> forall i, (i < n)%nat -> k1 * nth i m 0 + k2 * nth (n + i) m 0 + k3 = 0).
Proof.
  exact (fun k1 k2 k3 n m L => conj (lc_gradient k1 k2 k3 n m L) (conj (lc_hessian k1 k2 k3 n m L)
    (conj (fun v => lc_matrix k1 k2 k3 n v) (conj (lc_sym k1 k2 k3 n) (conj (lc_psd k1 k2 k3 n)
    (conj (dot_self_nonneg _) (lc_zero k1 k2 k3 n m L))))))).
Qed.
Print Assumptions C58_linear_correspondence.
Example ex_linear_correspondence : set_coefficients [1; -1; 0] = Ok default_coefficients /\ lc_value default_coefficients 2 [1; 2; 1; 5] = 9.
Proof. split; [reflexivity|]. unfold lc_value, lc_relation, default_coefficients, vadd, vscale. cbn. lra. Qed.

(** Cross gradient: gradient, full Hessian, agreement of the matrix with the
    products for both settings of approx_hessian, symmetry. *)
Theorem C58_cross_gradient_derivatives : forall n nf nc G Av m, is_mat nf n G -> is_mat nc nf Av -> length m = (2 * n)%nat ->
  has_gradient (2 * n) (cg_value n G Av) m (cg_deriv n nf G Av m) /\
  has_jacobian (2 * n) (2 * n) (cg_deriv n nf G Av) m (cg_deriv2v false n nf G Av m) /\
  (forall approx v, length v = (2 * n)%nat -> act false (cg_deriv2m approx n nf G Av m) v = cg_deriv2v approx n nf G Av m v) /\
  (forall approx, symmetric_action (2 * n) (cg_deriv2v approx n nf G Av m)).
Proof.
  exact (fun n nf nc G Av m HG HA L => conj (cg_gradient n nf nc G Av HG HA m L) (conj (cg_hessian_full n nf nc G Av HG HA m L)
    (conj (fun a v => cg_matrix n nf nc G Av HG HA a m v L) (fun a => cg_symmetric n nf nc G Av HG HA a m L)))).
Qed.
Print Assumptions C58_cross_gradient_derivatives.

(** The cross gradient is at least zero, vanishes for models of the same structure
    ([a m1 + b]), does not depend on the order of the two models, and its
    approximate Hessian is positive semidefinite at every model. *)
Theorem C58_cross_gradient_sign : forall n nf nc G vol ave m dim Av, is_mat nf n G -> is_mat nc nf ave -> length vol = nc ->
  nonneg_mat ave -> cg_init dim vol ave = Ok Av -> length m = (2 * n)%nat ->
  0 <= cg_value n G Av m /\
  psd_action (2 * n) (cg_deriv2v true n nf G Av m) /\
  (kills_constants n G -> forall a b m1, length m1 = n -> cg_value n G Av (m1 ++ affine_copy a b m1) = 0) /\
  (forall m1 m2, length m1 = n -> length m2 = n -> cg_value n G Av (m2 ++ m1) = cg_value n G Av (m1 ++ m2)).
Proof. exact cg_sign. Qed.
Print Assumptions C58_cross_gradient_sign.
Example ex_cross_gradient : is_mat 2 3 ex_G /\ is_mat 3 2 ex_ave /\ nonneg_mat ex_ave /\ kills_constants 3 ex_G /\
  is_mat 3 2 (cg_av ex_vol ex_ave) /\ nonneg_mat (cg_av ex_vol ex_ave) /\ cg_value 3 ex_G (cg_av ex_vol ex_ave) ex_m = 1.
Proof. exact ex_joint_ok. Qed.

(** Normalised cross gradients lie between -1 and 1, and parallel gradients have none. *)
Theorem C58_normalised_cross_gradient : forall rtol g1 g2 c, 0 <= rtol -> cross_gradient true rtol g1 g2 = Ok c ->
  Forall (fun x => Rabs x <= 1) c.
Proof. exact normalised_bound. Qed.
Print Assumptions C58_normalised_cross_gradient.
Theorem C58_parallel_gradients : forall c a, cross_of a (vscale c a) = 0.
Proof. exact cross_parallel. Qed.
Print Assumptions C58_parallel_gradients.
Example ex_cross_of : cross_of [1; 0] [0; 1] = 1.
Proof. unfold cross_of. ring. Qed.

(** Joint total variation of any number of models, with positive [eps] and volumes:
    gradient, Hessian, agreement of its two forms, symmetry, positive
    semidefiniteness, and a lower bound of the value. *)
Theorem C58_joint_total_variation : forall n k nf nc G weights ave W eps vol m,
  is_mat nf n G -> is_mat nc nf ave -> nonneg_mat ave -> weights <> [] -> Forall (fun w => length w = nc) weights ->
  jtv_W weights ave = Ok W -> length vol = nc -> 0 < eps -> Forall (fun v => 0 < v) vol -> length m = (k * n)%nat ->
  has_gradient (k * n) (jtv_value n k nf G W eps vol) m (jtv_deriv n k nf G W eps vol m) /\
  has_jacobian (k * n) (k * n) (jtv_deriv n k nf G W eps vol) m (jtv_deriv2v n k nf G W eps vol m) /\
  (forall v, length v = (k * n)%nat -> jtv_deriv2m n k nf G W eps vol m v = jtv_deriv2v n k nf G W eps vol m v) /\
  symmetric_action (k * n) (jtv_deriv2v n k nf G W eps vol m) /\
  psd_action (k * n) (jtv_deriv2v n k nf G W eps vol m) /\
  sqrt eps * vsum vol <= jtv_value n k nf G W eps vol m.
Proof. exact jtv_all. Qed.
Print Assumptions C58_joint_total_variation.
Example ex_jtv : exists W, jtv_W [ex_vol] ex_ave = Ok W /\ Forall (fun v => 0 < v) ex_vol /\ length ex_m = (2 * 3)%nat.
Proof. exists (scale_rows (vmul ex_vol ex_vol) ex_ave). split; [reflexivity|]. split; [repeat constructor; lra|reflexivity]. Qed.

(** The guard [eps] is not validated: with [eps = 0] every divisor of the derivative is
    zero at every constant model. *)
Theorem C58_zero_eps_refuted : forall n k nf nc G W vol c, is_mat nf n G -> is_mat nc nf W -> length vol = nc -> kills_constants n G ->
  jtv_sq nf W 0 vol (map (mv G) (chunks n k (vconst (k * n) c))) = vzero nc.
Proof. exact jtv_zero_eps. Qed.
Print Assumptions C58_zero_eps_refuted.

(** Full-gradient smoothness with a symmetric inner product and any differentiable
    mapping: gradient, symmetric Hessian, positive semidefinite with the inner product. *)
Theorem C58_full_gradient : forall n nc nf F J Jt G Mf mref m,
  is_mat nf nc G -> is_mat nf nf Mf -> symmetric_action nf (mv Mf) ->
  (forall m, length m = n -> length (F m) = nc) ->
  (forall m w, length m = n -> length w = nc -> length (Jt m w) = n) ->
  (forall m v w, length m = n -> length v = n -> length w = nc -> dot w (J m v) = dot (Jt m w) v) ->
  (forall m, length m = n -> has_jacobian n nc F m (J m)) ->
  match mref with Some r => length r = n | None => True end -> length m = n ->
  has_gradient n (fg_value F G Mf mref) m (fg_deriv F Jt nc G Mf mref m) /\
  symmetric_action n (fg_deriv2 J Jt nc G Mf m) /\
  (psd_action nf (mv Mf) -> psd_action n (fg_deriv2 J Jt nc G Mf m)).
Proof.
  exact (fun n nc nf F J Jt G Mf mref m HG HM S LF LJ AD DE LR L =>
    conj (fg_gradient n nc nf F J Jt G Mf mref HG HM S LF LJ AD DE LR m L)
    (conj (fg_sym n nc nf F J Jt G Mf HG HM S AD DE m L) (fg_psd n nc nf F J Jt G Mf HG HM AD DE m L))).
Qed.
Print Assumptions C58_full_gradient.

(** With a mapping of constant derivative the Hessian is the derivative of the gradient. *)
Theorem C58_full_gradient_hessian : forall n nc nf F J Jt G Mf mref JM m,
  is_mat nf nc G -> is_mat nf nf Mf ->
  (forall m, length m = n -> length (F m) = nc) ->
  (forall m, length m = n -> has_jacobian n nc F m (J m)) ->
  match mref with Some r => length r = n | None => True end ->
  is_mat nc n JM -> (forall m w, length m = n -> Jt m w = mtv n JM w) -> length m = n ->
  has_jacobian n n (fg_deriv F Jt nc G Mf mref) m (fg_deriv2 J Jt nc G Mf m).
Proof.
  exact (fun n nc nf F J Jt G Mf mref JM m HG HM LF DE LR HJ JtC L =>
    fg_hessian n nc nf F J Jt G Mf mref HG HM LF DE LR JM HJ JtC m L).
Qed.
Print Assumptions C58_full_gradient_hessian.

(** Cell and face weights keep the inner product symmetric and positive semidefinite. *)
Theorem C58_full_gradient_weights : forall inner nc nf ws W,
  (forall cw, is_mat nf nf (inner cw) /\ symmetric_action nf (mv (inner cw)) /\ psd_action nf (mv (inner cw))) ->
  fg_W inner nc nf ws = Ok W -> symmetric_action nf (act false W) /\ psd_action nf (act false W).
Proof. exact fg_W_good. Qed.
Print Assumptions C58_full_gradient_weights.
Example ex_full_gradient_weights : exists W, fg_W (fun _ => [[1]]) 2 1 [[1; 1]; [4]] = Ok W.
Proof. eexists. reflexivity. Qed.

(** The anisotropic weight of a gradient [x] is the sum over the directions (columns)
    of [alpha_k (d_k . x)^2]; it is symmetric, and not negative for allowed weights. *)
Theorem C58_directions : forall dim D alpha x, is_mat dim dim D -> length alpha = dim -> length x = dim ->
  dot x (mv (rotate D alpha) x) = directional_energy dim D alpha x /\
  symmetric_action dim (mv (rotate D alpha)) /\
  (nonneg_vec alpha -> 0 <= dot x (mv (rotate D alpha) x)).
Proof. exact directions_all. Qed.
Print Assumptions C58_directions.

(** The components handed to discretize describe exactly that weight. *)
Theorem C58_components : forall dim D alpha, dim = 2%nat \/ dim = 3%nat -> is_mat dim dim D -> length alpha = dim ->
  tensor dim (components dim (rotate D alpha)) = rotate D alpha.
Proof. exact components_all. Qed.
Print Assumptions C58_components.
(** Weights given for the active cells only land on those cells, in order. *)
Theorem C58_active_alphas : forall dim ncells act alphas out, length act = ncells -> length alphas <> ncells ->
  fg_alphas dim ncells (Some act) alphas = Ok out -> placed (vzero dim) act alphas out.
Proof. exact alphas_placed. Qed.
Print Assumptions C58_active_alphas.
Example ex_active_alphas : fill_rows 0 [true; false; true] [3; 4] = [3; 0; 4]. Proof. reflexivity. Qed.

(** Directions given for the active cells only, which the constructor accepts by its
    sizes, always fail the default orthonormality check; directions for all cells pass. *)
Theorem C58_active_directions_refuted : forall dim ncells act alphas dirs, (0 < dim)%nat -> length act = ncells ->
  length dirs = length (filter (fun b => b) act) -> length dirs <> ncells ->
  fg_dirs dim ncells (Some act) true alphas dirs = Err ValueError.
Proof. exact active_dirs_refused. Qed.
Print Assumptions C58_active_directions_refuted.
Theorem C58_all_directions : forall dim ncells active alphas dirs, length dirs = ncells -> forallb orthonormal_check dirs = true ->
  fg_dirs dim ncells active true alphas dirs = Ok (zip2 rotate dirs alphas).
Proof. exact full_dirs_accepted. Qed.
Print Assumptions C58_all_directions.
Example ex_directions : is_mat 2 2 ex_dir /\ orthonormal_check ex_dir = true /\ rotate ex_dir [4; 1] = [[1; 0]; [0; 4]] /\
  fg_dirs 2 2 (Some [true; false]) true [[4; 1]; [0; 0]] [ex_dir] = Err ValueError.
Proof. exact ex_dir_ok. Qed.

(** Correspondence and cross gradient take exactly two models of equal size; joint
    total variation takes any number of models of the size of the mesh. *)
Theorem C58_models : forall sizes n, (set_wire_map sizes = Ok n <-> sizes = [n; n]) /\
  (set_wire_map_jtv n sizes = Ok tt <-> Forall (fun s => s = n) sizes).
Proof. exact wire_sizes. Qed.
Print Assumptions C58_models.
