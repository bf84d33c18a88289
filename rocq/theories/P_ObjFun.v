(** C07, C08: arithmetic of objective functions. *)
From Verif Require Import Py Vec VecDeriv ObjFun SpecObj ObjFunFacts.
Local Open Scope R_scope.

(** C07: evaluating a sum is evaluating both operands in order and adding; an
    error of either operand is the error of the sum.  Any operands: leaves,
    nested or flattened combinations, any leaf behaviour [lcall]. *)
Theorem C07_value_of_sum : forall lcall a b c m, obj_add a b = Ok c ->
  obj_call lcall c m = do x <- obj_call lcall a m; do y <- obj_call lcall b m; Ok (x + y).
Proof. exact call_add. Qed.
Print Assumptions C07_value_of_sum.

(** Scaling: a zero multiplier makes the value 0 without evaluating the function
    (even if that would raise); otherwise the value is scaled. *)
Theorem C07_value_of_scaling : forall lcall o c p m, obj_mul o c = Ok p ->
  obj_call lcall p m = if Req_EM_T c 0 then Ok 0 else do x <- obj_call lcall o m; Ok (c * x).
Proof. exact call_mul. Qed.
Print Assumptions C07_value_of_scaling.

Theorem C07_scaling_always_succeeds : forall o c, exists p, obj_mul o c = Ok p.
Proof. exact mul_always_ok. Qed.
Print Assumptions C07_scaling_always_succeeds.

Theorem C07_value_of_quotient : forall lcall o c p m, obj_div o c = Ok p ->
  c <> 0 /\ obj_call lcall p m = do x <- obj_call lcall o m; Ok (x / c).
Proof. exact call_div. Qed.
Print Assumptions C07_value_of_quotient.

(** [sum(l, Zero())] is the sum of the values ... *)
Theorem C07_sum_from_zero : forall lcall o l m s xs,
  py_sum OZero (o :: l) = Ok (OObj s) ->
  mapM (fun p => obj_call lcall p m) (o :: l) = Ok xs ->
  obj_call lcall s m = Ok (vsum xs).
Proof. exact py_sum_zero. Qed.
Print Assumptions C07_sum_from_zero.

(** ... but the plain builtin [sum(l)] starts from the integer 0 and raises
    TypeError for every non-empty list (finding). *)
Theorem C07_builtin_sum_refuted : forall o l, py_sum ONotObj (o :: l) = Err TypeError.
Proof. exact py_sum_default. Qed.
Print Assumptions C07_builtin_sum_refuted.

(** Gradients follow the same arithmetic. *)
Theorem C07_deriv_of_sum : forall lderiv a b c m, obj_add a b = Ok c ->
  obj_deriv lderiv c m = do x <- obj_deriv lderiv a m; do y <- obj_deriv lderiv b m; Ok (zadd x y).
Proof. exact deriv_add. Qed.
Print Assumptions C07_deriv_of_sum.

Theorem C07_deriv_of_scaling : forall lderiv o c p m, obj_mul o c = Ok p ->
  obj_deriv lderiv p m = if Req_EM_T c 0 then Ok VZero else do x <- obj_deriv lderiv o m; Ok (zscale c x).
Proof. exact deriv_mul. Qed.
Print Assumptions C07_deriv_of_scaling.

Theorem C07_deriv2_of_sum : forall lderiv2 a b c m v, obj_add a b = Ok c ->
  obj_deriv2 lderiv2 c m v = do x <- obj_deriv2 lderiv2 a m v; do y <- obj_deriv2 lderiv2 b m v; Ok (zadd x y).
Proof. exact deriv2_add. Qed.
Print Assumptions C07_deriv2_of_sum.

Theorem C07_deriv2_of_scaling : forall lderiv2 o c p m v, obj_mul o c = Ok p ->
  obj_deriv2 lderiv2 p m v = if Req_EM_T c 0 then Ok VZero else do x <- obj_deriv2 lderiv2 o m v; Ok (zscale c x).
Proof. exact deriv2_mul. Qed.
Print Assumptions C07_deriv2_of_scaling.

(** For any tree of combinations: when the leaves evaluate and return their own
    gradients, [deriv] of the tree returns the gradient of the tree's value. *)
Theorem C07_deriv_is_gradient : forall n lcall lderiv,
  (forall k m, length m = n -> exists x, lcall k m = Ok x) ->
  forall m0, length m0 = n ->
  (forall k, exists g, lderiv k m0 = Ok g /\
     has_gradient n (fun m => match lcall k m with Ok x => x | Err _ => 0 end) m0 (arr n g)) ->
  forall o, exists g, obj_deriv lderiv o m0 = Ok g /\
     has_gradient n (fun m => match obj_call lcall o m with Ok x => x | Err _ => 0 end) m0 (arr n g).
Proof. exact obj_gradient. Qed.
Print Assumptions C07_deriv_is_gradient.

(** Operands with different known numbers of parameters are refused (operands
    built by the constructor). *)
Theorem C07_size_conflict_raises : forall a b n p,
  obj_np a = Some n -> obj_np b = Some p -> n <> p ->
  (forall np t u, a = Combo np t u -> combo_init t u = Ok a) ->
  (forall np t u, b = Combo np t u -> combo_init t u = Ok b) ->
  obj_add a b = Err ValueError.
Proof. exact add_np_conflict. Qed.
Print Assumptions C07_size_conflict_raises.

(** The least-squares leaf with a mapping: gradient and Gauss-Newton Hessian. *)
Theorem C07_l2_gradient : forall n k q mp J Jt W m,
  is_mat q k W -> length m = n ->
  has_jacobian n k mp m (J m) ->
  (forall v w, length v = n -> length w = k -> dot w (J m v) = dot (Jt m w) v) ->
  (forall w, length w = k -> length (Jt m w) = n) ->
  has_gradient n (l2m_call mp W) m (l2m_deriv k mp Jt W m).
Proof. exact l2m_gradient. Qed.
Print Assumptions C07_l2_gradient.

Theorem C07_l2_hessian : forall n k q (J Jt : vec -> vec -> vec) W m u v,
  is_mat q k W -> length u = n -> length v = n ->
  (forall v, length v = n -> length (J m v) = k) ->
  (forall v w, length v = n -> length w = k -> dot w (J m v) = dot (Jt m w) v) ->
  dot (l2m_deriv2 k J Jt W m v) u = 2 * dot (mv W (J m v)) (mv W (J m u)).
Proof. exact l2m_hessian. Qed.
Print Assumptions C07_l2_hessian.

(** A concrete tree: 3*phi0 + (phi0 + 0*phi1), where phi1 always raises. *)
Example C07_example :
  let lcall k m := if Nat.eqb k 0 then Ok (dot m m) else Err GenericException in
  exists a b c d,
    obj_mul (Leaf 0 (Some 1%nat)) 3 = Ok a /\ obj_mul (Leaf 1 None) 0 = Ok b /\
    obj_add (Leaf 0 (Some 1%nat)) b = Ok c /\ obj_add a c = Ok d /\
    obj_call lcall d [2] = Ok 16.
Proof.
  cbn zeta. do 4 eexists. split; [reflexivity|]. split; [reflexivity|]. split; [reflexivity|]. split; [reflexivity|].
  cbn. repeat match goal with |- context [Req_EM_T ?x 0] => destruct (Req_EM_T x 0); try (exfalso; lra) end.
  f_equal. ring.
Qed.
Example C07_example_conflict : obj_add (Leaf 0 (Some 1%nat)) (Leaf 1 (Some 2%nat)) = Err ValueError.
Proof. reflexivity. Qed.

(** C08: for any tree of least-squares functions with non-negative multipliers
    (at every level), the stacked weighting matrix reproduces the value and the
    Hessian. *)
Theorem C08_stacked_weights_value : forall lW o m, multipliers_ok (fun c => 0 <= c) o ->
  obj_call (fun k m => Ok (l2_call (lW k) m)) o m = Ok (dot (mv (obj_W lW o) m) (mv (obj_W lW o) m)).
Proof. exact W_value. Qed.
Print Assumptions C08_stacked_weights_value.

Theorem C08_stacked_weights_hessian : forall n lW, (forall k, Forall (fun r => length r = n) (lW k)) ->
  forall o m v, length v = n -> multipliers_ok (fun c => 0 <= c) o ->
    exists z, obj_deriv2 (fun k m v => Ok (VArr (l2_deriv2 n (lW k) m v))) o m v = Ok z /\
      arr n z = vscale 2 (mtv n (obj_W lW o) (mv (obj_W lW o) v)).
Proof. exact W_hessian. Qed.
Print Assumptions C08_stacked_weights_hessian.

Example C08_example : let o := Combo None [(4, Leaf 0 None); (0, Leaf 1 None)] true in
  multipliers_ok (fun c => 0 <= c) o /\ obj_call (fun k m => Ok (l2_call [[1]] m)) o [3] = Ok 36.
Proof.
  split.
  - constructor. repeat constructor; cbn; lra.
  - cbn. destruct (Req_EM_T 4 0); [lra|]. destruct (Req_EM_T 0 0); [|lra]. f_equal. unfold l2_call; cbn. ring.
Qed.
