(** C70: regularizations of vector models (amplitude smallness and smoothness, cross
    reference).  A model of [k] components on [nC] cells holds the components one after the
    other; [cell nC k v i] is the vector of cell [i]. *)
From Verif Require Import Py Vec VecDeriv Reg VecReg SpecVecReg VecRegFacts VecRegFacts2 VecRegFacts3 VecRegFacts4 VecRegFacts5 VecRegFacts6.
Local Open Scope R_scope.

(** Amplitude smallness: the sum over the cells of weight times squared length of the
    mapped difference with the reference.  Weights of shape (nC,) or (k nC,). *)
Theorem C70_amplitude_value_partial nC k np M ref ws m : Forall (flat_cells nC k) ws -> nonneg nC k ws -> ref_ok np ref -> length m = np ->
  length (phi M (differ ref true m)) = (nC * k)%nat ->
  amp_call nC k M ref ws m = Ok (total nC (fun i => weight_at nC k ws i * length2 (cell nC k (phi M (differ ref true m)) i))).
Proof. exact (amp_value nC k np M ref ws m). Qed.
Print Assumptions C70_amplitude_value_partial.
Example C70_amplitude_value_ex : Forall (flat_cells 1 2) [W1 [4]; W1 [3; 4]] /\ nonneg 1 2 [W1 [4]; W1 [3; 4]] /\ ref_ok 2 (Some [1; 1]) /\
  length (phi id2 (differ (Some [1; 1]) true [5; 6])) = (1 * 2)%nat.
Proof. split; [exact flat2|]. split; [exact nonneg2|]. split; reflexivity. Qed.
(** The setter also takes weights of shape (nC, k); the term leaves them out. *)
Theorem C70_amplitude_value_refuted :
  ~ (forall nC k np M ref ws m, Forall (any_cells nC k) ws -> nonneg nC k ws -> ref_ok np ref -> length m = np ->
       length (phi M (differ ref true m)) = (nC * k)%nat ->
       amp_call nC k M ref ws m = Ok (total nC (fun i => weight_at nC k ws i * length2 (cell nC k (phi M (differ ref true m)) i)))).
Proof. intros H. exact (w2_bad (H 1%nat 1%nat 1%nat id1 None [W2 1 [[4]]] [1] (proj1 w2_any) (proj2 w2_any) I eq_refl eq_refl)). Qed.
Print Assumptions C70_amplitude_value_refuted.
Theorem C70_matrix_weights_ignored nC k M ref n cols ws m : amp_call nC k M ref (W2 n cols :: ws) m = amp_call nC k M ref ws m.
Proof. exact (w2_ignored nC k M ref n cols ws m). Qed.
Print Assumptions C70_matrix_weights_ignored.

(** Amplitude smoothness: the sum over the faces of weight times squared length of the
    difference of the vectors on both sides. *)
Theorem C70_smoothness_value_partial nC k np G ave M ref used ws m : length ave = length G -> distinct_sizes nC (length G) k -> ws <> [] ->
  Forall (face_ok nC (length G) k) ws -> (forall i, (i < length G)%nat -> 0 <= face_weight_at nC (length G) k ave ws i) ->
  ref_ok np ref -> length m = np -> length (phi M (differ ref used m)) = (nC * k)%nat ->
  smooth_call nC k G ave M ref used ws m
  = Ok (total (length G) (fun f => face_weight_at nC (length G) k ave ws f * length2 (jump nC k G (phi M (differ ref used m)) f))).
Proof. exact (smooth_value nC k np G ave M ref used ws m). Qed.
Print Assumptions C70_smoothness_value_partial.
Example C70_smoothness_value_ex : length ave3 = length grad3 /\ distinct_sizes 3 (length grad3) 2 /\
  Forall (face_ok 3 (length grad3) 2) [W1 [1; 1; 1]; W1 [2; 3]] /\
  (forall i, (i < length grad3)%nat -> 0 <= face_weight_at 3 (length grad3) 2 ave3 [W1 [1; 1; 1]; W1 [2; 3]] i) /\
  length (phi id6 (differ None true [1; 2; 3; 4; 5; 6])) = (3 * 2)%nat.
Proof. split; [reflexivity|]. split; [exact distinct3|]. split; [exact faces3|]. split; [exact faces3_pos|reflexivity]. Qed.
(** Weights of shape (nC, k), which the setter takes, stop the evaluation. *)
Theorem C70_matrix_weights_raise nC k G ave M ref used cols ws m : length cols = k ->
  face_shapes nC (length G) k (W2 nC cols) = true /\ smooth_call nC k G ave M ref used (W2 nC cols :: ws) m = Err ValueError.
Proof.
  intros <-. split; [|exact (face_w2_bad nC (length cols) G ave M ref used cols ws m)].
  unfold face_shapes, shape_in. cbn [existsb fst snd]. rewrite !PeanoNat.Nat.eqb_refl. cbn. apply Bool.orb_true_r.
Qed.
Print Assumptions C70_matrix_weights_raise.
Example C70_matrix_weights_raise_ex : smooth_call 3 2 grad3 ave3 id6 None true [W2 3 [[1; 1; 1]; [1; 1; 1]]] [1; 2; 3; 4; 5; 6] = Err ValueError.
Proof. reflexivity. Qed.

(** Both amplitude terms only see lengths: a model whose cell vectors are turned by the
    same rotation or reflection has the same value. *)
Theorem C70_amplitude_rotation nC k np M ref ws m m' : Forall (flat_cells nC k) ws -> nonneg nC k ws -> ref_ok np ref -> length m = np -> length m' = np ->
  length (phi M (differ ref true m)) = (nC * k)%nat -> length (phi M (differ ref true m')) = (nC * k)%nat ->
  (forall i, (i < nC)%nat -> length2 (cell nC k (phi M (differ ref true m')) i) = length2 (cell nC k (phi M (differ ref true m)) i)) ->
  amp_call nC k M ref ws m' = amp_call nC k M ref ws m.
Proof. exact (amp_rotate nC k np M ref ws m m'). Qed.
Print Assumptions C70_amplitude_rotation.
Example C70_amplitude_rotation_ex : length2 (cell 1 2 [3; 4] 0) = length2 (cell 1 2 [5; 0] 0) /\ [3; 4] <> [5; 0].
Proof. split; [cbn; unfold length2; cbn; ring|]. intros E. injection E as E _. lra. Qed.
Theorem C70_smoothness_rotation nC k np G ave M ref used ws Q m m' : is_mat (length G) nC G -> length ave = length G -> distinct_sizes nC (length G) k -> ws <> [] ->
  Forall (face_ok nC (length G) k) ws -> (forall i, (i < length G)%nat -> 0 <= face_weight_at nC (length G) k ave ws i) -> ref_ok np ref ->
  length m = np -> length m' = np ->
  length (phi M (differ ref used m)) = (nC * k)%nat -> length (phi M (differ ref used m')) = (nC * k)%nat -> isometry k Q ->
  (forall i, (i < nC)%nat -> cell nC k (phi M (differ ref used m')) i = mv Q (cell nC k (phi M (differ ref used m)) i)) ->
  smooth_call nC k G ave M ref used ws m' = smooth_call nC k G ave M ref used ws m.
Proof. exact (smooth_rotate nC k np G ave M ref used ws Q m m'). Qed.
Print Assumptions C70_smoothness_rotation.
Example C70_smoothness_rotation_ex : isometry 2 [[0; -1]; [1; 0]] /\
  (forall i, (i < 3)%nat -> cell 3 2 [-4; -5; -6; 1; 2; 3] i = mv [[0; -1]; [1; 0]] (cell 3 2 [1; 2; 3; 4; 5; 6] i)).
Proof.
  split.
  - split; [split; [reflexivity|repeat constructor]|]. intros [|a [|b [|]]] L; try discriminate. unfold length2. cbn. ring.
  - intros [|[|[|i]]] H; [| | |lia]; cbn; f_equal; [|f_equal| |f_equal| |f_equal]; ring.
Qed.

(** [deriv] is the gradient of the value when the mapping is linear ... *)
Theorem C70_amplitude_gradient_partial nC k np M A ref ws m : k <> 0%nat -> linear_map np (nC * k) M A -> ref_ok np ref ->
  Forall (flat_cells nC k) ws -> nonneg nC k ws -> length m = np ->
  exists F g, (forall y, length y = np -> amp_call nC k M ref ws y = Ok (F y)) /\
    amp_deriv nC k ASmall M ref true (small_W nC k ws) m = Ok g /\ has_gradient np F m g.
Proof. intros Hk HM Hr HF HN. exact (small_gradient nC k np M A ref ws Hk HM Hr HF HN m). Qed.
Print Assumptions C70_amplitude_gradient_partial.
Example C70_amplitude_gradient_ex : linear_map 2 (1 * 2) id2 [[1; 0]; [0; 1]] /\ ref_ok 2 (Some [1; 1]) /\ Forall (flat_cells 1 2) [W1 [4]; W1 [3; 4]] /\ nonneg 1 2 [W1 [4]; W1 [3; 4]].
Proof. split; [exact id2_linear|]. split; [reflexivity|]. split; [exact flat2|exact nonneg2]. Qed.
(** ... and not for other differentiable mappings. *)
Theorem C70_amplitude_gradient_refuted :
  ~ (forall nC k np M ref ws m, k <> 0%nat -> (forall y, length y = np -> is_mat (nC * k) np (dphi M y) /\ has_jacobian np (nC * k) (phi M) y (mv (dphi M y))) ->
       ref_ok np ref -> Forall (flat_cells nC k) ws -> nonneg nC k ws -> length m = np ->
       exists F g, (forall y, length y = np -> amp_call nC k M ref ws y = Ok (F y)) /\
         amp_deriv nC k ASmall M ref true (small_W nC k ws) m = Ok g /\ has_gradient np F m g).
Proof. intros H. exact (exp_bad (H 1%nat 1%nat 1%nat exp_map None [W1 [1]] [0] (fun E => O_S 0 (eq_sym E)) exp_jac I flat1 nonneg1 eq_refl)). Qed.
Print Assumptions C70_amplitude_gradient_refuted.
Theorem C70_smoothness_gradient_partial nC k np G ave M A ref used ws m : is_mat (length G) nC G -> linear_map np (nC * k) M A -> ref_ok np ref ->
  length ave = length G -> distinct_sizes nC (length G) k -> ws <> [] -> Forall (face_ok nC (length G) k) ws ->
  (forall i, (i < length G)%nat -> 0 <= face_weight_at nC (length G) k ave ws i) -> length m = np ->
  exists F g, (forall y, length y = np -> smooth_call nC k G ave M ref used ws y = Ok (F y)) /\
    amp_deriv nC k (ASmooth G) M ref used (face_W nC (length G) k ave ws) m = Ok g /\ has_gradient np F m g.
Proof. intros HG HM Hr La HD Ne HF HN. exact (smooth_gradient nC k np G ave M A ref used ws HG HM Hr La HD Ne HF HN m). Qed.
Print Assumptions C70_smoothness_gradient_partial.
Example C70_smoothness_gradient_ex : is_mat (length grad3) 3 grad3 /\ linear_map 6 (3 * 2) id6 (dphi id6 []) /\ distinct_sizes 3 (length grad3) 2 /\
  Forall (face_ok 3 (length grad3) 2) [W1 [1; 1; 1]; W1 [2; 3]].
Proof. split; [exact grad3_mat|]. split; [exact id6_linear|]. split; [exact distinct3|exact faces3]. Qed.

(** [deriv2] is the derivative of [deriv], with a vector or as a matrix, and never negative. *)
Theorem C70_amplitude_newton nC k np M A ref ws m v : k <> 0%nat -> linear_map np (nC * k) M A -> ref_ok np ref ->
  Forall (flat_cells nC k) ws -> nonneg nC k ws -> length m = np -> length v = np ->
  exists G Hv, (forall y, length y = np -> amp_deriv nC k ASmall M ref true (small_W nC k ws) y = Ok (G y)) /\
    amp_deriv2 nC k ASmall M ref true (small_W nC k ws) m v = Ok Hv /\ amp_deriv2_matrix nC k ASmall M ref true (small_W nC k ws) m v = Ok Hv /\
    vderiv np (fun t => G (vadd m (vscale t v))) 0 Hv /\ 0 <= dot v Hv.
Proof. intros Hk HM Hr HF HN. exact (small_newton nC k np M A ref ws Hk HM Hr HF HN m v). Qed.
Print Assumptions C70_amplitude_newton.
Example C70_amplitude_newton_ex : linear_map 2 (1 * 2) id2 [[1; 0]; [0; 1]] /\ Forall (flat_cells 1 2) [W1 [4]; W1 [3; 4]] /\ nonneg 1 2 [W1 [4]; W1 [3; 4]].
Proof. split; [exact id2_linear|]. split; [exact flat2|exact nonneg2]. Qed.
Theorem C70_smoothness_newton nC k np G ave M A ref used ws m v : is_mat (length G) nC G -> linear_map np (nC * k) M A -> ref_ok np ref ->
  length ave = length G -> distinct_sizes nC (length G) k -> ws <> [] -> Forall (face_ok nC (length G) k) ws ->
  (forall i, (i < length G)%nat -> 0 <= face_weight_at nC (length G) k ave ws i) -> length m = np -> length v = np ->
  exists Gr Hv, (forall y, length y = np -> amp_deriv nC k (ASmooth G) M ref used (face_W nC (length G) k ave ws) y = Ok (Gr y)) /\
    amp_deriv2 nC k (ASmooth G) M ref used (face_W nC (length G) k ave ws) m v = Ok Hv /\
    amp_deriv2_matrix nC k (ASmooth G) M ref used (face_W nC (length G) k ave ws) m v = Ok Hv /\
    vderiv np (fun t => Gr (vadd m (vscale t v))) 0 Hv /\ 0 <= dot v Hv.
Proof. intros HG HM Hr La HD Ne HF HN. exact (smooth_newton nC k np G ave M A ref used ws HG HM Hr La HD Ne HF HN m v). Qed.
Print Assumptions C70_smoothness_newton.
Example C70_smoothness_newton_ex : is_mat (length grad3) 3 grad3 /\ linear_map 6 (3 * 2) id6 (dphi id6 []) /\ distinct_sizes 3 (length grad3) 2.
Proof. split; [exact grad3_mat|]. split; [exact id6_linear|exact distinct3]. Qed.

(** Cross reference: the sum over the cells of weight times squared length of the vector
    product of the cell's vector and its reference direction, any accepted weights. *)
Theorem C70_cross_value nC dim d D ws M m : set_dir nC dim d = Ok D -> (dim = 2 \/ dim = 3)%nat -> Forall (any_cells nC dim) ws -> nonneg nC dim ws ->
  length (phi M m) = (nC * dim)%nat ->
  cross_call nC dim D M ws m = Ok (total nC (fun i => weight_at nC dim ws i * length2 (crossp (cell nC dim (phi M m) i) (direction d i)))).
Proof. intros Hd Hdim. exact (cross_value nC dim d D Hd Hdim ws M m). Qed.
Print Assumptions C70_cross_value.
Example C70_cross_value_ex : set_dir 1 2 (DOne [1; 2]) = Ok [[1]; [2]] /\ Forall (any_cells 1 2) [W1 [4]; W1 [3; 4]; W2 1 [[3]; [4]]] /\ nonneg 1 2 [W1 [4]; W1 [3; 4]; W2 1 [[3]; [4]]].
Proof. split; [reflexivity|]. split; [exact any2|exact any2_nonneg]. Qed.
(** It is zero exactly when every cell's vector is along its direction. *)
Theorem C70_cross_zero nC dim d D ws M m : set_dir nC dim d = Ok D -> (dim = 2 \/ dim = 3)%nat -> Forall (any_cells nC dim) ws ->
  (forall i, (i < nC)%nat -> 0 < weight_at nC dim ws i) -> length (phi M m) = (nC * dim)%nat ->
  (cross_call nC dim D M ws m = Ok 0 <-> forall i, (i < nC)%nat -> parallel (cell nC dim (phi M m) i) (direction d i)).
Proof. exact (cross_zero nC dim d D ws M m). Qed.
Print Assumptions C70_cross_zero.
Example C70_cross_zero_ex : set_dir 1 3 (DAll [[1; 2; 2]]) = Ok [[1]; [2]; [2]] /\ 0 < weight_at 1 3 [W1 [4]] 0 /\ parallel [2; 4; 4] [1; 2; 2].
Proof. split; [reflexivity|]. split; [cbn; lra|]. exists 1, 2. split; [intros E; injection E; lra|]. cbn. rewrite !Rmult_1_l. replace (2 * 2) with 4 by ring. rewrite Rmult_1_r. reflexivity. Qed.
(** [deriv] is its gradient for every differentiable mapping; [deriv2] is symmetric and
    never negative. *)
Theorem C70_cross_gradient nC dim d D ws M np m : set_dir nC dim d = Ok D -> (dim = 2 \/ dim = 3)%nat -> Forall (any_cells nC dim) ws -> nonneg nC dim ws ->
  length m = np -> (forall y, length y = np -> length (phi M y) = (nC * dim)%nat) ->
  is_mat (nC * dim) np (dphi M m) -> has_jacobian np (nC * dim) (phi M) m (mv (dphi M m)) ->
  exists F g, (forall y, length y = np -> cross_call nC dim D M ws y = Ok (F y)) /\ cross_deriv nC dim D M ws m = Ok g /\ has_gradient np F m g.
Proof. intros Hd Hdim. exact (cross_gradient nC dim d D Hd Hdim ws M np m). Qed.
Print Assumptions C70_cross_gradient.
Example C70_cross_gradient_ex : is_mat (1 * 2) 2 (dphi id2 [5; 6]) /\ has_jacobian 2 (1 * 2) (phi id2) [5; 6] (mv (dphi id2 [5; 6])).
Proof. exact (id2_jac [5; 6] eq_refl). Qed.
Theorem C70_cross_second nC dim d D ws M np m u v : set_dir nC dim d = Ok D -> (dim = 2 \/ dim = 3)%nat -> Forall (any_cells nC dim) ws -> nonneg nC dim ws ->
  length m = np -> is_mat (nC * dim) np (dphi M m) -> length u = np -> length v = np ->
  exists Hu Hv, cross_deriv2 nC dim D M ws m u = Ok Hu /\ cross_deriv2 nC dim D M ws m v = Ok Hv /\ dot u Hv = dot Hu v /\ 0 <= dot v Hv.
Proof. intros Hd Hdim. exact (cross_hessian nC dim d D Hd Hdim ws M np m u v). Qed.
Print Assumptions C70_cross_second.
Example C70_cross_second_ex : set_dir 1 2 (DOne [1; 2]) = Ok [[1]; [2]] /\ is_mat (1 * 2) 2 (dphi id2 [5; 6]).
Proof. split; [reflexivity|exact (proj1 (id2_jac [5; 6] eq_refl))]. Qed.

(** With the default mapping a vector reference is refused, and one the setter takes
    makes the value raise. *)
Theorem C70_vector_reference_refuted :
  ~ (forall nC dim M ws r m, (2 <= dim)%nat -> nC <> 0%nat -> (forall x, phi M x = x) -> length r = (nC * dim)%nat -> length m = (nC * dim)%nat ->
       Forall (flat_cells nC dim) ws -> nonneg nC dim ws -> exists r' x, set_reference nC None r = Ok r' /\ amp_call nC dim M (Some r') ws m = Ok x).
Proof.
  intros H. destruct (H 1%nat 2%nat id2 [W1 [4]; W1 [3; 4]] [1; 1] [5; 6]) as (r' & x & E & _);
    [apply le_n|discriminate|reflexivity|reflexivity|reflexivity|exact flat2|exact nonneg2|].
  rewrite (ref_default_bad 1 2 [1; 1]) in E; [discriminate|apply le_n|discriminate|reflexivity].
Qed.
Print Assumptions C70_vector_reference_refuted.
Theorem C70_cell_reference_raises nC k M ws r r' m : set_reference nC None r = Ok r' -> length m = (nC * k)%nat -> (2 <= k)%nat -> nC <> 0%nat ->
  Forall (flat_cells nC k) ws -> nonneg nC k ws -> amp_call nC k M (Some r') ws m = Err ValueError.
Proof. exact (ref_default_use nC k M ws r r' m). Qed.
Print Assumptions C70_cell_reference_raises.
Example C70_cell_reference_raises_ex : set_reference 1 None [1] = Ok [1] /\ Forall (flat_cells 1 2) [W1 [4]; W1 [3; 4]] /\ nonneg 1 2 [W1 [4]; W1 [3; 4]].
Proof. split; [reflexivity|]. split; [exact flat2|exact nonneg2]. Qed.
