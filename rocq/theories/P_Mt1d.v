(** C75: layered magnetotellurics. *)
From Verif Require Import Py Vec VecDeriv PropsM Cx Mt1d SpecMt1d Mt1dFacts5 Mt1dFacts6.
From Coq Require Import Lra.
Local Open Scope R_scope.

(** The impedance is that of Maxwell's equations: for every number of layers, every
    conductivity, thickness and frequency, all fields that solve the equations in the
    layers, are continuous and bounded at depth have E = Z H at the surface; such fields
    with H non-zero exist. *)
Theorem C75_maxwell mu f sb above thicks : 0 < mu -> 0 < f -> 0 < sb ->
  Forall (fun x => 0 < x) above -> Forall (fun x => 0 < x) thicks -> length above = length thicks ->
  exists Z, impedance mu f (sb :: above) thicks = Ok Z /\ Re Z < 0 /\ Im Z < 0 /\
    (forall E H, surface (2 * PI * f) mu (combine (rev above) (rev thicks)) sb E H -> E = Z *x H) /\
    (exists E H, H <> x0 /\ surface (2 * PI * f) mu (combine (rev above) (rev thicks)) sb E H).
Proof. exact (maxwell_impedance mu f sb above thicks). Qed.
Print Assumptions C75_maxwell.
Example C75_maxwell_case : exists Z, impedance 1 2 [1; 3; 2] [5; 4] = Ok Z /\ Re Z < 0 /\ Im Z < 0.
Proof.
  destruct (C75_maxwell 1 2 1 [3; 2] [5; 4]) as (Z & A & B & C & _); try lra; try reflexivity;
    try (repeat (constructor; [lra|]); constructor).
  exists Z. auto.
Qed.

(** Cutting a layer in two, or the bottom in a layer and a bottom, changes nothing. *)
Theorem C75_split_layer mu f sb a b ta tb s t1 t2 : 0 < mu -> 0 < f -> 0 < sb -> 0 < s -> 0 < t1 -> 0 < t2 ->
  Forall (fun x => 0 < x) (a ++ b) -> Forall (fun x => 0 < x) (ta ++ tb) -> length a = length ta -> length b = length tb ->
  impedance mu f (sb :: a ++ s :: s :: b) (ta ++ t1 :: t2 :: tb) = impedance mu f (sb :: a ++ s :: b) (ta ++ (t1 + t2) :: tb).
Proof. exact (split_layer mu f sb a b ta tb s t1 t2). Qed.
Print Assumptions C75_split_layer.
Theorem C75_split_bottom mu f sb a ta t : 0 < mu -> 0 < f -> 0 < sb -> 0 < t ->
  Forall (fun x => 0 < x) a -> Forall (fun x => 0 < x) ta -> length a = length ta ->
  impedance mu f (sb :: sb :: a) (t :: ta) = impedance mu f (sb :: a) ta.
Proof. exact (split_bottom mu f sb a ta t). Qed.
Print Assumptions C75_split_bottom.
Example C75_split_case : impedance 1 2 [1; 3; 3; 2] [5; 4; 6] = impedance 1 2 [1; 3; 2] [5 + 4; 6].
Proof.
  apply (C75_split_layer 1 2 1 [] [2] [] [6] 3 5 4); try lra; try reflexivity; repeat (constructor; [lra|]); constructor.
Qed.

(** A uniform ground: the apparent resistivity is its resistivity and the phase -135. *)
Theorem C75_half_space mu f s k thicks : 0 < mu -> 0 < f -> 0 < s -> Forall (fun x => 0 < x) thicks -> length thicks = k ->
  exists Z, impedance mu f (repeat s (S k)) thicks = Ok Z /\
    measured mu f Z CAppRes = / s /\ measured mu f Z CPhase = -135.
Proof. exact (half_space mu f s k thicks). Qed.
Print Assumptions C75_half_space.
Example C75_half_space_case : exists Z, impedance 1 2 [7; 7; 7] [5; 4] = Ok Z /\ measured 1 2 Z CAppRes = / 7.
Proof.
  destruct (C75_half_space 1 2 7 2 [5; 4]) as (Z & A & B & _); try lra; try reflexivity;
    try (repeat (constructor; [lra|]); constructor).
  exists Z. auto.
Qed.

(** One number for each receiver, computed from the impedance at the frequency of its
    own source. *)
Theorem C75_data_partial s p n m : usable_sim s p n m -> plain_rx s ->
  exists d, dpred s m = Ok d /\ length d = nD s /\
    forall i fr, nth_error (rx_pairs s) i = Some fr ->
      exists Z, impedance (mt_mu s) (fst fr) (pval (mt_sigma s) m) (pval (mt_thick s) m) = Ok Z /\
                nth i d 0 = measured (mt_mu s) (fst fr) Z (r_comp (snd fr)).
Proof. exact (data_ok s p n m). Qed.
Print Assumptions C75_data_partial.
Example C75_data_case : exists d, dpred two_layer [3; 4] = Ok d /\ length d = 3%nat.
Proof.
  destruct two_usable as (U & P & _). destruct (C75_data_partial _ _ _ _ U P) as (d & A & B & _). exists d. auto.
Qed.

(** Jvec is the derivative of the data with respect to the model. *)
Theorem C75_jacobian s p n m : usable_sim s p n m -> plain_rx s -> invertible s ->
  exists F Jv, (forall m', length m' = p -> dpred s m' = Ok (F m')) /\
    (forall v, length v = p -> fresh s (CallJvec m v) = Ok (Jv v)) /\ has_jacobian p (nD s) F m Jv.
Proof. exact (jacobian_ok s p n m). Qed.
Print Assumptions C75_jacobian.
Theorem C75_adjoint s p n m u v : usable_sim s p n m -> plain_rx s -> invertible s -> length u = nD s -> length v = p ->
  exists d g, fresh s (CallJvec m v) = Ok d /\ fresh s (CallJtvec m u) = Ok g /\ length g = p /\ dot g v = dot u d.
Proof. exact (adjoint_ok s p n m u v). Qed.
Print Assumptions C75_adjoint.
(** The diagonal of J^T W J, when no entry of the model feeds both properties. *)
Theorem C75_diagonal_partial s p n m W : usable_sim s p n m -> plain_rx s -> invertible s -> separate_maps s m ->
  exists g, fresh s (CallDiag m W) = Ok g /\ length g = p /\
    forall j, (j < p)%nat -> exists d, fresh s (CallJvec m (coord p j)) = Ok d /\ nth j g 0 = dot W (map (fun x => x ^ 2) d).
Proof. exact (diagonal_ok s p n m W). Qed.
Print Assumptions C75_diagonal_partial.
Example C75_sensitivity_case : usable_sim two_layer 2 1 [3; 4] /\ plain_rx two_layer /\ invertible two_layer /\ separate_maps two_layer [3; 4].
Proof. exact two_usable. Qed.

(** After any history of calls the answers are those of a new object (but for the diagonal,
    and for models that numpy's allclose tells apart). *)
Theorem C75_history_partial s cs c : separated (map model_of (cs ++ [c])) -> is_diag c = false ->
  snd (do_call s (do_calls s (mt0 false) cs) c) = fresh s c.
Proof. exact (history s cs c). Qed.
Print Assumptions C75_history_partial.
Example C75_history_case : separated (map model_of [CallJvec [3; 4] [1; 0]; CallDiag [3; 4] [1; 1; 1]; CallJtvec [3; 4] [1; 2; 3]]).
Proof. intros a b Ha Hb. left. cbn in Ha, Hb. intuition congruence. Qed.

(** getJtJdiag keeps its first answer: other weights (or another model that has not been
    set yet) still get it. *)
Theorem C75_diagonal_refuted : exists s p n m W1 W2 g, usable_sim s p n m /\ plain_rx s /\ invertible s /\ separate_maps s m /\
  snd (do_call s (do_calls s (mt0 false) [CallDiag m W1]) (CallDiag m W2)) = Ok g /\ fresh s (CallDiag m W2) <> Ok g.
Proof. exact diag_bad. Qed.
Print Assumptions C75_diagonal_refuted.
(** A receiver with several locations gets a single number. *)
Theorem C75_data_refuted : exists s m d, usable_sim s 1 0 m /\ invertible s /\ dpred s m = Ok d /\ length d <> nD s.
Proof. exact count_bad. Qed.
Print Assumptions C75_data_refuted.
(** Complex receivers, accepted by the survey, get no number, and Jvec fails. *)
Theorem C75_complex_refuted : exists s m d, usable_sim s 1 0 m /\ invertible s /\ dpred s m = Ok d /\ length d <> nD s /\
  forall v, fresh s (CallJvec m v) = Err GenericException.
Proof. exact complex_bad. Qed.
Print Assumptions C75_complex_refuted.
