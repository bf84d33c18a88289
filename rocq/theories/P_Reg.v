(** C41 and C54: regularization terms. *)
From Verif Require Import Py Vec VecDeriv Frechet SensW Coords SpecCoords Reg SpecReg RegFacts RegFacts2.
Local Open Scope R_scope.

(** C41: after any sequence of set_weights, remove_weights and evaluations, accepted or not,
    exactly the weights last registered under each name are held. *)
Theorem C41_registry s r l r' : (forall k, dict_get (weights s) k = r k) -> registry s r l r' ->
  forall k, dict_get (weights (rrun s l)) k = r' k.
Proof. exact (c41_registry l s r r'). Qed.
Print Assumptions C41_registry.
Example C41_registry_ex : registry (fst (reg_new Small two_cells None None false false))
  (fun j => if Nat.eqb j 0 then Some [1; 1] else None) [OSet [(1%nat, WArr [2; 3]); (2%nat, WBad)]; OCall ident [1; 2]; ORemove 0]
  (fun j => if Nat.eqb j 0 then None else if Nat.eqb j 1 then Some [2; 3] else if Nat.eqb j 0 then Some [1; 1] else None).
Proof. eapply Rg_set; [apply En_ok; [reflexivity|apply En_bad]|]. apply Rg_call, Rg_remove, Rg_nil. Qed.

(** C41: after every careful history the value is the weighted sum of squares of the kernel,
    with the product of the weights registered then. *)
Theorem C41_value_partial s M m : reachable s -> usable s -> radian s = false -> length (diff s M m) = nC (ops s) ->
  fst (call s M m) = Ok (measure (effective s) (kernel (r_kind s) (ops s) (diff s M m))).
Proof. exact (c41_value s M m). Qed.
Print Assumptions C41_value_partial.
Example C41_value_ex : let s := rrun (fst (reg_new Smooth1 two_cells None None false false)) [OCall ident [1; 2]; OSet [(1%nat, WArr [3])]] in
  reachable s /\ weights s = [(0%nat, [1; 1]); (1%nat, [3])] /\ usable s.
Proof.
  cbv zeta.
  assert (E : weights (rrun (fst (reg_new Smooth1 two_cells None None false false)) [OCall ident [1; 2]; OSet [(1%nat, WArr [3])]]) = [(0%nat, [1; 1]); (1%nat, [3])]).
  { unfold rrun. cbn [fold_left rstep]. destruct (call_frame (fst (reg_new Smooth1 two_cells None None false false)) ident [1; 2]) as [F W].
    destruct (set_weights_spec (snd (call (fst (reg_new Smooth1 two_cells None None false false)) ident [1; 2])) [(1%nat, WArr [3])]) as (_ & -> & _).
    rewrite W. erewrite set_loop_frame; [|apply F|apply frame_ops, F]. reflexivity. }
  destruct (run_shape [OCall ident [1; 2]; OSet [(1%nat, WArr [3])]] (fst (reg_new Smooth1 two_cells None None false false))) as (K1 & K2 & _).
  assert (KO : ops (rrun (fst (reg_new Smooth1 two_cells None None false false)) [OCall ident [1; 2]; OSet [(1%nat, WArr [3])]]) = two_cells None).
  { unfold rrun. cbn [fold_left rstep]. destruct (call_frame (fst (reg_new Smooth1 two_cells None None false false)) ident [1; 2]) as [F W].
    destruct (set_weights_spec (snd (call (fst (reg_new Smooth1 two_cells None None false false)) ident [1; 2])) [(1%nat, WArr [3])]) as (F2 & _).
    rewrite (frame_ops _ _ F2), (frame_ops _ _ F). reflexivity. }
  split; [|split].
  - exists Smooth1, two_cells, None, None, false, false, [OCall ident [1; 2]; OSet [(1%nat, WArr [3])]]. split; [apply wf_two_cells|]. split; [|reflexivity].
    cbn [careful]. split; [left; cbn; lia|exact I].
  - exact E.
  - unfold usable, effective. rewrite E, KO, K1. cbn [r_kind reg_new set_weights]. split; [discriminate|]. split; [discriminate|].
    intros [|i] Hi; cbn in *; [lra|lia].
Qed.

(** C41: the derivative is the gradient of the value, for every mapping with a derivative. *)
Theorem C41_gradient n s M m : reachable s -> usable s -> radian s = false -> mapping_ok n s M m ->
  exists F g, (forall y, length y = n -> fst (call s M y) = Ok (F y)) /\ fst (deriv s M m) = Ok g /\ has_gradient n F m g.
Proof. exact (c41_gradient n s M m). Qed.
Print Assumptions C41_gradient.

(** C41: the second derivative is symmetric and positive semidefinite. *)
Theorem C41_hessian n s M m u v : reachable s -> usable s -> mapping_ok n s M m -> length u = n -> length v = n ->
  exists Hu Hv, fst (deriv2 s M m u) = Ok Hu /\ fst (deriv2 s M m v) = Ok Hv /\ length Hv = n /\ dot u Hv = dot Hu v /\ 0 <= dot v Hv.
Proof. exact (c41_hessian n s M m u v). Qed.
Print Assumptions C41_hessian.
(** With a linear mapping it is the derivative of the gradient. *)
Theorem C41_newton n s M A m v : reachable s -> usable s -> radian s = false -> is_linear n s M A -> length m = n -> length v = n ->
  exists G Hv, (forall y, length y = n -> fst (deriv s M y) = Ok (G y)) /\ fst (deriv2 s M m v) = Ok Hv /\
    vderiv n (fun t => G (vadd m (vscale t v))) 0 Hv.
Proof. exact (c41_newton n s M A m v). Qed.
Print Assumptions C41_newton.
Example C41_newton_ex : let s := fst (reg_new Smooth1 two_cells None None false false) in
  reachable s /\ usable s /\ is_linear 2 s (mkMap (fun m => mv [[2; 0]; [1; 3]] m) (fun _ => [[2; 0]; [1; 3]])) [[2; 0]; [1; 3]].
Proof.
  cbv zeta. split; [exists Smooth1, two_cells, None, None, false, false, []; split; [apply wf_two_cells|split; [exact I|reflexivity]]|].
  split; [split; [discriminate|split; [discriminate|intros [|i] Hi; cbn in *; [lra|lia]]]|].
  split; [repeat constructor|]. split; [intros; split; reflexivity|exact I].
Qed.

(** C41, findings: a call of set_weights refused at its second entry registers the first,
    and the term goes on with the old product. *)
Theorem C41_half_refused_refuted : exists mo a kvs M m, wf_mesh mo /\
  let s := rrun (fst (reg_new Small mo a None false false)) [OCall M m; OSet kvs] in
  length (diff s M m) = nC (ops s) /\ usable s /\ fst (call s M m) <> Ok (measure (effective s) (kernel Small (ops s) (diff s M m))).
Proof. exact c41_half. Qed.
Print Assumptions C41_half_refused_refuted.
(** Once every weight is removed (the empty product is one) the term raises. *)
Theorem C41_no_weights_refuted s M m x : reachable s -> weights s = [] -> fst (call s M m) <> Ok x.
Proof. exact (c41_none s M m x). Qed.
Print Assumptions C41_no_weights_refuted.
Example C41_no_weights_ex : reachable (rrun (fst (reg_new Small two_cells None None false false)) [ORemove 0]) /\
  weights (rrun (fst (reg_new Small two_cells None None false false)) [ORemove 0]) = [].
Proof. split; [exists Small, two_cells, None, None, false, false, [ORemove 0]; split; [apply wf_two_cells|split; [exact I|reflexivity]]|reflexivity]. Qed.
(** Active cells given after an evaluation leave the old cell gradient in use. *)
Theorem C41_late_active_refuted : exists mo M m0 a m, wf_mesh mo /\
  let late := rrun (fst (reg_new Smooth1 mo None None false false)) [OCall M m0; OActive a] in
  let early := rrun (fst (reg_new Smooth1 mo None None false false)) [OActive a] in
  (exists x, fst (call early M m) = Ok x) /\ fst (call late M m) = Err ValueError.
Proof. exact c41_late. Qed.
Print Assumptions C41_late_active_refuted.
(** Active cells given through another term on the same mesh leave the old weights. *)
Theorem C41_shared_mesh_refuted : exists mo a m, wf_mesh mo /\ forall M, (forall y, phi M y = y) ->
  let s := rrun (fst (reg_new Small mo None None false false)) [OMesh a] in
  length m = nC (ops s) /\ fst (call s M m) = Err ValueError.
Proof. exact c41_shared. Qed.
Print Assumptions C41_shared_mesh_refuted.
(** A second-order term accepts weights on faces, with which it can never be evaluated. *)
Theorem C41_face_weights_refuted : exists mo v, wf_mesh mo /\
  let s := fst (reg_new Smooth2 mo None None false false) in
  snd (set_weights s [(1%nat, WArr v)]) = None /\ forall M m x, fst (call (fst (set_weights s [(1%nat, WArr v)])) M m) <> Ok x.
Proof. exact c41_face_weights. Qed.
Print Assumptions C41_face_weights_refuted.

(** C54: a first-order smoothness of angles does not see whole turns. *)
Theorem C54_turns s M m m' : reachable s -> r_kind s = Smooth1 -> radian s = true -> length (diff s M m) = nC (ops s) ->
  turned (diff s M m) (diff s M m') -> fst (call s M m') = fst (call s M m).
Proof. exact (c54_turns s M m m'). Qed.
Print Assumptions C54_turns.
Example C54_turns_ex : let s := fst (reg_new Smooth1 two_cells None None false true) in
  reachable s /\ turned (diff s ident [1; 2]) (diff s ident [1 + 2 * PI; 2 - 4 * PI]).
Proof.
  cbv zeta. split; [exists Smooth1, two_cells, None, None, false, true, []; split; [apply wf_two_cells|split; [exact I|reflexivity]]|].
  split; [reflexivity|]. intros [|[|i]] Hi; cbn in *; [exists 1%Z; cbn; ring|exists (-2)%Z; cbn; ring|lia].
Qed.

(** C54: its derivative is the gradient of its value wherever no difference is half a turn. *)
Theorem C54_gradient_partial n s M m : reachable s -> usable s -> r_kind s = Smooth1 -> radian s = true -> mapping_ok n s M m ->
  difference_rows (grad (ops s)) -> off_cut (grad (ops s)) (diff s M m) ->
  exists F g, (forall y, length y = n -> fst (call s M y) = Ok (F y)) /\ fst (deriv s M m) = Ok g /\ has_gradient n F m g.
Proof. exact (c54_gradient n s M m). Qed.
Print Assumptions C54_gradient_partial.
Example C54_gradient_ex : let s := fst (reg_new Smooth1 two_cells None None false true) in
  usable s /\ difference_rows (grad (ops s)) /\ off_cut (grad (ops s)) [0; 0].
Proof.
  cbv zeta. split; [split; [discriminate|split; [discriminate|intros [|i] Hi; cbn in *; [lra|lia]]]|]. split.
  - intros r x [<-|[]] Hx. assert (V : vmax [-1; 1] = 1) by (cbn; unfold Rmax; repeat destruct (Rle_dec _ _); lra). rewrite V.
    unfold Reg.sign. destruct Hx as [<-|[<-|[]]]; repeat destruct (Rlt_dec _ _); lra.
  - intros r [<-|[]]. cbn [map dot]. rewrite !Rmult_0_r, !Rplus_0_r. intros E.
    pose proof PI_RGT_0 as P. assert (C0 : coterminal 0 = 0); [|lra]. apply CoordsFacts.c38_coterminal_unique; [lra|]. exists 0%Z. cbn. ring.
Qed.

(** C54, finding: the second-order smoothness of angles always raises. *)
Theorem C54_second_order_refuted s M m x : r_kind s = Smooth2 -> radian s = true -> fst (call s M m) <> Ok x.
Proof. exact (c54_second s M m x). Qed.
Print Assumptions C54_second_order_refuted.
