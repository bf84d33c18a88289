(** C61: property mass matrices of a PDE simulation. *)
From Verif Require Import Py Vec VecDeriv PropsM Mass SpecMass MassFacts MassFacts2.
From Coq Require Import Lra.
Local Open Scope R_scope.

(** In every history of assignments, reads and derivatives outside the findings below, a
    mass matrix and its inverse are those of the property's current value on the current
    mesh, whatever was stored; without a value reading raises. *)
Theorem C61_current B s sd k : history B s ->
  snd (get_m s sd k) = (do v <- current s sd; Ok (mv (B k) v)) /\
  snd (get_i s sd k) = (do v <- current s sd; Ok (map (fun x => 1 / x) (mv (B k) v))).
Proof. exact (c61_current B s sd k). Qed.
Print Assumptions C61_current.
(** With a mapping and a model the current value is the mapped model. *)
Theorem C61_value B s sd f x : history B s -> read_map (s_prop s) sd = Some f -> s_model s = Some x -> current s sd = Ok (pm_val f x).
Proof. exact (c61_value B s sd f x). Qed.
Print Assumptions C61_value.
(** The matrix called the inverse is the inverse. *)
Theorem C61_solves B s sd k v : history B s -> current s sd = Ok v -> (forall i, (i < length (B k))%nat -> nth i (mv (B k) v) 0 <> 0) ->
  exists M MI, snd (get_m s sd k) = Ok M /\ snd (get_i s sd k) = Ok MI /\ vmul MI M = vconst (length (B k)) 1.
Proof. exact (c61_solves B s sd k v). Qed.
Print Assumptions C61_solves.
(** The derivative along a model perturbation is the Jacobian of m -> M(m) u, for each of
    the fields given. *)
Theorem C61_derivative B s sd k f x n p nk : history B s -> read_map (s_prop s) sd = Some f -> s_model s = Some x -> jac_at n p f x -> is_mat nk p (B k) ->
  exists J, (forall us v, length v = n -> snd (mderiv s sd k us (Along v)) = Ok (OCols (map (fun u => J u v) us))) /\
    forall u, length u = nk -> has_jacobian n nk (applied (B k) f u) x (J u).
Proof. exact (c61_derivative B s sd k f x n p nk). Qed.
Print Assumptions C61_derivative.
(** The derivative of the inverse is the Jacobian of m -> M(m)^-1 u. *)
Theorem C61_inverse B s sd k f x n p nk : history B s -> read_map (s_prop s) sd = Some f -> s_model s = Some x ->
  jac_at n p f x -> is_mat nk p (B k) -> (forall i, (i < nk)%nat -> nth i (mv (B k) (pm_val f x)) 0 <> 0) ->
  exists J, (forall us v, length v = n -> snd (ideriv s sd k us (Along v)) = Ok (OCols (map (fun u => J u v) us))) /\
    forall u, length u = nk -> has_jacobian n nk (solved (B k) f u) x (J u).
Proof. exact (fun H F M => c61_inverse B s sd k f x n p nk H F M (c61_value B s sd f x H F M)). Qed.
Print Assumptions C61_inverse.
(** The transposed use is the adjoint, summed over the fields; the matrix form agrees. *)
Theorem C61_adjoint B s sd k f x n p nk us ws v : history B s -> read_map (s_prop s) sd = Some f -> s_model s = Some x -> jac_at n p f x -> is_mat nk p (B k) ->
  length us = length ws -> Forall (fun u => length u = nk) us -> Forall (fun w => length w = nk) ws -> length v = n ->
  exists c g, snd (mderiv s sd k us (Along v)) = Ok (OCols c) /\ snd (mderiv s sd k us (Adj ws)) = Ok (OVec g) /\
    vsum (map (fun cw => dot (fst cw) (snd cw)) (combine c ws)) = dot v g.
Proof. exact (c61_adjoint B s sd k f x n p nk us ws v). Qed.
Print Assumptions C61_adjoint.
Theorem C61_matrix B s sd k f x n p nk us v : history B s -> read_map (s_prop s) sd = Some f -> s_model s = Some x -> jac_at n p f x -> is_mat nk p (B k) ->
  Forall (fun u => length u = nk) us -> length v = n ->
  exists A c, snd (mderiv s sd k us AsMatrix) = Ok (OMat A) /\ snd (mderiv s sd k us (Along v)) = Ok (OCols c) /\ mv A v = concat c.
Proof. exact (c61_matrix B s sd k f x n p nk us v). Qed.
Print Assumptions C61_matrix.
(** Without a mapping the derivatives are zero, and indeed the value does not depend on the model. *)
Theorem C61_no_map B s sd k us a m : history B s -> read_map (s_prop s) sd = None ->
  snd (mderiv s sd k us a) = Ok OZero /\ snd (ideriv s sd k us a) = Ok OZero /\ current (put_model s m) sd = current s sd.
Proof. exact (c61_no_map B s sd k us a m). Qed.
Print Assumptions C61_no_map.
(** The mapping used on the other side (resistivity from conductivity) satisfies the
    hypotheses when the first does and its values are not zero. *)
Theorem C61_reciprocal n p f x : jac_at n p f x -> (forall i, (i < p)%nat -> nth i (pm_val f x) 0 <> 0) -> jac_at n p (recip_map f) x.
Proof. exact (c61_reciprocal n p f x). Qed.
Print Assumptions C61_reciprocal.
Example C61_ex : exists s, history mesh23 s /\ read_map (s_prop s) Q = Some (recip_map idmap) /\ s_model s = Some [4; 5] /\
  jac_at 2 2 idmap [4; 5] /\ is_mat 2 2 (mesh23 Fa) /\ s_m s Q Fa <> None.
Proof. exact c61_ex. Qed.

(** Findings: a stored matrix survives a new mapping, a new mesh, deleting the property, and
    a new model within the tolerance of the comparison. *)
Theorem C61_new_mapping_refuted : exists B l sd k v, let s := mrun (sim_init B) l in current s sd = Ok v /\ snd (get_m s sd k) <> Ok (mv (B k) v) /\
  exists f, l = [MMap P (Some idmap); MModel (Some [1; 1]); MRead P Cc; MMap P (Some f)].
Proof. exact c61_stale_map. Qed.
Print Assumptions C61_new_mapping_refuted.
Theorem C61_new_mesh_refuted : exists B B' l sd k v, let s := mrun (sim_init B) (l ++ [MMesh B']) in current s sd = Ok v /\ snd (get_m s sd k) <> Ok (mv (B' k) v).
Proof. exact c61_stale_mesh. Qed.
Print Assumptions C61_new_mesh_refuted.
Theorem C61_deleted_refuted : exists B l sd k e d, let s := mrun (sim_init B) l in current s sd = Err e /\ snd (get_m s sd k) = Ok d.
Proof. exact c61_deleted. Qed.
Print Assumptions C61_deleted_refuted.
Theorem C61_close_model_refuted : exists B l sd k v, let s := mrun (sim_init B) l in current s sd = Ok v /\ snd (get_m s sd k) <> Ok (mv (B k) v) /\
  exists u w, l = [MMap P (Some idmap); MModel (Some u); MRead P Cc; MModel (Some w)].
Proof. exact c61_close. Qed.
Print Assumptions C61_close_model_refuted.
