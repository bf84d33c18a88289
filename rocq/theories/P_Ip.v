(** Property theorems C78: induced polarization simulation. *)
From Verif Require Import Py Vec VecDeriv Joint Dc SpecDc Ip SpecIp IpFacts IpFacts2 IpFacts4 IpFacts5.
From Coq Require Import Reals.
Local Open Scope R_scope.

(** Seigel's definition: the data are the rate at which the DC data change when the
    conductivity is lowered to sigma (1 - t eta), divided by the DC data for apparent
    chargeabilities. *)
Theorem C78_seigel b p E charge srcs prop m : let s := linear_ip b p E charge in ip_ok s srcs prop -> polarizable b p E prop srcs -> length m = p ->
  exists d, vderiv (data_size b srcs) (fun t => dc_data (polarized b p E prop) srcs (vscale t m)) 0 d /\
    snd (idpred s (iinit srcs prop) m None) = Ok (Some (per_datum (charges s srcs) d (dc_data (polarized b p E prop) srcs (vzero p)))).
Proof. exact (fun OK => c78_seigel b p E charge srcs prop OK m). Qed.
Print Assumptions C78_seigel.
(** Ground of one chargeability: it is what apparent chargeabilities show, whatever the
    conductivities, the survey and the mesh. *)
Theorem C78_uniform b p E charge srcs prop m h d i : let s := linear_ip b p E charge in ip_ok s srcs prop -> polarizable b p E prop srcs ->
  length m = p -> mv E m = vconst (d_nc b) h -> snd (idpred s (iinit srcs prop) m None) = Ok (Some d) -> (i < data_size b srcs)%nat ->
  let primary := nth i (dc_data (polarized b p E prop) srcs (vzero p)) 0 in primary <> 0 ->
  nth i d 0 = if nth i (charges s srcs) false then h else h * primary.
Proof. exact (fun OK PZ Lm Em Ed Hi => c78_uniform b p E charge srcs prop OK (proj1 (proj2 PZ)) (proj1 (proj2 (proj2 PZ))) (proj1 (proj2 (proj2 (proj2 PZ)))) m h d i Lm Em Ed Hi (proj1 PZ)). Qed.
Print Assumptions C78_uniform.
(** Jvec is the derivative of dpred. *)
Theorem C78_jacobian b p E charge srcs prop m : let s := linear_ip b p E charge in ip_ok s srcs prop -> length m = p ->
  (exists d, snd (idpred s (iinit srcs prop) m None) = Ok (Some d)) /\ (forall v, length v = p -> exists j, snd (iJvec s (iinit srcs prop) m v None) = Ok j) /\
  has_jacobian p (data_size b srcs) (fun m' => predicted (snd (idpred s (iinit srcs prop) m' None))) m (fun v => val [] (snd (iJvec s (iinit srcs prop) m v None))).
Proof. exact (fun OK => c78_jacobian b p E charge srcs prop OK m). Qed.
Print Assumptions C78_jacobian.
(** Jtvec is the adjoint of Jvec. *)
Theorem C78_adjoint b p E charge srcs prop m v w : let s := linear_ip b p E charge in ip_ok s srcs prop -> length m = p -> length v = p -> length w = data_size b srcs ->
  exists j a, snd (iJvec s (iinit srcs prop) m v None) = Ok j /\ snd (iJtvec s (iinit srcs prop) m w None) = Ok a /\ length j = data_size b srcs /\ length a = p /\ dot w j = dot a v.
Proof. exact (fun OK => c78_adjoint b p E charge srcs prop OK m v w). Qed.
Print Assumptions C78_adjoint.
(** Earlier calls do not change the results, nor do fields returned before. *)
Theorem C78_history b p E charge srcs prop h m v w g : let s := linear_ip b p E charge in ip_ok s srcs prop ->
  let st := fst (ihistory s srcs prop h) in let l := snd (ihistory s srcs prop h) in
  snd (idpred s st m None) = snd (idpred s (iinit srcs prop) m None) /\
  snd (iJvec s st m v (ipick l g)) = snd (iJvec s (iinit srcs prop) m v None) /\
  snd (iJtvec s st m w (ipick l g)) = snd (iJtvec s (iinit srcs prop) m w None) /\
  snd (igetJ s st m (ipick l g)) = snd (igetJ s (iinit srcs prop) m None).
Proof. exact (c78_history b p E charge srcs prop h m v w g). Qed.
Print Assumptions C78_history.
Example C78_ex store charge g m : g <> 0 -> ip_ok (id_ip store charge) ex_srcs [g] /\ polarizable (two_nodes false store None) 1 [[1]] [g] ex_srcs /\
  snd (idpred (id_ip store charge) (iinit ex_srcs [g]) [m] None) = Ok (Some (if charge then [m; m; m] else [m * (2 / (3 * g)); m * - / (3 * g); m * / (3 * g)])).
Proof. exact (fun G => conj (id_ip_ok store charge g G) (conj (id_polarizable store g G) (ex_ip_data store charge g m G))). Qed.

(** With a mapping that is not linear the data are not those of the chargeability, and Jvec is
    not their derivative. *)
Theorem C78_map_refuted : exists b srcs prop eta deta m, (forall x, length x = 1%nat -> has_jacobian 1 1 eta x (mv (deta x))) /\ length m = 1%nat /\
  ip_ok (linear_ip b 1 [[1]] (fun _ => false)) srcs prop /\ let s := mkIp b 1 deta (fun _ => false) in
  snd (idpred s (iinit srcs prop) m None) <> snd (idpred (linear_ip b 1 [[1]] (fun _ => false)) (iinit srcs prop) (eta m) None) /\
  ~ has_jacobian 1 1 (fun m' => predicted (snd (idpred s (iinit srcs prop) m' None))) m (fun v => val [] (snd (iJvec s (iinit srcs prop) m v None))).
Proof. exact c78_map. Qed.
Print Assumptions C78_map_refuted.
(** dpred with fields: the data are those of the last model given to fields, or None. *)
Theorem C78_kept_fields_refuted : exists b srcs prop m1 m2 f, let s := linear_ip b 1 [[1]] (fun _ => false) in ip_ok s srcs prop /\
  let st1 := fst (ifields s (iinit srcs prop) m1) in snd (ifields s (iinit srcs prop) m1) = Ok f /\
  snd (idpred s (fst (ifields s st1 m2)) m1 (Some f)) = snd (idpred s (iinit srcs prop) m2 None) /\
  snd (idpred s (iinit srcs prop) m2 None) <> snd (idpred s (iinit srcs prop) m1 None) /\
  snd (idpred s (iinit srcs prop) m1 (Some f)) = Ok None.
Proof. exact c78_kept. Qed.
Print Assumptions C78_kept_fields_refuted.
(** A new background conductivity is used in half of the formula only. *)
Theorem C78_sigma_refuted : exists b srcs prop prop' m d, let s := linear_ip b 1 [[1]] (fun _ => false) in ip_ok s srcs prop /\ ip_ok s srcs prop' /\
  snd (idpred s (set_prop (fst (idpred s (iinit srcs prop) m None)) prop') m None) = Ok (Some d) /\ snd (idpred s (iinit srcs prop') m None) <> Ok (Some d).
Proof. exact c78_sigma. Qed.
Print Assumptions C78_sigma_refuted.
(** The diagonal of J^T W^T W J keeps the weights of the first call. *)
Theorem C78_jtjdiag_refuted : exists b srcs prop m g, let s := linear_ip b 1 [[1]] (fun _ => false) in ip_ok s srcs prop /\
  snd (igetJtJdiag s (fst (igetJtJdiag s (iinit srcs prop) m (Some [1]) None)) m (Some [2]) None) = Ok g /\ snd (igetJtJdiag s (iinit srcs prop) m (Some [2]) None) <> Ok g.
Proof. exact c78_gtg. Qed.
Print Assumptions C78_jtjdiag_refuted.
(** Apparent chargeabilities of a miniaturized survey end in a KeyError. *)
Theorem C78_mini_refuted : exists b srcs prop, d_mini b = Some (mini_pole_pole srcs) /\ setup_ok (inherited (linear_ip b 1 [[1]] (fun _ => true)) prop prop) srcs /\
  snd (dpred (background b prop) (init srcs) [1] None) = Ok [0] /\ forall m, snd (idpred (linear_ip b 1 [[1]] (fun _ => true)) (iinit srcs prop) [m] None) = Err KeyError.
Proof. exact c78_mini. Qed.
Print Assumptions C78_mini_refuted.
