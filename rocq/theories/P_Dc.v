(** Property theorems C64: DC resistivity simulation. *)
From Verif Require Import Py Vec VecDeriv Joint Dc SpecDc DcFacts DcFacts2 DcFacts3 DcFacts4 DcFacts5.
From Coq Require Import Reals.
Local Open Scope R_scope.

(** The fields of every source are the only solution of its system. *)
Theorem C64_fields s srcs m : setup_ok s srcs -> d_mini s = None -> length m = d_p s -> solves (d_n s) (d_solve s) (getA s m) ->
  exists f, snd (fields s (init srcs) m) = Ok f /\ forall src, In src srcs -> exists u, lookup f src = Ok u /\ length u = d_n s /\ act false (getA s m) u = src_eval s src /\
    forall y, length y = d_n s -> act false (getA s m) y = src_eval s src -> y = u.
Proof. exact (c64_fields s srcs m). Qed.
Print Assumptions C64_fields.
(** The data are the potential differences of the solutions, in the order of the survey, and
    apparent resistivities where asked for. *)
Theorem C64_data s srcs m : setup_ok s srcs -> d_mini s = None -> length m = d_p s ->
  exists u, snd (dpred s (init srcs) m None) = Ok (readings s srcs u) /\ forall src, In src srcs -> solves (d_n s) (d_solve s) (getA s m) -> act false (getA s m) (u src) = src_eval s src.
Proof. exact (c64_data s srcs m). Qed.
Print Assumptions C64_data.
(** Nodal sources are the sum of the currents at their electrodes. *)
Theorem C64_source s src : d_form s = Nodal -> src_eval s src = injected s src.
Proof. exact (c64_source s src). Qed.
Print Assumptions C64_source.
(** Jvec is the derivative of dpred. *)
Theorem C64_jacobian s srcs m : setup_ok s srcs -> d_neumann s = false -> regular s m -> (d_storeJ s = true -> symmetric (d_n s) (getA s m)) ->
  (exists d, snd (dpred s (init srcs) m None) = Ok d) /\ (forall v, length v = d_p s -> exists j, snd (Jvec s (init srcs) m v None) = Ok j) /\
  has_jacobian (d_p s) (data_size s srcs) (fun m' => val [] (snd (dpred s (init srcs) m' None))) m (fun v => val [] (snd (Jvec s (init srcs) m v None))).
Proof. exact (c64_jacobian s srcs m). Qed.
Print Assumptions C64_jacobian.
(** Jtvec is the adjoint of Jvec. *)
Theorem C64_adjoint s srcs m v w : setup_ok s srcs -> length m = d_p s -> length v = d_p s -> length w = data_size s srcs ->
  solves (d_n s) (d_solve s) (getA s m) -> symmetric (d_n s) (getA s m) ->
  exists j a, snd (Jvec s (init srcs) m v None) = Ok j /\ snd (Jtvec s (init srcs) m w None) = Ok a /\ length j = data_size s srcs /\ length a = d_p s /\ dot w j = dot a v.
Proof. exact (c64_adjoint s srcs m v w). Qed.
Print Assumptions C64_adjoint.
(** The systems are symmetric. *)
Theorem C64_nodal_symmetric s m : sizes s -> d_form s = Nodal -> d_neumann s = false -> length m = d_p s -> symmetric (d_n s) (getA s m).
Proof. exact (fun SZ => nodal_symmetric s SZ m). Qed.
Print Assumptions C64_nodal_symmetric.
Theorem C64_cell_symmetric s m : sizes s -> d_form s = Cell -> d_neumann s = false -> length m = d_p s ->
  (forall x, length x = d_n s -> mv (d_G s) x = mtv (d_nf s) (d_D s) x) -> symmetric (d_n s) (getA s m).
Proof. exact (fun SZ => cell_symmetric s SZ m). Qed.
Print Assumptions C64_cell_symmetric.
(** getJ is the matrix of both products. *)
Theorem C64_getJ s srcs m : setup_ok s srcs -> length m = d_p s -> solves (d_n s) (d_solve s) (getA s m) -> symmetric (d_n s) (getA s m) ->
  exists J, snd (getJ s (init srcs) m None) = Ok J /\ is_mat (data_size s srcs) (d_p s) J /\
    (forall v, length v = d_p s -> snd (Jvec s (init srcs) m v None) = Ok (mv J v)) /\
    (forall w, length w = data_size s srcs -> snd (Jtvec s (init srcs) m w None) = Ok (mtv (d_p s) J w)).
Proof. exact (c64_getJ s srcs m). Qed.
Print Assumptions C64_getJ.
(** storeJ does not change the products. *)
Theorem C64_store s srcs m b v w : setup_ok s srcs -> length m = d_p s -> length v = d_p s -> length w = data_size s srcs -> solves (d_n s) (d_solve s) (getA s m) -> symmetric (d_n s) (getA s m) ->
  snd (Jvec (with_store s b) (init srcs) m v None) = snd (Jvec s (init srcs) m v None) /\ snd (Jtvec (with_store s b) (init srcs) m w None) = snd (Jtvec s (init srcs) m w None).
Proof. exact (c64_store s srcs m b v w). Qed.
Print Assumptions C64_store.
(** The first diagonal asked for is that of J^T W^T W J. *)
Theorem C64_jtjdiag s srcs m W : setup_ok s srcs -> length m = d_p s -> solves (d_n s) (d_solve s) (getA s m) -> symmetric (d_n s) (getA s m) -> length W = data_size s srcs ->
  exists J g, snd (getJ s (init srcs) m None) = Ok J /\ snd (getJtJdiag s (init srcs) m (Some W) None) = Ok g /\ length g = d_p s /\
    forall j, (j < d_p s)%nat -> nth j g 0 = vsum (map (fun i => (nth i W 0 * nth j (nth i J []) 0) ^ 2) (seq 0 (length J))).
Proof. exact (c64_jtj s srcs m W). Qed.
Print Assumptions C64_jtjdiag.
(** Earlier calls do not change the results. *)
Theorem C64_history s srcs h m v w g :
  let st := fst (history s srcs h) in let l := snd (history s srcs h) in
  snd (dpred s st m (pick l m g)) = snd (dpred s (init srcs) m None) /\
  snd (Jvec s st m v (pick l m g)) = snd (Jvec s (init srcs) m v None) /\
  snd (Jtvec s st m w (pick l m g)) = snd (Jtvec s (init srcs) m w None) /\
  snd (getJ s st m (pick l m g)) = snd (getJ s (init srcs) m None) /\
  snd (fields s st m) = snd (fields s (init srcs) m).
Proof. exact (history_free s srcs h m v w g). Qed.
Print Assumptions C64_history.
Example C64_ex_regular st : setup_ok (two_nodes false st None) ex_srcs /\ regular (two_nodes false st None) [1] /\ symmetric 2 (getA (two_nodes false st None) [1]) /\ solves 2 solve2 (getA (two_nodes false st None) [1]).
Proof. exact (conj (ex_setup false st) (conj (two_nodes_regular false st None) (conj (ex_symmetric st [1] eq_refl) (two_nodes_solves false st None 1 R1_neq_R0)))). Qed.
Example C64_ex_data g : g <> 0 -> snd (dpred (two_nodes false false None) (init ex_srcs) [g] None) = Ok [2 / (3 * g); - / (3 * g); / (3 * g)].
Proof. exact (ex_data g). Qed.
Example C64_ex_cell w : sizes (two_cells [w; 1 - w] None) /\ regular (two_cells [w; 1 - w] None) [1] /\ symmetric 2 (getA (two_cells [w; 1 - w] None) [1]).
Proof. exact (c64_cell_ex w). Qed.

(** With Neumann conditions the replaced row is not differentiated: Jvec is neither the
    derivative nor the adjoint of Jtvec for a pole receiver. *)
Theorem C64_neumann_refuted : exists s srcs m v w, setup_ok s srcs /\ regular s m /\ d_neumann s = true /\
  ~ has_jacobian (d_p s) (data_size s srcs) (fun m' => val [] (snd (dpred s (init srcs) m' None))) m (fun v => val [] (snd (Jvec s (init srcs) m v None))) /\
  dot w (val [] (snd (Jvec s (init srcs) m v None))) <> dot (val [] (snd (Jtvec s (init srcs) m w None))) v.
Proof. exact c64_neumann. Qed.
Print Assumptions C64_neumann_refuted.
(** Fields kept from before another model was used: the product uses the later factorisation. *)
Theorem C64_kept_fields_refuted : exists s srcs m1 m2 v f, setup_ok s srcs /\ d_neumann s = false /\ regular s m1 /\
  snd (fields s (init srcs) m1) = Ok f /\
  let st := fst (fields s (fst (fields s (init srcs) m1)) m2) in
  exists j, snd (Jvec s st m1 v (Some f)) = Ok j /\ snd (Jvec s (init srcs) m1 v None) <> Ok j.
Proof. exact c64_stale. Qed.
Print Assumptions C64_kept_fields_refuted.
(** A new survey does not replace the source terms. *)
Theorem C64_survey_refuted : exists s srcs srcs' m d, setup_ok s srcs /\ setup_ok s srcs' /\ regular s m /\
  snd (dpred s (set_survey (fst (dpred s (init srcs) m None)) srcs') m None) = Ok d /\ snd (dpred s (init srcs') m None) <> Ok d.
Proof. exact c64_survey. Qed.
Print Assumptions C64_survey_refuted.
(** Two electrodes in one cell: the second current replaces the first. *)
Theorem C64_cell_source_refuted : exists s src, sizes s /\ d_form s = Cell /\ src = dipole 0 0 3 1 [] /\ d_closest s 0 = d_closest s 3 /\ injected s src = vzero 2 /\ src_eval s src = [-1; 0].
Proof. exact c64_same_cell. Qed.
Print Assumptions C64_cell_source_refuted.
(** Later diagonals are those of the first call, whatever the model and the weights. *)
Theorem C64_jtjdiag_refuted : exists s srcs m m', setup_ok s srcs /\ regular s m /\ regular s m' /\ (forall W W' W'', exists g, snd (getJtJdiag s (init srcs) m (Some [W]) None) = Ok g /\
    snd (getJtJdiag s (fst (getJtJdiag s (init srcs) m (Some [W]) None)) m' (Some [W']) None) = Ok g /\
    (W <> 0 -> W'' ^ 2 <> W ^ 2 -> snd (getJtJdiag s (init srcs) m (Some [W'']) None) <> Ok g)) /\
    snd (getJtJdiag s (init srcs) m None None) <> snd (getJtJdiag s (init srcs) m' None None).
Proof. exact c64_jtj_stale. Qed.
Print Assumptions C64_jtjdiag_refuted.
