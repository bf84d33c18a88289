(** Property theorems C65: miniaturized DC surveys. *)
From Verif Require Import Py Vec VecDeriv Joint Dc SpecDc DcFacts DcFacts2 DcFacts3 DcFacts4 DcFacts5 DcFacts6 DcFacts7.
From Coq Require Import Reals.
Local Open Scope R_scope.

(** Data and sensitivities with miniaturize=True are those without. *)
Theorem C65_same s srcs m v w : sizes s -> d_form s = Nodal -> d_neumann s = false -> unit_survey srcs -> length m = d_p s -> solves (d_n s) (d_solve s) (getA s m) ->
  length v = d_p s -> length w = data_size (full s) srcs ->
  (exists d, snd (dpred (full s) (init srcs) m None) = Ok d) /\ snd (dpred (miniaturized s srcs) (init srcs) m None) = snd (dpred (full s) (init srcs) m None) /\
  snd (Jvec (miniaturized s srcs) (init srcs) m v None) = snd (Jvec (full s) (init srcs) m v None) /\
  snd (Jtvec (miniaturized s srcs) (init srcs) m w None) = snd (Jtvec (full s) (init srcs) m w None).
Proof. exact (fun SZ NF NN US Lm SV => c65_same s SZ NF NN srcs US m Lm SV v w). Qed.
Print Assumptions C65_same.
(** The two directions of the combination are adjoint. *)
Theorem C65_adjoint s srcs : setup_ok s srcs -> forall d w, length d = survey_nD (used s (init srcs)) -> length w = data_size s srcs ->
  length (mini_data s 0 Rminus Rplus d) = data_size s srcs /\ length (mini_dataT s w) = survey_nD (used s (init srcs)) /\ dot w (mini_data s 0 Rminus Rplus d) = dot (mini_dataT s w) d.
Proof. exact (c65_adjoint s srcs). Qed.
Print Assumptions C65_adjoint.
(** The pole-pole survey has one source for each electrode at most, and only electrodes of the
    survey. *)
Theorem C65_poles srcs : mini_ok (mini_pole_pole srcs) /\ NoDup (map s_id (mi_srcs (mini_pole_pole srcs))) /\
  forall src, In src (mi_srcs (mini_pole_pole srcs)) -> exists q, In q (abmn srcs) /\ (let '(a, b, m, n) := q in s_id src = a \/ s_id src = b \/ s_id src = m \/ s_id src = n).
Proof. exact (c65_small srcs). Qed.
Print Assumptions C65_poles.
Example C65_ex_unit : unit_survey ex_srcs /\ sizes (two_nodes false false None) /\ solves 2 solve2 (getA (two_nodes false false None) [1]).
Proof. exact (conj ex_unit (conj (two_nodes_sizes false false None) (two_nodes_solves false false None 1 R1_neq_R0))). Qed.
Example C65_ex_mini : mi_srcs (mini_pole_pole ex_srcs) = [pole_source 0 [0%nat; 1%nat]; pole_source 1 [1%nat]] /\
  mi_am (mini_pole_pole ex_srcs) = [0%nat; 1%nat; 1%nat] /\ mi_rx (mini_pole_pole ex_srcs) = [true; false; false].
Proof. exact ex_mini. Qed.
(** Currents, apparent resistivities and dipoles of length zero are lost. *)
Theorem C65_current_refuted : exists srcs, srcs = one_pole 0 2 /\ snd (dpred (full (two_nodes false false None)) (init srcs) [1] None) = Ok [4 / 3] /\ snd (dpred (miniaturized (two_nodes false false None) srcs) (init srcs) [1] None) = Ok [2 / 3].
Proof. exact c65_current. Qed.
Print Assumptions C65_current_refuted.
Theorem C65_apparent_refuted : setup_ok (full (two_nodes false false None)) app_pole /\ snd (dpred (full (two_nodes false false None)) (init app_pole) [1] None) = Ok [1 / 3] /\ snd (dpred (miniaturized (two_nodes false false None) app_pole) (init app_pole) [1] None) = Ok [2 / 3].
Proof. exact c65_apparent. Qed.
Print Assumptions C65_apparent_refuted.
Theorem C65_zero_dipole_refuted : snd (dpred (full (two_nodes false false None)) (init zero_dipole) [1] None) = Ok [0] /\ snd (dpred (miniaturized (two_nodes false false None) zero_dipole) (init zero_dipole) [1] None) = Ok [2 / 3].
Proof. exact c65_zero. Qed.
Print Assumptions C65_zero_dipole_refuted.
(** Cell-centred: sources go to the closest cell and receivers are interpolated, so source and
    receiver cannot be exchanged. *)
Theorem C65_cell_refuted : exists s, sizes s /\ d_form s = Cell /\ regular s [1] /\ symmetric 2 (getA s [1]) /\ unit_survey cell_pole /\
  snd (dpred (full s) (init cell_pole) [1] None) = Ok [2] /\ snd (dpred (miniaturized s cell_pole) (init cell_pole) [1] None) = Ok [3 / 2].
Proof. exact c65_cell. Qed.
Print Assumptions C65_cell_refuted.
(** After a refused call the simulation is left with the pole-pole survey. *)
Theorem C65_survey_left_refuted s mi srcs m : d_mini s = Some mi -> length m <> d_p s -> st_srcs (fst (dpred s (init srcs) m None)) = mi_srcs mi /\ snd (dpred s (init srcs) m None) = Err ValueError.
Proof. exact (c65_left s mi srcs m). Qed.
Print Assumptions C65_survey_left_refuted.
