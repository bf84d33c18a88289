(** C81: DC/IP surveys and data come back from the UBC files they are written to
    (io_utils_electromagnetics.py). *)
From Verif Require Import Py Vec DcUbc SpecDcUbc DcUbcFacts3 DcUbcFacts4.
Local Open Scope R_scope.

(** 3D surveys of one kind of sources and one kind of receivers: the file gives the survey with
    printed positions and one receiver object per source, and the printed data; the data object is
    left alone.  At the surface: dipole receivers only. *)
Theorem C81_round_trip3_partial : forall P rho t k surface c d, (forall x, 0 <= x -> 0 <= P x) -> ~ (k = Dpred /\ t = Volt) -> data_ok 3 d -> d_srcs d <> [] -> (k = Dobs -> d_std d <> None) ->
  (pole_srcs (d_srcs d) \/ dipole_srcs surface 3 P (d_srcs d)) -> (surface = false /\ pole_rxs (d_srcs d) \/ dipole_rxs surface 3 P (d_srcs d)) ->
  fst (write3 P rho t k surface c d) = d /\ exists f, snd (write3 P rho t k surface c d) = Ok f /\ read3 f = Ok (expected surface 3 P k d).
Proof. exact round_trip3. Qed.
Print Assumptions C81_round_trip3_partial.
Example C81_round_trip3_partial_ex : data_ok 3 (ex_data [dip 0; dip 50] 4) /\ dipole_srcs true 3 (fun x => x) [dip 0; dip 50] /\ dipole_rxs true 3 (fun x => x) [dip 0; dip 50].
Proof. exact ex_dip. Qed.

(** The same in 2D. *)
Theorem C81_round_trip2_partial : forall P t k surface c d, (forall x, 0 <= x -> 0 <= P x) -> data_ok 2 d -> d_srcs d <> [] -> (k = Dobs -> d_std d <> None) ->
  (pole_srcs (d_srcs d) \/ dipole_srcs surface 2 P (d_srcs d)) -> (pole_rxs (d_srcs d) \/ dipole_rxs surface 2 P (d_srcs d)) ->
  exists f, write2 P t k surface c d = Ok f /\ read2 t f = Ok (expected surface 2 P k d).
Proof. exact round_trip2. Qed.
Print Assumptions C81_round_trip2_partial.
Example C81_round_trip2_partial_ex : data_ok 2 (ex_data [dip2 0] 2) /\ dipole_srcs false 2 (fun x => x) [dip2 0] /\ pole_rxs [dip2 0].
Proof. exact ex_two. Qed.

(** After a pole source all sources are read as poles at their first electrode; after pole
    receivers all receivers are read as poles. *)
Theorem C81_sticky_refuted : forall P, (forall x, 0 <= x -> 0 <= P x) -> forall rho t k c d z, ~ (k = Dpred /\ t = Volt) -> data_ok 3 d -> d_srcs d <> [] -> (k = Dobs -> d_std d <> None) ->
  Forall (fun s => Forall pole_rx (receivers s) \/ Forall (dipole_rx false 3 P) (receivers s)) (d_srcs d) ->
  exists f d', snd (write3 P rho t k false c d) = Ok f /\ read3 f = Ok d' /\ List.length (d_srcs d') = List.length (d_srcs d) /\
    (forall i j, (i <= j < List.length (d_srcs d))%nat -> is_pole (nth i (d_srcs d) z) -> exists r, nth j (d_srcs d') z = PoleSrc (printed P (first_end (nth j (d_srcs d) z))) r) /\
    (forall i j, (i <= j < List.length (d_srcs d))%nat -> Forall pole_rx (receivers (nth i (d_srcs d) z)) -> receivers (nth j (d_srcs d') z) = [PoleRx (map (printed P) (ms (nth j (d_srcs d) z)))]).
Proof. exact sticky. Qed.
Print Assumptions C81_sticky_refuted.
Example C81_sticky_refuted_ex : data_ok 3 (ex_data [pol 0; dip 50] 4) /\ Forall (fun s => Forall pole_rx (receivers s) \/ Forall (dipole_rx false 3 (fun x => x)) (receivers s)) [pol 0; dip 50].
Proof. exact ex_mixed. Qed.

(** A source with pole and dipole receivers can be written but not read. *)
Theorem C81_mixed_refuted : forall P rho t k c d s r1 r2, ~ (k = Dpred /\ t = Volt) -> data_ok 3 d -> (k = Dobs -> d_std d <> None) -> hd_error (d_srcs d) = Some s -> In r1 (receivers s) -> In r2 (receivers s) -> pole_rx r1 -> dipole_rx false 3 P r2 -> (0 < rx_nD r1)%nat -> (0 < rx_nD r2)%nat ->
  exists f, snd (write3 P rho t k false c d) = Ok f /\ read3 f = Err ValueError.
Proof. exact mixed. Qed.
Print Assumptions C81_mixed_refuted.
Example C81_mixed_refuted_ex : data_ok 3 (ex_data [DipoleSrc (pt 0 0 0) (pt 100 0 0) [PoleRx [pt 200 0 0]; one_rx]] 2) /\ pole_rx (PoleRx [pt 200 0 0]) /\ dipole_rx false 3 (fun x => x) one_rx.
Proof. exact ex_block. Qed.

(** A dipole of 50 m at a northing of 5500 km is read as a pole, however well it is printed. *)
Theorem C81_utm_refuted : forall rho, exists f, snd (write3 (fun x => x) rho Volt Survey false 0 (ex_data [utm] 1)) = Ok f /\
  exists d, read3 f = Ok d /\ d_srcs d = [PoleSrc (pt 500000 5500000 300) [DipoleRx [pt 500000 5500200 300] [pt 500000 5500300 300]]].
Proof. exact utm_read. Qed.
Print Assumptions C81_utm_refuted.

(** Pole receivers of 3D surface files come back with two coordinates. *)
Theorem C81_surface_poles_refuted : forall P, (forall x, 0 <= x -> 0 <= P x) -> forall rho t k c d z, ~ (k = Dpred /\ t = Volt) -> data_ok 3 d -> d_srcs d <> [] -> (k = Dobs -> d_std d <> None) -> pole_rxs (d_srcs d) ->
  exists f d', snd (write3 P rho t k true c d) = Ok f /\ read3 f = Ok d' /\ List.length (d_srcs d') = List.length (d_srcs d) /\
    forall j, (j < List.length (d_srcs d))%nat -> receivers (nth j (d_srcs d') z) = [PoleRx (map (fun x => printed P (firstn 2 x)) (ms (nth j (d_srcs d) z)))].
Proof. exact surface_poles. Qed.
Print Assumptions C81_surface_poles_refuted.
Example C81_surface_poles_refuted_ex : pole_rxs [pol 0] /\ src_ok 3 (pol 0).
Proof. split; [repeat constructor|exact (Forall_inv (proj1 (proj1 ex_mixed)))]. Qed.

(** Writing predicted DC data replaces the uncertainties of the data object by apparent
    resistivities, which are also what is read back for them. *)
Theorem C81_dpred_refuted : forall P, (forall x, 0 <= x -> 0 <= P x) -> forall rho surface c d, data_ok 3 d -> d_srcs d <> [] -> List.length (rho d) = nD (d_srcs d) -> Forall (fun x => negative x = false) (rho d) ->
  (pole_srcs (d_srcs d) \/ dipole_srcs surface 3 P (d_srcs d)) -> (surface = false /\ pole_rxs (d_srcs d) \/ dipole_rxs surface 3 P (d_srcs d)) ->
  let d1 := mkData (d_srcs d) (d_obs d) (Some (rho d)) in
  fst (write3 P rho Volt Dpred surface c d) = d1 /\ exists f, snd (write3 P rho Volt Dpred surface c d) = Ok f /\ read3 f = Ok (expected surface 3 P Dobs d1).
Proof. exact dpred_volt. Qed.
Print Assumptions C81_dpred_refuted.
Example C81_dpred_refuted_ex : d_std (ex_data [dip 0; dip 50] 4) = None /\ List.length (d_obs (ex_data [dip 0; dip 50] 4)) = nD [dip 0; dip 50].
Proof. split; reflexivity. Qed.
