(** C83: discrete topography, and surveys draped on it. *)
From Verif Require Import Py Vec Abmn Drape SpecDrape DrapeFacts DrapeFacts2 DrapeFacts3 DrapeFacts4.
Local Open Scope R_scope.

(** The discrete topography has a row for every column of the mesh: its horizontal centre and the
    top of its highest active cell, or the centre of that cell. *)
Theorem C83_topography : forall m b cut, thick (m_hz m) -> forall Ts, get_topography m (ABool b) cut = Ok Ts ->
  List.length Ts = List.length (horizontal m) /\ map fst Ts = horizontal m /\
  forall i, (i < List.length (horizontal m))%nat -> match cut with Top => surface_of m b i (snd (nth i Ts ([], 0))) | Center => surface_centre m b i (snd (nth i Ts ([], 0))) | OtherCutoff => False end.
Proof. exact topography_rows. Qed.
Print Assumptions C83_topography.
(** It exists exactly when there is a flag for every cell and every column has an active cell. *)
Theorem C83_topography_accepted : forall m b cut, thick (m_hz m) -> cut <> OtherCutoff ->
  (exists Ts, get_topography m (ABool b) cut = Ok Ts) <-> List.length b = (List.length (horizontal m) * List.length (m_hz m))%nat /\ forall i, (i < List.length (horizontal m))%nat -> some_active m b i.
Proof. exact topography_accepted. Qed.
Print Assumptions C83_topography_accepted.
Example C83_case : thick (m_hz even_topo) /\ even even_topo /\ List.length (horizontal even_topo) = 2%nat /\ own_column even_topo [4; 5] 0 /\ Forall good_src demo_line /\ exists Ts, get_topography even_topo (ABool even_active) Top = Ok Ts.
Proof. exact even_case. Qed.
(** On meshes whose horizontal cells have one size, shifted points lie on the surface of the
    column that contains them, plus their heights: points without and with elevation. *)
Theorem C83_on_surface_partial : forall m b horiz hs pts out j i, thick (m_hz m) -> even m -> (2 <= List.length (horizontal m))%nat ->
  shift_points m (ABool b) Top horiz hs (mdim m - 1) pts = Ok out -> (j < List.length pts)%nat -> own_column m (nth j pts []) i ->
  exists z, surface_of m b i z /\ nth j out [] = (if horiz then nth i (horizontal m) [] else nth j pts []) ++ [z + height_of hs j].
Proof. exact on_surface. Qed.
Print Assumptions C83_on_surface_partial.
Theorem C83_elevation_partial : forall m b horiz hs pts out j i h z0, thick (m_hz m) -> even m -> (2 <= List.length (horizontal m))%nat ->
  shift_points m (ABool b) Top horiz hs (mdim m) pts = Ok out -> (j < List.length pts)%nat -> nth j pts [] = h ++ [z0] -> own_column m h i ->
  exists z, surface_of m b i z /\ nth j out [] = (if horiz then nth i (horizontal m) [] else h) ++ [z + height_of hs j].
Proof. exact on_surface_elev. Qed.
Print Assumptions C83_elevation_partial.
(** A draped survey has the same sources, receivers and data with every electrode moved to the
    surface of its column; the tables of the survey agree with it. *)
Theorem C83_survey_partial : forall m b horiz v v', thick (m_hz m) -> even m -> (2 <= List.length (horizontal m))%nat -> Forall good_src (v_src v) -> current v -> drape m (ABool b) Top horiz v = Ok v' ->
  exists g, v_src v' = map (move_src g) (v_src v) /\ v_cache v' = Some (tables (v_src v')) /\
    forall p i, electrodes_in (v_src v) p -> own_place m p i -> exists z, surface_of m b i z /\ g p = (if horiz then nth i (horizontal m) [] else firstn (mdim m - 1) p) ++ [z].
Proof. exact draped_on_surface. Qed.
Print Assumptions C83_survey_partial.
(** On any mesh: electrodes at one horizontal place stay together, and the survey keeps its shape. *)
Theorem C83_together : forall m act cut horiz v v', Forall good_src (v_src v) -> current v -> drape m act cut horiz v = Ok v' ->
  exists Ts g, get_topography m act cut = Ok Ts /\ (forall p, electrodes_in (v_src v) p -> shift1 m Ts horiz (2 =? mdim m)%nat (firstn 2 p) = Ok (g p)) /\
    (forall p q, firstn 2 p = firstn 2 q -> g p = g q) /\
    v_src v' = map (move_src g) (v_src v) /\ v_cache v' = Some (tables (v_src v')).
Proof. exact draped. Qed.
Print Assumptions C83_together.
Theorem C83_accepted : forall m act cut horiz v Ts p q, get_topography m act cut = Ok Ts -> (2 <= List.length Ts)%nat -> Forall good_src (v_src v) -> current v ->
  electrodes_in (v_src v) p -> electrodes_in (v_src v) q -> firstn 2 p <> firstn 2 q -> exists v', drape m act cut horiz v = Ok v'.
Proof. exact drape_ok. Qed.
Print Assumptions C83_accepted.
Example C83_survey_case : exists v', drape even_topo (ABool even_active) Top true {| v_src := demo_line; v_cache := None |} = Ok v'.
Proof. exact even_draped. Qed.
(** On any three-dimensional mesh, draping again changes nothing. *)
Theorem C83_twice : forall m hy b cut horiz v v' v'', m_hy m = Some hy -> thick (m_hx m) -> thick hy -> Forall good_src (v_src v) -> current v -> (forall p, electrodes_in (v_src v) p -> List.length p = 3%nat) ->
  drape m (ABool b) cut horiz v = Ok v' -> drape m (ABool b) cut horiz v' = Ok v'' -> v_src v'' = v_src v'.
Proof. exact drape_twice. Qed.
Print Assumptions C83_twice.

(** With cells of different sizes a point is given the elevation of a neighbouring column: here
    one metre inside the ground. *)
Theorem C83_neighbour_refuted : own_column demo_topo [9] 0 /\ surface_of demo_topo demo_active 0 0 /\ shift_points demo_topo (ABool demo_active) Top false (One 0) 2 [[9; 0]] = Ok [[9; -1]].
Proof. exact demo_wrong. Qed.
Print Assumptions C83_neighbour_refuted.
(** and shifting the result again moves it. *)
Theorem C83_line_twice_refuted : exists p, shift_points demo_topo (ABool demo_active) Top true (One 0) 2 [[9; 0]] = Ok [p] /\ p = [5; -1] /\ shift_points demo_topo (ABool demo_active) Top true (One 0) 2 [p] = Ok [[5; 0]].
Proof. exact demo_twice. Qed.
Print Assumptions C83_line_twice_refuted.
(** Moving a source after the tables of the survey were read has no effect: it is draped where it
    was before. *)
Theorem C83_stale_refuted : forall m act cut horiz v k locs, drape m act cut horiz (set_location (fst (read_tables v)) k locs) = drape m act cut horiz v.
Proof. exact stale. Qed.
Print Assumptions C83_stale_refuted.
(** A source of many electrodes is left with one. *)
Theorem C83_multipole_refuted : forall m act cut horiz v v' s, drape m act cut horiz v = Ok v' -> In s (v_src v') -> d_kind s = KMulti -> List.length (d_locs s) = 1%nat.
Proof. exact multipole. Qed.
Print Assumptions C83_multipole_refuted.
(** A single point without elevation cannot be shifted, indices of active cells are not accepted,
    and on a mesh with one column points can fail. *)
Theorem C83_single_point_refuted : forall m act cut horiz hs p out, shift_points m act cut horiz hs (mdim m - 1) [p] <> Ok out.
Proof. exact single_point. Qed.
Print Assumptions C83_single_point_refuted.
Theorem C83_indices_refuted : forall m l cut, List.length l <> (List.length (horizontal m) * List.length (m_hz m))%nat -> get_topography m (AInt l) cut = Err ValueError.
Proof. exact topography_indices. Qed.
Print Assumptions C83_indices_refuted.
Theorem C83_one_column_refuted : forall gx gy x y, Rabs (y - gy) < Rabs (x - gx) -> closest [[gx; gy]] [x; y] = Err IndexError.
Proof. exact one_column. Qed.
Print Assumptions C83_one_column_refuted.
