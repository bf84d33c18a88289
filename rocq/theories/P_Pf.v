(** C68: integral gravity and magnetics.  [geoana_fill (grav_integral ..)] and
    [choclo_matrix (grav_crow ..)] are the two programs that fill the sensitivity
    matrix, [K0] the arbitrary contents of the array before it is filled. *)
From Verif Require Import Pf SpecPf PfFacts PfFacts2 PfFacts3 PfFacts4 PfFacts5 PfFacts6 PfFacts7.
Local Open Scope R_scope.

(** The matrix has one row per datum, in the order of the data, whatever the array
    held before, and no component raises. *)
Theorem C68_gravity_matrix K Gn mesh s K0 : good_mesh mesh -> length K0 = survey_nD s ->
  geoana_fill (grav_integral K Gn mesh) s K0 0 = Ok (by_location (gravity_response K Gn mesh) s).
Proof. exact (c68_grav_geoana K Gn mesh s K0). Qed.
Print Assumptions C68_gravity_matrix.
Example C68_gravity_matrix_ex : good_mesh two_cells /\ length [[1]; [2]; [3]; [4]] = survey_nD [([Gz; Guv], [origin]); ([Gx], [origin; east])].
Proof. split; [exact (tcells_good [0; 1; 3] [0; 1] [0; 1])|reflexivity]. Qed.

Theorem C68_magnetic_matrix_scalar K Ms d mesh s K0 : good_mesh mesh -> length K0 = survey_nD s ->
  geoana_fill (mag_integral K (MScalar Ms) d mesh) s K0 0 = Ok (by_location (magnetic_scalar_response K d Ms mesh) s).
Proof. exact (c68_mag_geoana K (MScalar Ms) d mesh s K0). Qed.
Print Assumptions C68_magnetic_matrix_scalar.
Theorem C68_magnetic_matrix_vector K amplitude d mesh s K0 : good_mesh mesh -> length K0 = survey_nD s ->
  geoana_fill (mag_integral K (MVector amplitude) d mesh) s K0 0 = Ok (by_location (magnetic_vector_response K d amplitude mesh) s).
Proof. exact (c68_mag_geoana K (MVector amplitude) d mesh s K0). Qed.
Print Assumptions C68_magnetic_matrix_vector.
Example C68_magnetic_matrix_ex : good_mesh two_cells /\ length [[1]; [2]; [3]; [4]] = survey_nD [([Tmi; Bzz], [origin]); ([TmiY], [origin; east])].
Proof. split; [exact (tcells_good [0; 1; 3] [0; 1] [0; 1])|reflexivity]. Qed.

(** The engines give the same matrix when the two libraries give the same value for
    each prism. *)
Theorem C68_gravity_engines K C Gn mesh s K0 K1 : good_mesh mesh -> length K0 = survey_nD s -> length K1 = survey_nD s ->
  (forall loc, In loc (locations s) -> gravity_libraries_agree K C mesh loc) ->
  geoana_fill (grav_integral K Gn mesh) s K0 0 = Ok (choclo_matrix (grav_crow C Gn mesh) s K1).
Proof. exact (c68_grav_engines K C Gn mesh s K0 K1). Qed.
Print Assumptions C68_gravity_engines.
Example C68_gravity_engines_ex : forall loc, In loc (locations [([Gz; Guv], [origin; east])]) -> gravity_libraries_agree toy_gkern toy_ckern two_cells loc.
Proof. intros loc _. exact (toy_gravity two_cells loc). Qed.

(** In magnetics moreover for a positive amplitude and the default magnetization. *)
Theorem C68_magnetic_engines K C (scalar : bool) a d mesh s K0 K1 : 0 < a -> is_unit d -> good_mesh mesh ->
  length K0 = survey_nD s -> length K1 = survey_nD s ->
  (forall loc, In loc (locations s) -> magnetic_libraries_agree K C mesh loc) ->
  geoana_fill (mag_integral K (if scalar then MScalar (repeat (times a d) (length (snd mesh))) else MVector a) d mesh) s K0 0
  = Ok (choclo_matrix (mag_crow C scalar (times a d) mesh) s K1).
Proof. exact (c68_mag_engines K C scalar a d mesh s K0 K1). Qed.
Print Assumptions C68_magnetic_engines.
Example C68_magnetic_engines_ex : is_unit east /\ (forall loc, In loc (locations [([Tmi; Bxy], [origin; east])]) -> magnetic_libraries_agree toy_gkern toy_ckern two_cells loc).
Proof. split; [exact east_unit|intros loc _; exact (toy_magnetic two_cells loc)]. Qed.

(** With a magnetization set by the user the engines differ: choclo does not read it. *)
Theorem C68_magnetization_refuted :
  ~ (forall K C a d Ms mesh s K0, 0 < a -> is_unit d -> good_mesh mesh -> length K0 = survey_nD s -> length Ms = length (snd mesh) ->
       (forall loc, In loc (locations s) -> magnetic_libraries_agree K C mesh loc) ->
       geoana_fill (mag_integral K (MScalar Ms) d mesh) s K0 0 = Ok (choclo_matrix (mag_crow C true (times a d) mesh) s K0)).
Proof.
  intros H. exact (c68_M_bad (H toy_gkern toy_ckern 1 east [times 2 east] unit_cell [([Tmi], [origin])] [[]]
    Rlt_0_1 east_unit unit_good eq_refl eq_refl (fun loc _ => toy_magnetic unit_cell loc))).
Qed.
Print Assumptions C68_magnetization_refuted.
(** With a negative amplitude they differ in tmi. *)
Theorem C68_negative_amplitude_refuted :
  ~ (forall K C a d mesh s K0, a <> 0 -> is_unit d -> good_mesh mesh -> length K0 = survey_nD s ->
       (forall loc, In loc (locations s) -> magnetic_libraries_agree K C mesh loc) ->
       geoana_fill (mag_integral K (MScalar (repeat (times a d) (length (snd mesh)))) d mesh) s K0 0 = Ok (choclo_matrix (mag_crow C true (times a d) mesh) s K0)).
Proof.
  intros H. exact (c68_sign_bad (H toy_gkern toy_ckern (-1) east unit_cell [([Tmi], [origin])] [[]]
    ltac:(lra) east_unit unit_good eq_refl (fun loc _ => toy_magnetic unit_cell loc))).
Qed.
Print Assumptions C68_negative_amplitude_refuted.

(** The data computed without storing the matrix are the matrix times the model. *)
Theorem C68_gravity_forward_geoana K Gn mesh rho s K0 K1 G : good_mesh mesh -> length K0 = survey_nD s -> length K1 = survey_nD s ->
  geoana_fill (grav_integral K Gn mesh) s K1 0 = Ok G ->
  geoana_fill (grav_integral_fwd K Gn mesh rho) s K0 0 = Ok (mv G rho).
Proof.
  intros Hg L0 L1. rewrite (c68_grav_geoana K Gn mesh s K1 Hg L1). intros [= <-]. exact (c68_grav_geoana_fwd K Gn mesh rho s K0 Hg L0).
Qed.
Print Assumptions C68_gravity_forward_geoana.
Theorem C68_gravity_forward_choclo C Gn mesh rho s K0 : length K0 = survey_nD s ->
  choclo_forward (grav_cfwd C Gn mesh rho) s = mv (choclo_matrix (grav_crow C Gn mesh) s K0) rho.
Proof. exact (c68_grav_choclo_fwd C Gn mesh rho s K0). Qed.
Print Assumptions C68_gravity_forward_choclo.
Theorem C68_magnetic_forward_geoana K mm d mesh chi s K0 K1 G : good_mesh mesh -> length K0 = survey_nD s -> length K1 = survey_nD s ->
  geoana_fill (mag_integral K mm d mesh) s K1 0 = Ok G ->
  geoana_fill (mag_integral_fwd K mm d mesh chi) s K0 0 = Ok (mv G chi).
Proof.
  intros Hg L0 L1. rewrite (c68_mag_geoana K mm d mesh s K1 Hg L1). intros [= <-]. exact (c68_mag_geoana_fwd K mm d mesh chi s K0 Hg L0).
Qed.
Print Assumptions C68_magnetic_forward_geoana.
Theorem C68_magnetic_forward_choclo C scalar b0 mesh chi s K0 : length K0 = survey_nD s ->
  choclo_forward (mag_cfwd C scalar b0 mesh chi) s = mv (choclo_matrix (mag_crow C scalar b0 mesh) s K0) chi.
Proof. exact (c68_mag_choclo_fwd C scalar b0 mesh chi s K0). Qed.
Print Assumptions C68_magnetic_forward_choclo.
Example C68_forward_ex : exists G, geoana_fill (grav_integral toy_gkern 1 two_cells) [([Gz], [origin; east])] [[]; []] 0 = Ok G.
Proof. exact (ex_intro _ _ (c68_grav_geoana toy_gkern 1 two_cells [([Gz], [origin; east])] [[]; []] (tcells_good [0; 1; 3] [0; 1] [0; 1]) eq_refl)). Qed.

(** The matrix-free operator: its transpose is the transpose of the matrix, and
    the adjoint of the forward computation. *)
Theorem C68_gravity_transpose C Gn mesh s K0 v : length K0 = survey_nD s ->
  choclo_tdot (grav_crow C Gn mesh) v s 0 (vzero (length (snd mesh))) = mtv (length (snd mesh)) (choclo_matrix (grav_crow C Gn mesh) s K0) v.
Proof. exact (c68_tdot (grav_crow C Gn mesh) (length (snd mesh)) s K0 v (grav_crow_length C Gn mesh)). Qed.
Print Assumptions C68_gravity_transpose.
Theorem C68_gravity_adjoint C Gn mesh rho v s : length rho = length (snd mesh) -> length v = survey_nD s ->
  dot (choclo_forward (grav_cfwd C Gn mesh rho) s) v = dot rho (choclo_tdot (grav_crow C Gn mesh) v s 0 (vzero (length (snd mesh)))).
Proof. exact (c68_grav_adjoint C Gn mesh rho v s). Qed.
Print Assumptions C68_gravity_adjoint.
Theorem C68_magnetic_adjoint C scalar b0 mesh chi v s :
  length chi = (if scalar : bool then length (snd mesh) else 3 * length (snd mesh))%nat -> length v = survey_nD s ->
  dot (choclo_forward (mag_cfwd C scalar b0 mesh chi) s) v
  = dot chi (choclo_tdot (mag_crow C scalar b0 mesh) v s 0 (vzero (if scalar then length (snd mesh) else 3 * length (snd mesh)))).
Proof. exact (c68_mag_adjoint C scalar b0 mesh chi v s). Qed.
Print Assumptions C68_magnetic_adjoint.
Example C68_adjoint_ex : length [1; 2; 3; 4; 5; 6] = (3 * length (snd two_cells))%nat /\ length [7; 8] = survey_nD [([Tmi; Bx], [east])].
Proof. split; reflexivity. Qed.

(** The matrix-free diagonal of G^T W G ignores which datum a weight belongs to, when a
    receiver has several components or the survey several receivers. *)
Theorem C68_diagonal_components_refuted :
  ~ (forall C Gn mesh comps locs w K0, length w = survey_nD [(comps, locs)] -> length K0 = survey_nD [(comps, locs)] ->
       choclo_gtg (grav_crow C Gn mesh) w [(comps, locs)] (vzero (length (snd mesh)))
       = weighted_diagonal (length (snd mesh)) (choclo_matrix (grav_crow C Gn mesh) [(comps, locs)] K0) w).
Proof. intros H. exact (c68_gtg_bad_components (H toy_ckern 1 unit_cell [Gx; Gy] [origin] [1; 4] [[]; []] eq_refl eq_refl)). Qed.
Print Assumptions C68_diagonal_components_refuted.
Theorem C68_diagonal_receivers_refuted :
  ~ (forall C Gn mesh s w K0, Forall (fun r => length (fst r) = 1%nat) s -> length w = survey_nD s -> length K0 = survey_nD s ->
       choclo_gtg (grav_crow C Gn mesh) w s (vzero (length (snd mesh)))
       = weighted_diagonal (length (snd mesh)) (choclo_matrix (grav_crow C Gn mesh) s K0) w).
Proof.
  intros H. exact (c68_gtg_bad_receivers (H toy_ckern 1 unit_cell [([Gx], [origin]); ([Gx], [origin])] [1; 4] [[]; []]
    ltac:(repeat constructor) eq_refl eq_refl)).
Qed.
Print Assumptions C68_diagonal_receivers_refuted.
(** It is right for equal weights, and for one receiver with one component. *)
Theorem C68_diagonal_equal_weights_partial {Cmp} (row : Cmp -> pt -> vec) n a s K0 :
  (forall c l, length (row c l) = n) -> length K0 = survey_nD s -> Forall (fun r => fst r <> []) s ->
  choclo_gtg row (repeat a (survey_nD s)) s (vzero n) = weighted_diagonal n (choclo_matrix row s K0) (repeat a (survey_nD s)).
Proof. exact (c68_gtg_uniform row n a s K0). Qed.
Print Assumptions C68_diagonal_equal_weights_partial.
Theorem C68_diagonal_single_partial {Cmp} (row : Cmp -> pt -> vec) n w c locs K0 :
  (forall c l, length (row c l) = n) -> length K0 = length locs -> length w = length locs ->
  choclo_gtg row w [([c], locs)] (vzero n) = weighted_diagonal n (choclo_matrix row [([c], locs)] K0) w.
Proof. exact (c68_gtg_single row n w c locs K0). Qed.
Print Assumptions C68_diagonal_single_partial.
Example C68_diagonal_ex : forall c l, length (grav_crow toy_ckern 1 two_cells c l) = 2%nat.
Proof. exact (grav_crow_length toy_ckern 1 two_cells). Qed.

(** Inactive cells: the matrix holds the columns of the active ones. *)
Theorem C68_active_geoana K Gn nodes cells active s K0 : good_mesh (nodes, cells) -> length K0 = survey_nD s ->
  geoana_fill (grav_integral K Gn (g_active nodes cells active)) s K0 0
  = Ok (map (masked active) (by_location (gravity_response K Gn (nodes, cells)) s)).
Proof. exact (c68_active_geoana K Gn nodes cells active s K0). Qed.
Print Assumptions C68_active_geoana.
Theorem C68_active_choclo K C Gn nodes cells active s K0 : good_mesh (nodes, cells) -> length active = length cells -> length K0 = survey_nD s ->
  (forall loc, In loc (locations s) -> gravity_libraries_agree K C (c_active nodes cells active) loc) ->
  choclo_matrix (grav_crow C Gn (c_active nodes cells active)) s K0 = map (masked active) (by_location (gravity_response K Gn (nodes, cells)) s).
Proof. exact (c68_active_choclo K C Gn nodes cells active s K0). Qed.
Print Assumptions C68_active_choclo.
Theorem C68_active_magnetic K a d nodes cells active s K0 : good_mesh (nodes, cells) -> length active = length cells -> length K0 = survey_nD s ->
  geoana_fill (mag_integral K (MVector a) d (g_active nodes cells active)) s K0 0
  = Ok (map (masked (active ++ active ++ active)) (by_location (magnetic_vector_response K d a (nodes, cells)) s)).
Proof. exact (c68_active_mag K a d nodes cells active s K0). Qed.
Print Assumptions C68_active_magnetic.
Example C68_active_ex : good_mesh two_cells /\ length [true; false] = length (snd two_cells) /\ masked [true; false] [5; 6] = [5].
Proof. split; [exact (tcells_good [0; 1; 3] [0; 1] [0; 1])|split; reflexivity]. Qed.

(** Cutting the cells of a tensor mesh in two does not change the data. *)
Theorem C68_refine_x K Gn s K0 xs ys zs rho p x : length K0 = survey_nD s ->
  grid_shape (length xs) (length ys) (length zs) rho -> (p + 1 < length xs)%nat ->
  geoana_fill (grav_integral_fwd K Gn (tmesh (cut p x xs) ys zs) (flat (map (map (copied p)) rho))) s K0 0
  = geoana_fill (grav_integral_fwd K Gn (tmesh xs ys zs) (flat rho)) s K0 0.
Proof. exact (fun L => p_refine_x K Gn s K0 L xs ys zs rho p x). Qed.
Print Assumptions C68_refine_x.
Theorem C68_refine_y K Gn s K0 xs ys zs rho p y : length K0 = survey_nD s ->
  grid_shape (length xs) (length ys) (length zs) rho -> (p + 1 < length ys)%nat ->
  geoana_fill (grav_integral_fwd K Gn (tmesh xs (cut p y ys) zs) (flat (map (copied p) rho))) s K0 0
  = geoana_fill (grav_integral_fwd K Gn (tmesh xs ys zs) (flat rho)) s K0 0.
Proof. exact (fun L => p_refine_y K Gn s K0 L xs ys zs rho p y). Qed.
Print Assumptions C68_refine_y.
Theorem C68_refine_z K Gn s K0 xs ys zs rho p z : length K0 = survey_nD s ->
  grid_shape (length xs) (length ys) (length zs) rho -> (p + 1 < length zs)%nat ->
  geoana_fill (grav_integral_fwd K Gn (tmesh xs ys (cut p z zs)) (flat (copied p rho))) s K0 0
  = geoana_fill (grav_integral_fwd K Gn (tmesh xs ys zs) (flat rho)) s K0 0.
Proof. exact (fun L => p_refine_z K Gn s K0 L xs ys zs rho p z). Qed.
Print Assumptions C68_refine_z.
(** A uniform model gives the response of one prism with the extent of the mesh. *)
Theorem C68_uniform K Gn s K0 xs ys zs v rho : length K0 = survey_nD s -> grid_shape (length xs) (length ys) (length zs) rho ->
  (0 < length xs)%nat -> (0 < length ys)%nat -> (0 < length zs)%nat -> all_equal v rho ->
  geoana_fill (grav_integral_fwd K Gn (tmesh xs ys zs) (flat rho)) s K0 0
  = Ok (by_location (fun c loc => - (Gn * gravity_units c) * (v * prism (gravity_function K c)
        (hd 0 xs - px loc) (last xs 0 - px loc) (hd 0 ys - py loc) (last ys 0 - py loc) (hd 0 zs - pz loc) (last zs 0 - pz loc))) s).
Proof. exact (fun L => p_uniform K Gn s K0 L xs ys zs v rho). Qed.
Print Assumptions C68_uniform.
Example C68_refine_ex : grid_shape 3 2 2 [[[5; 5]]] /\ all_equal 5 [[[5; 5]]] /\ cut 1 2 [0; 1; 3] = [0; 1; 2; 3] /\ copied 1 [5; 6] = [5; 6; 6].
Proof. repeat constructor. Qed.

(** Relations between the components. *)
Theorem C68_tmi_geoana K mm d mesh loc c cx cy cz bx b_y bz t : good_mesh mesh -> projects c cx cy cz ->
  mag_integral K mm d mesh loc [cx; cy; cz; c] = Ok [bx; b_y; bz; t] -> t = projected d bx b_y bz.
Proof. exact (c68_tmi K mm d mesh loc c cx cy cz bx b_y bz t). Qed.
Print Assumptions C68_tmi_geoana.
Theorem C68_tmi_choclo C scalar b0 mesh loc c cx cy cz : projects c cx cy cz ->
  mag_crow C scalar b0 mesh c loc
  = projected (direction_of b0) (mag_crow C scalar b0 mesh cx loc) (mag_crow C scalar b0 mesh cy loc) (mag_crow C scalar b0 mesh cz loc).
Proof. exact (crow_tmi C scalar b0 mesh loc c cx cy cz). Qed.
Print Assumptions C68_tmi_choclo.
Example C68_tmi_ex : projects TmiX Bxx Bxy Bxz /\ direction_of (times 3 east) = east.
Proof. split; [right; left; reflexivity|exact (direction_scaled 3 east ltac:(lra) east_unit)]. Qed.
Theorem C68_guv K Gn mesh loc gxx gyy guv : good_mesh mesh ->
  grav_integral K Gn mesh loc [Gxx; Gyy; Guv] = Ok [gxx; gyy; guv] -> guv = vscale (/ 2) (vsub gyy gxx).
Proof. exact (c68_guv K Gn mesh loc gxx gyy guv). Qed.
Print Assumptions C68_guv.
(** A scalar model is the vector model with the same values along the direction. *)
Theorem C68_scalar_is_vector K a d mesh c loc chi : length chi = length (snd mesh) ->
  dot (magnetic_scalar_response K d (repeat (times a d) (length (snd mesh))) mesh c loc) chi
  = dot (magnetic_vector_response K d a mesh c loc) (along_direction d chi).
Proof. exact (c68_scalar_vector K a d mesh c loc chi). Qed.
Print Assumptions C68_scalar_is_vector.
Example C68_scalar_is_vector_ex : along_direction east [5] = [1 * 5; 0 * 5; 0 * 5].
Proof. reflexivity. Qed.
