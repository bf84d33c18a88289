(** C38: coordinate conversions; C51: SphericalSystem and ProjectSphericalBounds. *)
From Coq Require Import ZArith.
From Verif Require Import Py Vec VecDeriv Coords SpecCoords CoordsFacts CoordsFacts2.
Local Open Scope R_scope.

(** ** C38 *)
(** The result of cartesian2spherical holds, column after column, spherical coordinates of
    every vector, in the principal range. *)
Theorem C38_spherical m : exists rows, unstack (cartesian2spherical m) = Ok rows /\ Forall2 spherical_coordinates m rows.
Proof. exact (c38_spherical m). Qed.
Print Assumptions C38_spherical.

(** Missing part of the round trip: it is not exact.  Every vector comes back exactly 1e-8
    longer, in the same direction. *)
Theorem C38_round_trip_partial m : exists sph xyz,
  unstack (cartesian2spherical m) = Ok sph /\ unstack (spherical2cartesian sph) = Ok xyz /\
  Forall2 (fun v w => distance3 v w = 1e-8 /\ length3 w = length3 v + 1e-8 /\
             (0 < length3 v -> exists s, 0 < s /\ w = (s * c0 v, s * c1 v, s * c2 v))) m xyz.
Proof. exact (c38_round_trip m). Qed.
Print Assumptions C38_round_trip_partial.

Theorem C38_round_trip_refuted : ~ forall m sph xyz,
  unstack (cartesian2spherical m) = Ok sph -> unstack (spherical2cartesian sph) = Ok xyz -> xyz = m.
Proof. exact c38_refuted. Qed.
Print Assumptions C38_round_trip_refuted.

(** The two functions return flat arrays, not the documented (n, 3) ones, so that they
    cannot be chained as they are. *)
Theorem C38_chained_refuted m out : c2s_call (D2 m) = Ok out -> s2c_call out = Err IndexError.
Proof. exact (c38_direct m out). Qed.
Print Assumptions C38_chained_refuted.

Theorem C38_other_way_partial m : Forall (fun r => 0 <= c0 r /\ - (PI / 2) < c1 r < PI / 2 /\ - PI < c2 r <= PI) m ->
  exists xyz, unstack (spherical2cartesian m) = Ok xyz /\
    unstack (cartesian2spherical xyz) = Ok (map (fun r => (c0 r + 1e-8, c1 r, c2 r)) m).
Proof. exact (c38_other_way m). Qed.
Print Assumptions C38_other_way_partial.
Example C38_other_way_case : Forall (fun r => 0 <= c0 r /\ - (PI / 2) < c1 r < PI / 2 /\ - PI < c2 r <= PI) [(2, 0, 1); (0, -1, 0)].
Proof.
  pose proof PI_RGT_0. pose proof PI2_1. unfold PI2 in *.
  repeat constructor; cbn; lra.
Qed.

(** Flat arrays and arrays of rows correspond one to one; other lengths raise. *)
Theorem C38_layout rows : unstack (stack rows) = Ok rows.
Proof. exact (unstack_stack rows). Qed.
Print Assumptions C38_layout.
Theorem C38_layout_back m rows : unstack m = Ok rows -> stack rows = m.
Proof. exact (stack_unstack m rows). Qed.
Print Assumptions C38_layout_back.
Theorem C38_layout_error m : (length m mod 3 <> 0)%nat -> unstack m = Err ValueError.
Proof. exact (unstack_bad m). Qed.
Print Assumptions C38_layout_error.

(** Dip and azimuth give the unit vector of the documented direction, one per azimuth. *)
Theorem C38_dip_azimuth dip azm rows : dip_azimuth2cartesian dip azm = Ok rows ->
  length rows = length azm /\ Forall is_unit rows /\
  forall i, (i < length azm)%nat ->
    nth i rows (0, 0, 0) = dip_direction (if Nat.eqb (length dip) 1 then nth 0 dip 0 else nth i dip 0) (nth i azm 0).
Proof. exact (c38_dip dip azm rows). Qed.
Print Assumptions C38_dip_azimuth.
Theorem C38_dip_azimuth_accepts dip azm :
  (exists rows, dip_azimuth2cartesian dip azm = Ok rows) <-> length dip = length azm \/ length dip = 1%nat.
Proof. exact (c38_dip_ok dip azm). Qed.
Print Assumptions C38_dip_azimuth_accepts.

Theorem C38_coterminal theta : - PI <= coterminal theta < PI /\ coterminal_angles theta (coterminal theta).
Proof. exact (c38_coterminal theta). Qed.
Print Assumptions C38_coterminal.
Theorem C38_coterminal_unique theta g : - PI <= g < PI -> coterminal_angles theta g -> coterminal theta = g.
Proof. exact (c38_coterminal_unique theta g). Qed.
Print Assumptions C38_coterminal_unique.
Example C38_coterminal_case : coterminal_angles (3 * PI) (- PI) /\ - PI <= - PI < PI.
Proof. split; [exists 2%Z; ring|pose proof PI_RGT_0; lra]. Qed.

(** The plane contains the three points; its normal vanishes exactly when they are on a
    line, and it is undefined exactly when the first point is repeated. *)
Theorem C38_plane p1 p2 p3 n d : define_plane p1 p2 p3 = Some (n, d) ->
  on_plane n d p1 /\ on_plane n d p2 /\ on_plane n d p3 /\ (n = (0, 0, 0) <-> collinear p1 p2 p3).
Proof. exact (c38_plane p1 p2 p3 n d). Qed.
Print Assumptions C38_plane.
Theorem C38_plane_defined p1 p2 p3 : define_plane p1 p2 p3 = None <-> p2 = p1 \/ p3 = p1.
Proof. exact (c38_plane_defined p1 p2 p3). Qed.
Print Assumptions C38_plane_defined.

(** ** C51 *)
(** Away from the poles, and for amplitudes that are not negative, deriv is the derivative
    of the transform; any azimuth is allowed. *)
Theorem C51_deriv_partial n m : regular_model n m -> exists D,
  ss_matrix m = Ok D /\ is_mat (n + (n + n)) (n + (n + n)) D /\
  has_jacobian (n + (n + n)) (n + (n + n)) ss_fun m (mv D).
Proof. exact (c51_deriv n m). Qed.
Print Assumptions C51_deriv_partial.
Example C51_deriv_case : regular_model 2 [1; 0; 1; -1; 7; 100].
Proof.
  split; [reflexivity|]. pose proof PI2_1. unfold PI2 in *. intros [|[|i]] Hi; cbn; try lra. lia.
Qed.
(** Elsewhere it is not: past a pole the sign of a column is wrong. *)
Theorem C51_deriv_refuted : ~ forall n m D, length m = (n + (n + n))%nat -> ss_matrix m = Ok D ->
  has_jacobian (n + (n + n)) (n + (n + n)) ss_fun m (mv D).
Proof. exact c51_deriv_refuted. Qed.
Print Assumptions C51_deriv_refuted.
(** As long as no array is overwritten, the cached matrix is never the one of another
    model. *)
Theorem C51_history n heap ops id : (forall k, length (heap k) = (n + (n + n))%nat) -> Forall no_write ops ->
  snd (ss_deriv (fold_left ss_step ops (mkSst heap None None)) id) = ss_matrix (heap id).
Proof. exact (c51_history_new n heap ops id). Qed.
Print Assumptions C51_history.
Example C51_history_case : (forall k, length (ss_heap ss_two k) = 3%nat) /\ Forall no_write [SDeriv 0; SDeriv 1; SDeriv 0].
Proof. split; [intros [|k]; reflexivity|repeat constructor]. Qed.
(** After an array was changed in place the matrix of its old contents is returned. *)
Theorem C51_stale_refuted : ~ forall n heap ops id st, (forall k, length (heap k) = (n + (n + n))%nat) ->
  (forall k v, In (SWrite k v) ops -> length v = (n + (n + n))%nat) ->
  st = fold_left ss_step ops (mkSst heap None None) -> snd (ss_deriv st id) = ss_matrix (ss_heap st id).
Proof. exact c51_stale_refuted. Qed.
Print Assumptions C51_stale_refuted.
(** inverse returns the model with the amplitudes 1e-8 larger. *)
Theorem C51_inverse_partial m u : ss_transform m = Ok u -> forall rows, unstack m = Ok rows ->
  Forall (fun r => 0 <= c0 r /\ - (PI / 2) < c1 r < PI / 2 /\ - PI < c2 r <= PI) rows ->
  ss_inverse u = Ok (stack (map (fun r => (c0 r + 1e-8, c1 r, c2 r)) rows)).
Proof. exact (c51_inverse m u). Qed.
Print Assumptions C51_inverse_partial.
(** The projection of the angles puts them in their principal range; the vectors the model
    stands for move by 1e-8. *)
Theorem C51_projection m m' rows : project_bounds m = Ok m' -> unstack m = Ok rows ->
  exists rows', unstack m' = Ok rows' /\ Forall principal rows' /\
    Forall2 (fun r r' => s2c_row r = vector_of (c0 r') (c1 r') (c2 r') /\ distance3 (s2c_row r) (s2c_row r') = 1e-8) rows rows'.
Proof. exact (c51_project m m' rows). Qed.
Print Assumptions C51_projection.
(** A model that needs no projection drifts: after k iterations every amplitude has grown by
    k times 1e-8. *)
Theorem C51_projection_refuted k rows :
  Forall (fun r => 0 <= c0 r /\ - (PI / 2) < c1 r < PI / 2 /\ - PI < c2 r <= PI) rows ->
  project_times k (stack rows) = Ok (stack (map (fun r => (c0 r + INR k * 1e-8, c1 r, c2 r)) rows)).
Proof. exact (c51_drift k rows). Qed.
Print Assumptions C51_projection_refuted.
