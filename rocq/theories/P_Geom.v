(** C76: electrode distances, geometric factors and apparent resistivities. *)
From Verif Require Import Py Vec Geom SpecGeom GeomFacts GeomFacts2 GeomFacts3 GeomFacts4.
From Verif Require Survey.
From Coq Require Import String.
Local Open Scope R_scope.

(** Every value returned is the distance of the two electrodes of its datum, in the order of
    the data; electrodes at infinity are infinitely far. *)
Theorem C76_separations : forall sv p d, electrode_separations sv p = Ok d ->
  forall name vals, In (name, vals) d -> Forall2 (separation_is name) (survey_spreads sv) vals.
Proof. exact separations. Qed.
Print Assumptions C76_separations.
Theorem C76_all_separations : forall sv d, electrode_separations sv (PStr "all") = Ok d -> map fst d = ["AB"; "MN"; "AM"; "AN"; "BM"; "BN"]%string.
Proof. exact separations_all. Qed.
Print Assumptions C76_all_separations.
(** A list of names is taken literally: others than these six are ignored. *)
Theorem C76_listed_separations : forall sv l d, electrode_separations sv (PList l) = Ok d ->
  forall n, In n (map fst d) <-> In n l /\ In n ["AB"; "MN"; "AM"; "AN"; "BM"; "BN"]%string.
Proof. exact separation_names. Qed.
Print Assumptions C76_listed_separations.
(** The distances are not horizontal ones. *)
Theorem C76_horizontal_refuted : exists a m, removelast a = removelast m /\ electrode_separations (datum a None m None) (PList ["AM"%string]) = Ok [("AM"%string, [Fin 3])].
Proof. exact not_horizontal. Qed.
Print Assumptions C76_horizontal_refuted.

(** Moving all electrodes by a similarity divides the factors by its scale; translations and
    rotations ([c = 1]) leave them. *)
Theorem C76_similarity : forall c F, 0 < c -> similarity c F -> forall sv sp,
  geometric_factor (map (move_src F) sv) sp = (do G <- geometric_factor sv sp; Ok (map (nmulr (/ c)) G)).
Proof. exact factor_move. Qed.
Print Assumptions C76_similarity.
(** Exchanging current and potential electrodes, exchanging A and B, and the two spaces. *)
Theorem C76_reciprocity : forall a b m n sp, List.length m = List.length a -> geometric_factor (datum a b m n) sp = geometric_factor (datum m n a b) sp.
Proof. exact reciprocity. Qed.
Print Assumptions C76_reciprocity.
Theorem C76_polarity : forall a b m n sp, List.length m = List.length a -> List.length m = List.length b ->
  geometric_factor (datum b (Some a) m n) sp = (do G <- geometric_factor (datum a (Some b) m n) sp; Ok (map nneg G)).
Proof. exact polarity. Qed.
Print Assumptions C76_polarity.
Theorem C76_whole_is_half_of_half : forall sv w h G, In w whole_names -> In h half_names -> geometric_factor sv h = Ok G -> geometric_factor sv w = Ok (map (nmulr (/ 2)) G).
Proof. exact whole_half. Qed.
Print Assumptions C76_whole_is_half_of_half.
(** A pole is the limit of dipoles whose B goes away. *)
Theorem C76_pole_limit : forall a m n sp, In sp (whole_names ++ half_names) -> List.length m = List.length a -> distance a m <> 0 -> (forall n', n = Some n' -> distance a n' <> 0) ->
  exists g, geometric_factor (datum a None m n) sp = Ok [Fin g] /\
  forall eps, 0 < eps -> exists L, forall b, L < distance b m -> (forall n', n = Some n' -> L < distance b n') ->
    exists g', geometric_factor (datum a (Some b) m n) sp = Ok [Fin g'] /\ Rabs (g' - g) < eps.
Proof. exact pole_limit. Qed.
Print Assumptions C76_pole_limit.
Example C76_factor_case : geometric_factor (datum [0; 0] None [1; 0] None) "half space" = Ok [Fin (/ (2 * PI))] /\ similarity 1 (fun v => v).
Proof. split; [rewrite (datum_factor _ _ _ _ _ 2) by reflexivity; rewrite gfac_clear by (apply pp_clear; lra); now rewrite pp_factor|split; intros; lra || reflexivity]. Qed.

(** Every receiver gets the factors of its own electrodes, whoever else uses it; those of
    other receivers stay. *)
Theorem C76_own_factors : forall sv sp d d' G, set_geometric_factor sv sp d = Ok (d', G) -> distinct sv -> dipole_tables sv ->
  forall s r, In s sv -> In r (g_rxs s) -> g_type r = AppRes -> Forall clear (pair_spreads s r) ->
  (In sp whole_names -> dict_get Survey.pkey_eqb (g_sid s, g_rid r) d' = Some (map (fun e => Fin (voltage (whole_space 1) 1 e)) (pair_spreads s r))) /\
  (In sp half_names -> Forall sources_on_surface (pair_spreads s r) -> dict_get Survey.pkey_eqb (g_sid s, g_rid r) d' = Some (map (fun e => Fin (voltage (half_space 1) 1 e)) (pair_spreads s r))).
Proof.
  intros sv sp d d' G H Hd Ht s r Is Ir It Fc. destruct (own_factors _ _ _ _ _ H Hd Ht) as (c & Ec & _ & Hf). rewrite (Hf s r Is Ir It). rewrite Forall_forall in Fc. split; intro Hsp.
  - rewrite (space_whole _ Hsp) in Ec. injection Ec as <-. f_equal. apply map_ext_in. intros e He. rewrite gfac_clear, voltage_whole by auto. f_equal. ring.
  - intro Fs. rewrite Forall_forall in Fs. rewrite (space_half _ Hsp) in Ec. injection Ec as <-. f_equal. apply map_ext_in. intros e He. rewrite gfac_clear, voltage_half by auto. f_equal. ring.
Qed.
Print Assumptions C76_own_factors.
Theorem C76_other_factors : forall sv sp d d' G s r, set_geometric_factor sv sp d = Ok (d', G) ->
  (forall s' r', In s' sv -> In r' (g_rxs s') -> g_sid s' = g_sid s -> g_rid r' = g_rid r -> g_type r' <> AppRes) ->
  dict_get Survey.pkey_eqb (g_sid s, g_rid r) d' = dict_get Survey.pkey_eqb (g_sid s, g_rid r) d.
Proof. exact other_factors. Qed.
Print Assumptions C76_other_factors.
(** Over a homogeneous ground apparent resistivity data are its resistivity, for a current of
    one ampere. *)
Theorem C76_whole_space_partial : forall sv sp d0 d G s r rho, In sp whole_names -> set_geometric_factor sv sp d0 = Ok (d, G) -> distinct sv -> dipole_tables sv -> In s sv -> In r (g_rxs s) -> g_type r = AppRes ->
  Forall clear (pair_spreads s r) -> Forall (fun e => voltage (whole_space 1) 1 e <> 0) (pair_spreads s r) ->
  rx_eval d s r (map (voltage (whole_space rho) 1) (pair_spreads s r)) = Ok (map (fun _ => Fin rho) (pair_spreads s r)).
Proof.
  intros. rewrite (uniform (fun x => whole_space x) 4 whole_names clear space_whole voltage_whole (fun e H => H) sv sp d0 d G s r rho 1) by assumption. now rewrite Rmult_1_r.
Qed.
Print Assumptions C76_whole_space_partial.
Theorem C76_half_space_partial : forall sv sp d0 d G s r rho, In sp half_names -> set_geometric_factor sv sp d0 = Ok (d, G) -> distinct sv -> dipole_tables sv -> In s sv -> In r (g_rxs s) -> g_type r = AppRes ->
  Forall (fun e => clear e /\ sources_on_surface e) (pair_spreads s r) -> Forall (fun e => voltage (half_space 1) 1 e <> 0) (pair_spreads s r) ->
  rx_eval d s r (map (voltage (half_space rho) 1) (pair_spreads s r)) = Ok (map (fun _ => Fin rho) (pair_spreads s r)).
Proof.
  intros. rewrite (uniform (fun x => half_space x) 2 half_names (fun e => clear e /\ sources_on_surface e) space_half (fun x i e H => voltage_half x i e (proj1 H) (proj2 H)) (fun e H => proj1 H) sv sp d0 d G s r rho 1) by assumption. now rewrite Rmult_1_r.
Qed.
Print Assumptions C76_half_space_partial.
(** FINDINGS: with another current they are not; nor between buried electrodes; nor after an
    electrode was moved. *)
Theorem C76_current_refuted : forall I rho, I <> 1 -> rho <> 0 -> exists sv d G s r, set_geometric_factor sv "half space" [] = Ok (d, G) /\ distinct sv /\ dipole_tables sv /\ In s sv /\ In r (g_rxs s) /\ g_type r = AppRes /\
  Forall clear (pair_spreads s r) /\ Forall sources_on_surface (pair_spreads s r) /\ Forall (fun e => voltage (half_space 1) 1 e <> 0) (pair_spreads s r) /\
  exists x, rx_eval d s r (map (voltage (half_space rho) I) (pair_spreads s r)) = Ok [Fin x] /\ x <> rho.
Proof. exact current_counts. Qed.
Print Assumptions C76_current_refuted.
Theorem C76_buried_refuted : exists e, clear e /\ voltage (half_space 1) 1 e <> 0 /\ forall sv d G s r, set_geometric_factor sv "half space" [] = Ok (d, G) -> distinct sv -> dipole_tables sv ->
  In s sv -> In r (g_rxs s) -> g_type r = AppRes -> pair_spreads s r = [e] -> exists x, rx_eval d s r [voltage (half_space 1) 1 e] = Ok [Fin x] /\ x <> 1.
Proof. exact buried. Qed.
Print Assumptions C76_buried_refuted.
Theorem C76_moved_refuted : exists s s' r d G, g_sid s' = g_sid s /\ set_geometric_factor [s] "half space" [] = Ok (d, G) /\ g_rxs s = [r] /\ g_rxs s' = [r] /\ g_type r = AppRes /\
  Forall clear (pair_spreads s' r) /\ Forall sources_on_surface (pair_spreads s' r) /\
  exists x, rx_eval d s' r (map (voltage (half_space 1) 1) (pair_spreads s' r)) = Ok [Fin x] /\ x <> 1.
Proof. exact stale. Qed.
Print Assumptions C76_moved_refuted.
(** Without factors there is an error. *)
Theorem C76_unset : forall d s r v, g_type r = AppRes -> dict_get Survey.pkey_eqb (g_sid s, g_rid r) d = None -> rx_eval d s r v = Err KeyError.
Proof. exact eval_unset. Qed.
Print Assumptions C76_unset.
(** The derivative of the data is their own linear map, and its adjoint. *)
Theorem C76_derivative : forall d s r P f g, g_type r = AppRes -> dict_get Survey.pkey_eqb (g_sid s, g_rid r) d = Some (map Fin g) -> Forall (fun y => y <> 0) g -> List.length P = List.length g ->
  rx_eval d s r (mv P f) = Ok (map Fin (rx_deriv P (Some g) f)).
Proof. exact eval_linear. Qed.
Print Assumptions C76_derivative.
Theorem C76_adjoint : forall m n P factor v w, is_mat m n P -> List.length v = n -> List.length w = m -> (forall g, factor = Some g -> List.length g = m) ->
  dot w (rx_deriv P factor v) = dot (rx_deriv_t n P factor w) v.
Proof. exact deriv_adjoint. Qed.
Print Assumptions C76_adjoint.

(** Apparent resistivities from voltages: within a relative [eps / (|G| - eps)] of the
    resistivity of a homogeneous ground when the factor [G] is larger than the stabiliser. *)
Theorem C76_whole_from_voltage : forall sv sp rho eps l, In sp whole_names -> 0 < rho -> 0 <= eps ->
  apparent_resistivity_from_voltage sv (map (voltage (whole_space rho) 1) (survey_spreads sv)) sp eps = Ok l -> Forall clear (survey_spreads sv) ->
  Forall2 (fun e x => eps < Rabs (voltage (whole_space 1) 1 e) -> exists y, x = Fin y /\ Rabs (y - rho) <= rho * eps / (Rabs (voltage (whole_space 1) 1 e) - eps)) (survey_spreads sv) l.
Proof. exact (from_voltage (fun x => whole_space x) 4 whole_names clear space_whole voltage_whole (fun e H => H)). Qed.
Print Assumptions C76_whole_from_voltage.
Theorem C76_half_from_voltage : forall sv sp rho eps l, In sp half_names -> 0 < rho -> 0 <= eps ->
  apparent_resistivity_from_voltage sv (map (voltage (half_space rho) 1) (survey_spreads sv)) sp eps = Ok l -> Forall (fun e => clear e /\ sources_on_surface e) (survey_spreads sv) ->
  Forall2 (fun e x => eps < Rabs (voltage (half_space 1) 1 e) -> exists y, x = Fin y /\ Rabs (y - rho) <= rho * eps / (Rabs (voltage (half_space 1) 1 e) - eps)) (survey_spreads sv) l.
Proof. exact (from_voltage (fun x => half_space x) 2 half_names (fun e => clear e /\ sources_on_surface e) space_half (fun x i e H => voltage_half x i e (proj1 H) (proj2 H)) (fun e H => proj1 H)). Qed.
Print Assumptions C76_half_from_voltage.
(** FINDING: not otherwise; a factor of minus twice the stabiliser doubles the resistivity. *)
Theorem C76_stabiliser_refuted : forall eps rho, 0 < eps -> 0 < rho -> exists sv, Forall clear (survey_spreads sv) /\ Forall sources_on_surface (survey_spreads sv) /\
  Forall (fun e => voltage (half_space 1) 1 e <> 0) (survey_spreads sv) /\
  apparent_resistivity_from_voltage sv (map (voltage (half_space rho) 1) (survey_spreads sv)) "half space" eps = Ok [Fin (2 * rho)].
Proof. exact stabiliser. Qed.
Print Assumptions C76_stabiliser_refuted.

(** Pseudo-locations on flat ground. *)
Theorem C76_pseudo_flat_partial : forall tol z d sv l, 0 < tol -> (2 <= d)%nat -> Forall (flat z d) (survey_spreads sv) -> single_sources sv -> pseudo_locations tol sv = Ok l ->
  Forall2 (placed tol z) (survey_spreads sv) l.
Proof. exact pseudo_flat. Qed.
Print Assumptions C76_pseudo_flat_partial.
(** FINDINGS: a pole amid its receivers is placed at infinite depth; on a slope the
    displacement from the middle is not perpendicular to the slope. *)
Theorem C76_pole_depth_refuted : exists sv x, single_sources sv /\ Forall (flat 0 2) (survey_spreads sv) /\ pseudo_locations (/ 10) sv = Ok [[x; MInf]].
Proof. exact pole_wenner. Qed.
Print Assumptions C76_pole_depth_refuted.
Theorem C76_slope_refuted : exists sv x y, single_sources sv /\ survey_spreads sv = [{| ea := [0; 0]; eb := None; em := [3; 4]; en := None |}] /\
  pseudo_locations (/ 10) sv = Ok [[Fin x; Fin y]] /\ (x - 3 / 2) * 3 + (y - 4 / 2) * 4 <> 0.
Proof. exact slope. Qed.
Print Assumptions C76_slope_refuted.
