(** C77: layered DC resistivity. *)
From Verif Require Import Py Vec VecDeriv PropsM Geom SpecGeom Dc1d SpecDc1d Dc1dFacts3 Dc1dFacts4 Dc1dFacts5 Dc1dFacts6.
From Verif Require Mt1d SpecMt1d Survey.
From Coq Require Import Lra Lia String.
Local Open Scope R_scope.

(** The kernel is the ratio, at the surface, of the potential (times the wavenumber) to the
    vertical current density of any solution of the equations of the layered ground. *)
Theorem C77_physics : forall above rb hs lams ts k, List.length above = List.length hs -> positive above -> positive hs -> 0 < rb -> positive lams ->
  phi_tilde (above ++ [rb]) hs lams = Ok ts -> (k < List.length lams)%nat ->
  (forall u0 j0, surface (nth k lams 0) (combine above hs) rb u0 j0 -> nth k lams 0 * u0 = nth k ts 0 * j0) /\
  exists u0 j0, j0 <> 0 /\ surface (nth k lams 0) (combine above hs) rb u0 j0.
Proof. exact physics. Qed.
Print Assumptions C77_physics.
Example C77_physics_ex : exists ts, phi_tilde ([100; 10] ++ [1000]) [5; 20] [1; 2] = Ok ts. Proof. eexists. reflexivity. Qed.
(** It lies between the smallest and the largest resistivity. *)
Theorem C77_range : forall rhos hs lams ts lo hi, 0 < lo -> Forall (fun r => lo <= r <= hi) rhos -> Forall (fun h => 0 <= h) hs -> Forall (fun l => 0 <= l) lams ->
  phi_tilde rhos hs lams = Ok ts -> List.length ts = List.length lams /\ Forall (fun t => lo <= t <= hi) ts.
Proof. exact range. Qed.
Print Assumptions C77_range.
(** Cutting a layer, or the bottom, in two changes nothing. *)
Theorem C77_split_layer : forall a b ha hb r h1 h2 rb lams, List.length a = List.length ha -> List.length b = List.length hb -> positive b -> positive hb ->
  0 < r -> 0 <= h1 -> 0 <= h2 -> 0 < rb -> Forall (fun l => 0 <= l) lams ->
  phi_tilde (a ++ [r; r] ++ b ++ [rb]) (ha ++ [h1; h2] ++ hb) lams = phi_tilde (a ++ [r] ++ b ++ [rb]) (ha ++ [h1 + h2] ++ hb) lams.
Proof. exact split_layer. Qed.
Print Assumptions C77_split_layer.
Theorem C77_split_bottom : forall a ha rb h lams, List.length a = List.length ha -> 0 < rb -> 0 <= h -> Forall (fun l => 0 <= l) lams ->
  phi_tilde (a ++ [rb; rb]) (ha ++ [h]) lams = phi_tilde (a ++ [rb]) ha lams.
Proof. exact split_bottom. Qed.
Print Assumptions C77_split_bottom.
(** Too few thicknesses raise. *)
Theorem C77_few_thicknesses : forall rhos hs lams, (List.length hs < List.length rhos - 1)%nat -> phi_tilde rhos hs lams = Err IndexError.
Proof. exact few_thickness. Qed.
Print Assumptions C77_few_thicknesses.
(** FINDING: too many do not; the surplus is ignored. *)
Theorem C77_many_thicknesses_refuted : forall rhos hs more lams, (List.length rhos - 1 <= List.length hs)%nat -> phi_tilde rhos (hs ++ more) lams = phi_tilde rhos hs lams.
Proof. exact extra_thickness. Qed.
Print Assumptions C77_many_thicknesses_refuted.

(** The wavenumbers and radii of the filter: the radii span all distances, and the transform at
    each radius is the weighted sum over the filter's own points divided by that radius. *)
Theorem C77_filter_points : forall rnd f a b lams rs, log_spaced rnd f -> 0 < a -> a <= b -> dlf_points rnd (f_base f) a b = (lams, rs) ->
  (4 <= List.length rs)%nat /\ nth 0 rs 0 = b /\ last rs 0 <= a /\
  exists D, A_dht (List.length rs) (List.length lams) (f_j0 f) = Ok D /\
    forall T i, (i < List.length rs)%nat -> nth (List.length rs - 1 - i) (mv D (map T lams)) 0 = dot (f_j0 f) (map (fun x => T (x / nth i rs 0)) (f_base f)).
Proof. exact filter_points. Qed.
Print Assumptions C77_filter_points.
Example C77_filter_points_ex : log_spaced (fun x => x) (simple_filter 1). Proof. exact (simple_log 1). Qed.

(** Over a homogeneous ground, however layered, surface electrodes measure the voltages of a
    half-space (times the sum of the weights, one for a perfect filter); apparent resistivity
    data, one per receiver, are the resistivity times the current. *)
Theorem C77_homogeneous_partial : forall rnd spline s f sv co m rho I c k, keeps_constants spline -> coefficients rnd spline f [] sv = Ok co -> weighs c f ->
  distinct sv -> dipole_tables sv -> Forall (drives I) sv ->
  Forall (fun p => Forall (fun e => clear e /\ sources_on_surface e) (pair_spreads (fst p) (snd p)) /\ (g_type (snd p) = AppRes -> g_nD (snd p) = 1%nat)) (g_pairs sv) ->
  0 < rho -> Mt1d.pval (dc_rho s) m = repeat rho (S k) -> List.length (Mt1d.pval (dc_thick s) m) = k -> positive (Mt1d.pval (dc_thick s) m) ->
  fresh rnd spline s sv f (CallDpred m) = Ok (List.concat (map (fun p => map (fun e => c * reading rho I (snd p) e) (pair_spreads (fst p) (snd p))) (g_pairs sv))).
Proof. intros rnd spline s f sv co m rho I c k HK. exact (homogeneous rnd spline HK s f sv co m rho I c k). Qed.
Print Assumptions C77_homogeneous_partial.
Example C77_homogeneous_ex : keeps_constants flat_spline /\ fresh (fun x => x) flat_spline half (line Volt [3]) (simple_filter 1) (CallDpred [7]) = Ok [1 * (7 / (2 * PI * 3))].
Proof. split; [exact flat_keeps|]. apply line_data; [exact flat_keeps|discriminate|lra|lra]. Qed.
(** FINDINGS: with two or three apparent resistivities per receiver nothing can be computed;
    with as many as the filter has radii they come out wrong. *)
Theorem C77_several_refuted : forall rnd spline f sv s r, distinct sv -> dipole_tables sv -> In s sv -> In r (g_rxs s) -> g_type r = AppRes -> (2 <= g_nD r <= 3)%nat ->
  forall co, coefficients rnd spline f [] sv <> Ok co.
Proof. exact several. Qed.
Print Assumptions C77_several_refuted.
Example C77_several_ex : distinct (line AppRes [1; 2]) /\ dipole_tables (line AppRes [1; 2]) /\ Forall (fun p => g_type (snd p) = AppRes /\ g_nD (snd p) = 2%nat) (g_pairs (line AppRes [1; 2])).
Proof. destruct (line_ok AppRes [1; 2]) as (A & B & _). split; [exact A|]. split; [exact B|]. constructor; [|constructor]. split; reflexivity. Qed.
Theorem C77_four_refuted : exists co, coefficients (fun x => x) flat_spline (simple_filter 1) [] (line AppRes [1; 2; 3; 4]) = Ok co /\
  forall rho, mv (fst co) (vconst (List.length (snd co)) rho) = [rho; rho / 2; rho / 3; rho / 4].
Proof. exact four_coef. Qed.
Print Assumptions C77_four_refuted.
(** FINDING: surveys with multipole sources are refused, whatever the data. *)
Theorem C77_multipole_refuted : forall rnd spline f sv s, In s sv -> (exists l, g_src s = SMulti l) -> forall co, coefficients rnd spline f [] sv <> Ok co.
Proof. exact multipole. Qed.
Print Assumptions C77_multipole_refuted.

(** Sensitivities. *)
Theorem C77_jacobian : forall rnd spline s sv f p n m co, usable_sim s p n m -> invertible s -> dipole_tables sv -> coefficients rnd spline f [] sv = Ok co ->
  exists F Jm, (forall m', List.length m' = p -> fresh rnd spline s sv f (CallDpred m') = Ok (F m')) /\
    (forall v, List.length v = p -> fresh rnd spline s sv f (CallJvec m v) = Ok (Jm v)) /\ has_jacobian p (n_data sv) F m Jm.
Proof. exact jacobian_ok. Qed.
Print Assumptions C77_jacobian.
Example C77_jacobian_ex : usable_sim two 2 1 [3; 4] /\ invertible two /\ dipole_tables (line Volt [1; 2; 3]) /\ exists co, coefficients (fun x => x) flat_spline (simple_filter 1) [] (line Volt [1; 2; 3]) = Ok co.
Proof.
  destruct two_usable. split; [assumption|]. split; [assumption|]. split; [apply line_ok|]. apply line_coef; [discriminate| |reflexivity]. repeat (constructor; [lra|]). constructor.
Qed.
Theorem C77_adjoint : forall rnd spline s sv f p n m co u v, usable_sim s p n m -> invertible s -> dipole_tables sv -> coefficients rnd spline f [] sv = Ok co ->
  List.length u = n_data sv -> List.length v = p ->
  exists d g, fresh rnd spline s sv f (CallJvec m v) = Ok d /\ fresh rnd spline s sv f (CallJtvec m u) = Ok g /\ List.length d = n_data sv /\ List.length g = p /\ dot g v = dot u d.
Proof. exact adjoint_ok. Qed.
Print Assumptions C77_adjoint.
(** FINDING: with neither property mapped there are data but no sensitivities (not zero ones). *)
Theorem C77_no_maps_refuted : forall rnd spline s sv f co m v u n, Mt1d.is_mapped (dc_rho s) = false -> Mt1d.is_mapped (dc_thick s) = false -> coefficients rnd spline f [] sv = Ok co ->
  List.length (Mt1d.pval (dc_rho s) m) = S n -> List.length (Mt1d.pval (dc_thick s) m) = n ->
  (exists d, fresh rnd spline s sv f (CallDpred m) = Ok d) /\ fresh rnd spline s sv f (CallJvec m v) = Err ValueError /\ fresh rnd spline s sv f (CallJtvec m u) = Err AttributeError.
Proof. exact no_maps. Qed.
Print Assumptions C77_no_maps_refuted.

(** After any history of calls the answer is that of a new object (for models that numpy's
    allclose tells apart). *)
Theorem C77_history_partial : forall rnd spline s sv f cs c, SpecMt1d.separated (map model_of (cs ++ [c])) -> forallb is_call (cs ++ [c]) = true ->
  snd (do_call rnd spline s (do_calls rnd spline s (st0 sv f false) cs) c) = fresh rnd spline s sv f c.
Proof. exact history. Qed.
Print Assumptions C77_history_partial.
(** Data after any history, filters exchanged in between, are those of a new object with the
    filter now in force. *)
Theorem C77_filters : forall rnd spline s sv f cs m, forallb same_survey cs = true ->
  snd (do_call rnd spline s (do_calls rnd spline s (st0 sv f false) cs) (CallDpred m)) = fresh rnd spline s sv (last_filter f cs) (CallDpred m).
Proof. exact filters. Qed.
Print Assumptions C77_filters.
Example C77_filters_ex : forall f f' m v, let cs := [CallJvec m v; SetFilter f'; CallDpred m] in forallb same_survey cs = true /\ last_filter f cs = f'.
Proof. intros. split; reflexivity. Qed.
(** FINDINGS: not after the survey was exchanged; nor, for sensitivities, after the filter was. *)
Theorem C77_survey_refuted : exists sv sv' f m, dipole_tables sv' /\ volts sv' /\
  (exists d, fresh (fun x => x) flat_spline half sv' f (CallDpred m) = Ok d) /\
  snd (do_call (fun x => x) flat_spline half (do_calls (fun x => x) flat_spline half (st0 sv f false) [CallDpred m; SetSurvey sv']) (CallDpred m)) <> fresh (fun x => x) flat_spline half sv' f (CallDpred m).
Proof. exact survey_refuted. Qed.
Print Assumptions C77_survey_refuted.
Theorem C77_filter_refuted : exists sv f f' m v,
  (exists d, fresh (fun x => x) flat_spline half sv f' (CallJvec m v) = Ok d) /\
  snd (do_call (fun x => x) flat_spline half (do_calls (fun x => x) flat_spline half (st0 sv f false) [CallJvec m v; SetFilter f']) (CallJvec m v)) <> fresh (fun x => x) flat_spline half sv f' (CallJvec m v).
Proof. exact filter_refuted. Qed.
Print Assumptions C77_filter_refuted.
