(** Symmetries and limits of geometric factors, and what goes wrong. *)
From Verif Require Import Py Vec LinSimFacts XyzIOFacts Geom SpecGeom GeomFacts GeomFacts2.
From Verif Require Survey SpecSurvey SurveyFacts.
From Coq Require Import String.
Local Open Scope R_scope.

(** ** Surveys of one datum *)
Lemma datum_spreads a b m n : survey_spreads (datum a b m n) = [{| ea := a; eb := b; em := m; en := n |}].
Proof. destruct b, n; reflexivity. Qed.
Lemma datum_factor a b m n sp c : space_factor sp = Ok c -> len m = len a -> geometric_factor (datum a b m n) sp = Ok [gfac c (quad_of {| ea := a; eb := b; em := m; en := n |})].
Proof.
  intros Hc L. unfold geometric_factor. rewrite Hc. cbn [bind]. unfold rows_of, datum, src_quads, src_places. destruct b, n; cbn; rewrite L, Nat.eqb_refl; reflexivity.
Qed.
Lemma datum_bad_space a b m n sp e : space_factor sp = Err e -> geometric_factor (datum a b m n) sp = Err e.
Proof. intro H. unfold geometric_factor. now rewrite H. Qed.
Lemma psep_bn_sym x y : psep (place_b x) (place_n y) = psep (place_b y) (place_n x).
Proof. destruct x, y; cbn; auto. rewrite !norm_distance. now rewrite distance_sym. Qed.
Lemma psep_an_bm x y : psep (At x) (place_n y) = psep (place_b y) (At x).
Proof. destruct y; cbn; auto. rewrite !norm_distance. now rewrite distance_sym. Qed.
Lemma reciprocity a b m n sp : len m = len a -> geometric_factor (datum a b m n) sp = geometric_factor (datum m n a b) sp.
Proof.
  intro L. destruct (space_factor sp) as [c|e] eqn:Ec; [|now rewrite !(datum_bad_space _ _ _ _ _ e)].
  rewrite !(datum_factor _ _ _ _ _ c) by auto. do 2 f_equal. unfold gfac, quad_of. cbn [qa qb qm qn ea eb em en]. f_equal.
  rewrite (psep_sym (At a) (At m)), (psep_bn_sym b n), (psep_an_bm a n), <- (psep_an_bm m b). f_equal. unfold nsub. rewrite !nadd_assoc. f_equal. apply nadd_comm.
Qed.
Lemma polarity a b m n sp : len m = len a -> len m = len b -> geometric_factor (datum b (Some a) m n) sp = (do G <- geometric_factor (datum a (Some b) m n) sp; Ok (map nneg G)).
Proof.
  intros L L'. destruct (space_factor sp) as [c|e] eqn:Ec; [|now rewrite !(datum_bad_space _ _ _ _ _ e)].
  rewrite !(datum_factor _ _ _ _ _ c) by auto. cbn [bind map]. do 2 f_equal. unfold gfac, quad_of. cbn [qa qb qm qn ea eb em en place_b]. pose proof PI_RGT_0. pose proof (space_pos _ _ Ec).
  assert (0 < / (c * PI)) by (apply Rinv_0_lt_compat; nra). rewrite <- nmulr_neg by assumption. f_equal. unfold nsub. rewrite !nneg_add, !nneg_neg.
  set (x := ndiv 1 (psep (At b) (At m))). set (y := ndiv 1 (psep (At a) (At m))). set (z := ndiv 1 (psep (At b) (place_n n))). set (w := ndiv 1 (psep (At a) (place_n n))).
  rewrite (nadd_comm x (nneg y)), !nadd_assoc. do 2 f_equal. apply nadd_comm.
Qed.
Lemma whole_half sv w h G : In w whole_names -> In h half_names -> geometric_factor sv h = Ok G -> geometric_factor sv w = Ok (map (nmulr (/ 2)) G).
Proof.
  intros Hw Hh. unfold geometric_factor. rewrite (space_whole _ Hw), (space_half _ Hh). cbn [bind]. destruct (rows_of sv) as [rows|]; [|discriminate]. cbn [bind]. destruct rows as [|x rows]; [discriminate|].
  set (l := List.concat (x :: rows)). intro H. injection H as <-. f_equal. rewrite map_map. apply map_ext. intro q. unfold gfac. pose proof PI_RGT_0. rewrite nmulr_mulr; [|lra|apply Rinv_0_lt_compat; lra]. f_equal. field. lra.
Qed.

(** ** The pole as a limit of dipoles *)
Definition far (e : R) (x : option R) : Prop := match x with Some d => / e < d | None => True end.
Lemma gval_far c a m n b eps : 0 < c -> 0 < eps -> / eps < distance b m -> (forall n', n = Some n' -> / eps < distance b n') ->
  Rabs (gval c {| ea := a; eb := Some b; em := m; en := n |} - gval c {| ea := a; eb := None; em := m; en := n |}) <= 2 * eps / (c * PI).
Proof.
  intros Hc He Hm Hn. pose proof PI_RGT_0. assert (Hi : 0 < / eps) by now apply Rinv_0_lt_compat. assert (Hcp : 0 < / (c * PI)) by (apply Rinv_0_lt_compat; nra).
  assert (Hb : forall d, / eps < d -> 0 < / d < eps).
  { intros d Hd. split; [apply Rinv_0_lt_compat; lra|]. rewrite <- (Rinv_inv eps). apply Rinv_lt_contravar; nra. }
  unfold gval. cbn [ea eb em en odist inv_opt]. pose proof (Hb _ Hm) as Bm.
  replace (2 * eps / (c * PI)) with (/ (c * PI) * (2 * eps)) by (field; split; lra).
  destruct n as [n|]; cbn [odist inv_opt].
  - pose proof (Hb _ (Hn n eq_refl)) as Bn. match goal with |- Rabs ?x <= _ => replace x with (/ (c * PI) * (/ distance b n - / distance b m)) by ring end.
    rewrite Rabs_mult, (Rabs_right (/ (c * PI))) by lra. apply Rmult_le_compat_l; [lra|]. apply Rabs_le. lra.
  - match goal with |- Rabs ?x <= _ => replace x with (/ (c * PI) * (- / distance b m)) by ring end.
    rewrite Rabs_mult, (Rabs_right (/ (c * PI))) by lra. apply Rmult_le_compat_l; [lra|]. apply Rabs_le. lra.
Qed.
Lemma pole_limit a m n sp : In sp (whole_names ++ half_names) -> len m = len a -> distance a m <> 0 -> (forall n', n = Some n' -> distance a n' <> 0) ->
  exists g, geometric_factor (datum a None m n) sp = Ok [Fin g] /\
  forall eps, 0 < eps -> exists L, forall b, L < distance b m -> (forall n', n = Some n' -> L < distance b n') ->
    exists g', geometric_factor (datum a (Some b) m n) sp = Ok [Fin g'] /\ Rabs (g' - g) < eps.
Proof.
  intros Hsp L Hm Hn. assert (exists c, space_factor sp = Ok c) as (c & Ec) by (apply in_app_or in Hsp; destruct Hsp; [rewrite space_whole|rewrite space_half]; eauto).
  pose proof (space_pos _ _ Ec) as Hc. pose proof PI_RGT_0 as Hpi. assert (Hcp : 0 < c * PI) by nra.
  exists (gval c {| ea := a; eb := None; em := m; en := n |}). split.
  - rewrite (datum_factor _ _ _ _ _ c) by assumption. rewrite gfac_clear; [reflexivity|]. unfold clear. cbn. destruct n as [n|]; cbn; auto.
  - intros eps He. set (e := eps * (c * PI) / 3). assert (0 < e) by (unfold e; apply Rdiv_lt_0_compat; [nra|lra]). exists (/ e). intros b Bm Bn.
    assert (Hi : 0 < / e) by now apply Rinv_0_lt_compat.
    exists (gval c {| ea := a; eb := Some b; em := m; en := n |}). split.
    + rewrite (datum_factor _ _ _ _ _ c) by assumption. rewrite gfac_clear; [reflexivity|]. unfold clear. cbn. destruct n as [n|]; cbn; repeat split; auto; try (specialize (Bn n eq_refl)); lra.
    + eapply Rle_lt_trans; [apply (gval_far c a m n b e); assumption|]. unfold e. replace (2 * (eps * (c * PI) / 3) / (c * PI)) with (eps * (2 / 3)) by (field; split; lra). lra.
Qed.

(** ** Derivatives *)
Lemma vmul_dot_swap : forall g x y, len g = len x -> len g = len y -> dot x (vmul g y) = dot (vmul g x) y.
Proof.
  induction g as [|a g IH]; intros [|b x] [|c y] H1 H2; try discriminate; [reflexivity|]. unfold vmul in *. cbn. cbn in H1, H2. rewrite (IH x y) by lia. ring.
Qed.
Lemma deriv_adjoint m n P factor v w : is_mat m n P -> len v = n -> len w = m -> (forall g, factor = Some g -> len g = m) ->
  dot w (rx_deriv P factor v) = dot (rx_deriv_t n P factor w) v.
Proof.
  intros HP Hv Hw Hg. unfold rx_deriv, rx_deriv_t. destruct factor as [g|].
  - specialize (Hg g eq_refl). assert (len (mv P v) = m) by (rewrite mv_length; apply HP). rewrite vmul_dot_swap by (rewrite map_length; lia). apply (mv_mtv_adjoint m); auto; rewrite vmul_length; rewrite ?map_length; lia.
  - apply (mv_mtv_adjoint m); auto.
Qed.
Lemma zip_div : forall x g, Forall (fun y => y <> 0) g -> len x = len g -> zipn ndiv x (map Fin g) = map Fin (vmul (map Rinv g) x).
Proof.
  induction x as [|a x IH]; intros [|b g] F L; try discriminate; [reflexivity|]. unfold vmul in *. cbn [map zipn zipw]. cbn in L. rewrite IH; [|now apply Forall_inv_tail in F|lia]. f_equal.
  pose proof (Forall_inv F). unfold ndiv. destruct (Req_EM_T b 0); [contradiction|]. f_equal. unfold Rdiv. ring.
Qed.
Lemma eval_linear d s r P f g : g_type r = AppRes -> dict_get Survey.pkey_eqb (g_sid s, g_rid r) d = Some (map Fin g) -> Forall (fun y => y <> 0) g -> len P = len g ->
  rx_eval d s r (mv P f) = Ok (map Fin (rx_deriv P (Some g) f)).
Proof. intros Ht Hd F L. unfold rx_eval, rx_deriv. rewrite Ht, Hd. f_equal. apply zip_div; [assumption|]. now rewrite mv_length. Qed.
Lemma eval_unset d s r v : g_type r = AppRes -> dict_get Survey.pkey_eqb (g_sid s, g_rid r) d = None -> rx_eval d s r v = Err KeyError.
Proof. intros Ht Hd. unfold rx_eval. now rewrite Ht, Hd. Qed.

(** ** What goes wrong *)
Lemma dist2 a b c d : distance [a; b] [c; d] = sqrt ((a - c) * (a - c) + (b - d) * (b - d)).
Proof. unfold distance. cbn. f_equal. ring. Qed.
Lemma dist_on_line x y : distance [x; 0] [y; 0] = Rabs (x - y).
Proof. rewrite dist2. replace ((x - y) * (x - y) + (0 - 0) * (0 - 0)) with (Rsqr (x - y)) by (unfold Rsqr; ring). apply sqrt_Rsqr_abs. Qed.
Definition rx0 (k : rkind) : grx := {| g_rid := 0; g_type := AppRes; g_rx := k |}.
Lemma datum_distinct a b m n : distinct (datum a b m n) /\ dipole_tables (datum a b m n).
Proof.
  split; [split; cbn; repeat constructor; intuition|]. unfold dipole_tables, datum. repeat constructor; cbn; destruct n; cbn; auto.
Qed.
(** The pole at the origin and a pole receiver at distance one. *)
Definition pole_pole : list gsrc := datum [0; 0] None [1; 0] None.
Lemma pp_factor : gval 2 {| ea := [0; 0]; eb := None; em := [1; 0]; en := None |} = / (2 * PI).
Proof. unfold gval. cbn [ea eb em en odist inv_opt]. rewrite dist_on_line. replace (0 - 1) with (Ropp 1) by ring. rewrite Rabs_Ropp, Rabs_R1, Rinv_1. ring. Qed.
Lemma pp_clear x : x <> 0 -> clear {| ea := [0; 0]; eb := None; em := [x; 0]; en := None |}.
Proof. intro H. unfold clear. cbn [ea eb em en opt_all]. rewrite dist_on_line. repeat split; auto. apply Rabs_no_R0. lra. Qed.
Lemma surface0 x : on_surface [x; 0].
Proof. split; [discriminate|reflexivity]. Qed.
Lemma current_counts I rho : I <> 1 -> rho <> 0 -> exists sv d G s r, set_geometric_factor sv "half space" [] = Ok (d, G) /\ distinct sv /\ dipole_tables sv /\ In s sv /\ In r (g_rxs s) /\ g_type r = AppRes /\
  Forall clear (pair_spreads s r) /\ Forall sources_on_surface (pair_spreads s r) /\ Forall (fun e => voltage (half_space 1) 1 e <> 0) (pair_spreads s r) /\
  exists x, rx_eval d s r (map (voltage (half_space rho) I) (pair_spreads s r)) = Ok [Fin x] /\ x <> rho.
Proof.
  intros HI Hr. pose proof PI_RGT_0. destruct (datum_distinct [0; 0] None [1; 0] None) as (D & T).
  set (s := {| g_sid := 0; g_src := SPole [0; 0]; g_cur := [1]; g_rxs := [rx0 (RPole [[1; 0]])] |}).
  assert (E : exists d G, set_geometric_factor pole_pole "half space" [] = Ok (d, G)).
  { unfold set_geometric_factor, pole_pole. rewrite (datum_factor _ _ _ _ _ 2) by reflexivity. cbn [bind]. eauto. }
  destruct E as (d & G & E). exists pole_pole, d, G, s, (rx0 (RPole [[1; 0]])).
  assert (Hp : pair_spreads s (rx0 (RPole [[1; 0]])) = [{| ea := [0; 0]; eb := None; em := [1; 0]; en := None |}]) by reflexivity.
  assert (Hcl : Forall clear (pair_spreads s (rx0 (RPole [[1; 0]])))) by (rewrite Hp; constructor; [apply pp_clear; lra|constructor]).
  assert (Hsf : Forall sources_on_surface (pair_spreads s (rx0 (RPole [[1; 0]])))) by (rewrite Hp; constructor; [split; [apply surface0|exact Logic.I]|constructor]).
  assert (Hv : Forall (fun e => voltage (half_space 1) 1 e <> 0) (pair_spreads s (rx0 (RPole [[1; 0]])))).
  { rewrite Hp. constructor; [|constructor]. rewrite voltage_half; [|apply pp_clear; lra|split; [apply surface0|exact Logic.I]]. rewrite pp_factor. assert (0 < / (2 * PI)) by (apply Rinv_0_lt_compat; lra). lra. }
  split; [exact E|]. split; [exact D|]. split; [exact T|]. split; [now left|]. split; [now left|]. split; [reflexivity|]. split; [exact Hcl|]. split; [exact Hsf|]. split; [exact Hv|].
  exists (rho * I). split; [|intro C; apply HI; apply (Rmult_eq_reg_l rho); [lra|assumption]].
  rewrite (uniform (fun r => half_space r) 2 half_names (fun e => clear e /\ sources_on_surface e) space_half (fun r i e H => voltage_half r i e (proj1 H) (proj2 H)) (fun e H => proj1 H)
    pole_pole "half space" [] d G s (rx0 (RPole [[1; 0]])) rho I); auto; try (now left); try reflexivity.
  rewrite Forall_forall in *. intros e He. split; auto.
Qed.
(** Two buried electrodes. *)
Lemma buried : exists e, clear e /\ voltage (half_space 1) 1 e <> 0 /\ forall sv d G s r, set_geometric_factor sv "half space" [] = Ok (d, G) -> distinct sv -> dipole_tables sv -> In s sv -> In r (g_rxs s) -> g_type r = AppRes -> pair_spreads s r = [e] ->
  exists x, rx_eval d s r [voltage (half_space 1) 1 e] = Ok [Fin x] /\ x <> 1.
Proof.
  pose proof PI_RGT_0. set (e := {| ea := [0; -1]; eb := None; em := [0; -2]; en := None |}). exists e.
  assert (d1 : distance [0; -1] [0; -2] = 1) by (rewrite dist2; replace ((0 - 0) * (0 - 0) + (-1 - -2) * (-1 - -2)) with 1 by ring; apply sqrt_1).
  assert (d3 : distance (mirror [0; -1]) [0; -2] = 3) by (unfold mirror; cbn [removelast last app]; rewrite dist2; replace ((0 - 0) * (0 - 0) + (- -1 - -2) * (- -1 - -2)) with (3 * 3) by ring; apply sqrt_square; lra).
  assert (C : clear e) by (unfold clear, e; cbn [ea eb em en opt_all]; rewrite d1; repeat split; auto; lra).
  assert (V : voltage (half_space 1) 1 e = / (3 * PI)). { unfold voltage, half_space, injected, e. cbn [ea eb em en total fst snd]. rewrite d1, d3. field. lra. }
  assert (g : gval 2 e = / (2 * PI)) by (unfold gval, e; cbn [ea eb em en odist inv_opt]; rewrite d1, Rinv_1; ring).
  assert (P2 : 0 < / (2 * PI)) by (apply Rinv_0_lt_compat; lra). assert (P3 : 0 < / (3 * PI)) by (apply Rinv_0_lt_compat; lra).
  split; [exact C|]. split; [rewrite V; lra|]. intros sv d G s r E D T Is Ir It Hp. destruct (own_factors _ _ _ _ _ E D T) as (c & Ec & _ & Hf).
  rewrite (space_half "half space" (or_introl eq_refl)) in Ec. injection Ec as <-. unfold rx_eval. rewrite It, (Hf s r Is Ir It), Hp. cbn [map zipn]. rewrite gfac_clear, V, g by assumption.
  unfold ndiv. destruct (Req_EM_T (/ (2 * PI)) 0); [lra|]. eexists. split; [reflexivity|]. replace (/ (3 * PI) / / (2 * PI)) with (2 / 3) by (field; lra). lra.
Qed.
(** Factors that were set before the source moved. *)
Lemma stale : exists s s' r d G, g_sid s' = g_sid s /\ set_geometric_factor [s] "half space" [] = Ok (d, G) /\ g_rxs s = [r] /\ g_rxs s' = [r] /\ g_type r = AppRes /\
  Forall clear (pair_spreads s' r) /\ Forall sources_on_surface (pair_spreads s' r) /\
  exists x, rx_eval d s' r (map (voltage (half_space 1) 1) (pair_spreads s' r)) = Ok [Fin x] /\ x <> 1.
Proof.
  pose proof PI_RGT_0. destruct (datum_distinct [0; 0] None [1; 0] None) as (D & T). set (r := rx0 (RPole [[1; 0]])).
  assert (E : exists d G, set_geometric_factor pole_pole "half space" [] = Ok (d, G)).
  { unfold set_geometric_factor, pole_pole. rewrite (datum_factor _ _ _ _ _ 2) by reflexivity. cbn [bind]. eauto. }
  destruct E as (d & G & E). exists {| g_sid := 0; g_src := SPole [0; 0]; g_cur := [1]; g_rxs := [r] |}, {| g_sid := 0; g_src := SPole [-1; 0]; g_cur := [1]; g_rxs := [r] |}, r, d, G.
  split; [reflexivity|]. split; [exact E|]. do 3 (split; [reflexivity|]).
  assert (d2 : distance [-1; 0] [1; 0] = 2) by (rewrite dist_on_line; replace (-1 - 1) with (Ropp 2) by ring; rewrite Rabs_Ropp, Rabs_right; lra).
  set (e' := {| ea := [-1; 0]; eb := None; em := [1; 0]; en := None |}).
  assert (C : clear e') by (unfold clear, e'; cbn [ea eb em en opt_all]; rewrite d2; repeat split; auto; lra).
  assert (S : sources_on_surface e') by (split; [apply surface0|exact I]).
  assert (Hp : forall s, g_src s = SPole [-1; 0] -> pair_spreads s r = [e']) by (intros s Hs; unfold pair_spreads; rewrite Hs; reflexivity).
  rewrite Hp by reflexivity. split; [now constructor|]. split; [now constructor|].
  destruct (own_factors _ _ _ _ _ E D T) as (c & Ec & _ & Hf). rewrite (space_half "half space" (or_introl eq_refl)) in Ec. injection Ec as <-.
  unfold rx_eval. cbn [g_sid g_type r rx0 g_rid].
  pose proof (Hf {| g_sid := 0; g_src := SPole [0; 0]; g_cur := [1]; g_rxs := [r] |} r (or_introl eq_refl) (or_introl eq_refl) eq_refl) as HF. cbn [g_sid r rx0 g_rid] in HF. rewrite HF.
  change (pair_spreads _ _) with [{| ea := [0; 0]; eb := None; em := [1; 0]; en := None |}]. cbn [map zipn]. rewrite gfac_clear by (apply pp_clear; lra). rewrite pp_factor, voltage_half by assumption.
  assert (g : gval 2 e' = / (4 * PI)) by (unfold gval, e'; cbn [ea eb em en odist inv_opt]; rewrite d2; field; lra). rewrite g.
  assert (0 < / (2 * PI)) by (apply Rinv_0_lt_compat; lra).
  unfold ndiv. destruct (Req_EM_T (/ (2 * PI)) 0); [lra|]. eexists. split; [reflexivity|]. replace (1 * 1 * / (4 * PI) / / (2 * PI)) with (/ 2) by (field; lra). lra.
Qed.
(** A negative factor twice as large as the stabiliser. *)
Lemma stabiliser eps rho : 0 < eps -> 0 < rho -> exists sv, Forall clear (survey_spreads sv) /\ Forall sources_on_surface (survey_spreads sv) /\ Forall (fun e => voltage (half_space 1) 1 e <> 0) (survey_spreads sv) /\
  apparent_resistivity_from_voltage sv (map (voltage (half_space rho) 1) (survey_spreads sv)) "half space" eps = Ok [Fin (2 * rho)].
Proof.
  intros He Hr. pose proof PI_RGT_0 as Hpi. set (x := / (4 * PI * eps)). set (y := / (8 * PI * eps)). assert (Hx : 0 < x) by (apply Rinv_0_lt_compat; nra). assert (Hy : 0 < y) by (apply Rinv_0_lt_compat; nra).
  exists (datum [0; 0] None [x; 0] (Some [y; 0])). rewrite datum_spreads. set (e := {| ea := [0; 0]; eb := None; em := [x; 0]; en := Some [y; 0] |}).
  assert (dd : forall z, 0 < z -> distance [0; 0] [z; 0] = z) by (intros z Hz; rewrite dist_on_line; replace (0 - z) with (- z) by ring; rewrite Rabs_Ropp, Rabs_right; lra).
  assert (C : clear e) by (unfold clear, e; cbn [ea eb em en opt_all]; rewrite !dd by assumption; repeat split; auto; lra).
  assert (S : sources_on_surface e) by (split; [apply surface0|exact I]).
  assert (g : gval 2 e = - (2 * eps)) by (unfold gval, e; cbn [ea eb em en odist inv_opt]; rewrite !dd by assumption; unfold x, y; rewrite !Rinv_inv; field; lra).
  split; [now constructor|]. split; [now constructor|]. split; [constructor; [rewrite voltage_half, g by assumption; lra|constructor]|].
  unfold apparent_resistivity_from_voltage. rewrite (datum_factor _ _ _ _ _ 2) by reflexivity. cbn [bind map List.length Nat.eqb zipn]. rewrite gfac_clear by exact C. fold e. rewrite voltage_half, g by assumption.
  unfold app_res. cbn [nadd]. rewrite ndiv_fin by lra. cbn. do 3 f_equal. replace (rho * 1 * - (2 * eps) * / (- (2 * eps) + eps)) with (2 * rho) by (field; lra). apply Rabs_right. lra.
Qed.
(** One electrode below the other. *)
Lemma not_horizontal : exists a m, removelast a = removelast m /\ electrode_separations (datum a None m None) (PList ["AM"%string]) = Ok [("AM"%string, [Fin 3])].
Proof.
  exists [0; 0], [0; -3]. split; [reflexivity|]. unfold electrode_separations. cbn [pair_list bind]. unfold rows_of, datum, src_quads, src_places. cbn. unfold norm2. cbn. do 4 f_equal.
  replace ((0 - 0) * (0 - 0) + ((0 - -3) * (0 - -3) + 0)) with (3 * 3) by ring. f_equal. apply sqrt_square. lra.
Qed.
