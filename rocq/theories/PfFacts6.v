(** The statements about the two engines put together. *)
From Verif Require Import Pf SpecPf PfFacts PfFacts2 PfFacts3 PfFacts4 PfFacts5.
Local Open Scope R_scope.

Lemma fill0 {Cmp A} (eval : pt -> list Cmp -> result (list A)) f s K0 : length K0 = survey_nD s ->
  (forall l cs, eval l cs = Ok (map (fun c => f c l) cs)) -> geoana_fill eval s K0 0 = Ok (by_location f s).
Proof.
  intros L E. exact (geoana_fill_ok eval f s (fun r l _ _ => E l (fst r)) [] K0 L).
Qed.
Lemma mv_by_location {Cmp} (row : Cmp -> pt -> vec) v s : mv (by_location row s) v = by_location (fun c l => dot (row c l) v) s.
Proof. symmetry. apply (by_location_map (fun r => dot r v)). Qed.

Lemma c68_grav_geoana K Gn (mesh : pmesh) s K0 : good_mesh mesh -> length K0 = survey_nD s ->
  geoana_fill (grav_integral K Gn mesh) s K0 0 = Ok (by_location (gravity_response K Gn mesh) s).
Proof. intros Hg L. apply fill0; [exact L|]. intros. apply grav_integral_ok. exact Hg. Qed.
Lemma c68_grav_geoana_fwd K Gn (mesh : pmesh) rho s K0 : good_mesh mesh -> length K0 = survey_nD s ->
  geoana_fill (grav_integral_fwd K Gn mesh rho) s K0 0 = Ok (mv (by_location (gravity_response K Gn mesh) s) rho).
Proof.
  intros Hg L. rewrite mv_by_location. apply fill0; [exact L|]. intros. apply grav_integral_fwd_ok. exact Hg.
Qed.
Lemma c68_grav_choclo K C Gn (mesh : pmesh) s K0 : good_mesh mesh -> length K0 = survey_nD s ->
  (forall loc, In loc (locations s) -> gravity_libraries_agree K C mesh loc) ->
  choclo_matrix (grav_crow C Gn mesh) s K0 = by_location (gravity_response K Gn mesh) s.
Proof.
  intros Hg L Ha. rewrite choclo_matrix_ok by exact L. apply by_location_ext. intros l Hl c. apply grav_crow_ok; auto.
Qed.
Lemma c68_grav_choclo_fwd C Gn (mesh : pmesh) rho s K0 : length K0 = survey_nD s ->
  choclo_forward (grav_cfwd C Gn mesh rho) s = mv (choclo_matrix (grav_crow C Gn mesh) s K0) rho.
Proof.
  intros L. rewrite choclo_matrix_ok by exact L. rewrite choclo_forward_ok, mv_by_location.
  apply by_location_ext. intros l _ c. apply grav_cfwd_ok.
Qed.
Lemma grav_crow_length C Gn (mesh : pmesh) c l : length (grav_crow C Gn mesh c l) = length (snd mesh).
Proof. unfold grav_crow, ccells. rewrite !map_length. reflexivity. Qed.
Lemma mag_crow_length C scalar b0 (mesh : pmesh) c l : length (mag_crow C scalar b0 mesh c l) = (if scalar then length (snd mesh) else 3 * length (snd mesh))%nat.
Proof.
  unfold mag_crow. cbv zeta. destruct scalar; rewrite ?app_length, !map_length, mag_cvals_length; lia.
Qed.
Lemma c68_tdot {Cmp} (row : Cmp -> pt -> vec) n s K0 v : (forall c l, length (row c l) = n) -> length K0 = survey_nD s ->
  choclo_tdot row v s 0 (vzero n) = mtv n (choclo_matrix row s K0) v.
Proof. intros H L. rewrite choclo_matrix_ok by exact L. apply choclo_tdot_mtv. exact H. Qed.
Lemma rows_is_mat {Cmp} (row : Cmp -> pt -> vec) n s : (forall c l, length (row c l) = n) -> is_mat (survey_nD s) n (by_location row s).
Proof. intros H. split; [apply by_location_length|apply by_location_rows; exact H]. Qed.
Lemma c68_grav_adjoint C Gn (mesh : pmesh) rho v s : length rho = length (snd mesh) -> length v = survey_nD s ->
  dot (choclo_forward (grav_cfwd C Gn mesh rho) s) v = dot rho (choclo_tdot (grav_crow C Gn mesh) v s 0 (vzero (length (snd mesh)))).
Proof.
  intros L1 L2. rewrite (c68_grav_choclo_fwd C Gn mesh rho s (repeat [] (survey_nD s))) by apply repeat_length.
  rewrite (c68_tdot _ (length (snd mesh)) s (repeat [] (survey_nD s))) by (try apply repeat_length; intros; apply grav_crow_length).
  rewrite choclo_matrix_ok by apply repeat_length.
  rewrite dot_comm. rewrite (mv_mtv_adjoint (survey_nD s) (length (snd mesh))) by (try assumption; apply rows_is_mat; intros; apply grav_crow_length). apply dot_comm.
Qed.

Lemma c68_mag_geoana K mm d (mesh : pmesh) s K0 : good_mesh mesh -> length K0 = survey_nD s ->
  geoana_fill (mag_integral K mm d mesh) s K0 0 = Ok (by_location (mag_response K mm d mesh) s).
Proof. intros Hg L. apply fill0; [exact L|]. intros. apply mag_integral_ok. exact Hg. Qed.
Lemma c68_mag_geoana_fwd K mm d (mesh : pmesh) chi s K0 : good_mesh mesh -> length K0 = survey_nD s ->
  geoana_fill (mag_integral_fwd K mm d mesh chi) s K0 0 = Ok (mv (by_location (mag_response K mm d mesh) s) chi).
Proof. intros Hg L. rewrite mv_by_location. apply fill0; [exact L|]. intros. apply mag_integral_fwd_ok. exact Hg. Qed.
Lemma c68_mag_choclo_scalar K C a d (mesh : pmesh) s K0 : 0 < a -> is_unit d -> good_mesh mesh -> length K0 = survey_nD s ->
  (forall loc, In loc (locations s) -> magnetic_libraries_agree K C mesh loc) ->
  choclo_matrix (mag_crow C true (times a d) mesh) s K0 = by_location (magnetic_scalar_response K d (repeat (times a d) (length (snd mesh))) mesh) s.
Proof.
  intros Ha Hd Hg L H. rewrite choclo_matrix_ok by exact L. apply by_location_ext. intros l Hl c. apply mag_crow_scalar; auto.
Qed.
Lemma c68_mag_choclo_vector K C a d (mesh : pmesh) s K0 : 0 < a -> is_unit d -> good_mesh mesh -> length K0 = survey_nD s ->
  (forall loc, In loc (locations s) -> magnetic_libraries_agree K C mesh loc) ->
  choclo_matrix (mag_crow C false (times a d) mesh) s K0 = by_location (magnetic_vector_response K d a mesh) s.
Proof.
  intros Ha Hd Hg L H. rewrite choclo_matrix_ok by exact L. apply by_location_ext. intros l Hl c. apply mag_crow_vector; auto.
Qed.
Lemma c68_mag_choclo_fwd C scalar b0 (mesh : pmesh) chi s K0 : length K0 = survey_nD s ->
  choclo_forward (mag_cfwd C scalar b0 mesh chi) s = mv (choclo_matrix (mag_crow C scalar b0 mesh) s K0) chi.
Proof.
  intros L. rewrite choclo_matrix_ok by exact L. rewrite choclo_forward_ok, mv_by_location.
  apply by_location_ext. intros l _ c. apply mag_cfwd_ok.
Qed.
Lemma c68_mag_adjoint C (scalar : bool) b0 (mesh : pmesh) chi v s (n := (if scalar then length (snd mesh) else 3 * length (snd mesh))%nat) :
  length chi = n -> length v = survey_nD s ->
  dot (choclo_forward (mag_cfwd C scalar b0 mesh chi) s) v = dot chi (choclo_tdot (mag_crow C scalar b0 mesh) v s 0 (vzero n)).
Proof.
  intros L1 L2. rewrite (c68_mag_choclo_fwd C scalar b0 mesh chi s (repeat [] (survey_nD s))) by apply repeat_length.
  rewrite (c68_tdot _ n s (repeat [] (survey_nD s))) by (try apply repeat_length; intros; apply mag_crow_length).
  rewrite choclo_matrix_ok by apply repeat_length.
  rewrite dot_comm. rewrite (mv_mtv_adjoint (survey_nD s) n) by (try assumption; apply rows_is_mat; intros; apply mag_crow_length). apply dot_comm.
Qed.
(** Engines agree (statement over the two programs). *)
Lemma c68_grav_engines K C Gn (mesh : pmesh) s K0 K1 : good_mesh mesh -> length K0 = survey_nD s -> length K1 = survey_nD s ->
  (forall loc, In loc (locations s) -> gravity_libraries_agree K C mesh loc) ->
  geoana_fill (grav_integral K Gn mesh) s K0 0 = Ok (choclo_matrix (grav_crow C Gn mesh) s K1).
Proof. intros. rewrite c68_grav_geoana, (c68_grav_choclo K) by assumption. reflexivity. Qed.
Lemma c68_mag_engines K C (scalar : bool) a d (mesh : pmesh) s K0 K1 : 0 < a -> is_unit d -> good_mesh mesh -> length K0 = survey_nD s -> length K1 = survey_nD s ->
  (forall loc, In loc (locations s) -> magnetic_libraries_agree K C mesh loc) ->
  geoana_fill (mag_integral K (if scalar then MScalar (repeat (times a d) (length (snd mesh))) else MVector a) d mesh) s K0 0
  = Ok (choclo_matrix (mag_crow C scalar (times a d) mesh) s K1).
Proof.
  intros. rewrite c68_mag_geoana by assumption. f_equal. destruct scalar; cbn [mag_response].
  - rewrite (c68_mag_choclo_scalar K) by assumption. reflexivity.
  - rewrite (c68_mag_choclo_vector K) by assumption. reflexivity.
Qed.

(** Relations between components. *)
Lemma lin3_map {A} (t : pt) (f g h : A -> R) l : lin3 t (map f l) (map g l) (map h l) = map (fun x => px t * f x + py t * g x + pz t * h x) l.
Proof. unfold lin3. induction l as [|x l IH]; [reflexivity|]. cbn [map vscale vadd zipw]. f_equal. exact IH. Qed.
Lemma lin3_app t (a1 b1 c1 a2 b2 c2 : vec) : length a1 = length b1 -> length b1 = length c1 ->
  lin3 t (a1 ++ a2) (b1 ++ b2) (c1 ++ c2) = lin3 t a1 b1 c1 ++ lin3 t a2 b2 c2.
Proof.
  unfold lin3. revert b1 c1; induction a1 as [|x a1 IH]; intros [|y b1] [|z c1] L1 L2; cbn in L1, L2; try lia; [reflexivity|].
  cbn [app map vscale vadd zipw]. f_equal. apply IH; lia.
Qed.
Lemma mag_fun_tmi K d c cx cy cz m x y z : projects c cx cy cz ->
  magnetic_function K d c m x y z = px d * magnetic_function K d cx m x y z + py d * magnetic_function K d cy m x y z + pz d * magnetic_function K d cz m x y z.
Proof.
  unfold projects. intros [E|[E|[E|E]]]; injection E as -> -> -> ->; destruct m; reflexivity.
Qed.
Lemma cell_tmi K d c cx cy cz m (mesh : pmesh) loc cell : projects c cx cy cz ->
  cell_value (magnetic_function K d c m) mesh loc cell
  = px d * cell_value (magnetic_function K d cx m) mesh loc cell + py d * cell_value (magnetic_function K d cy m) mesh loc cell + pz d * cell_value (magnetic_function K d cz m) mesh loc cell.
Proof. intros P. unfold cell_value. cbv zeta. rewrite !(mag_fun_tmi K d c cx cy cz m _ _ _ P). ring. Qed.
Lemma response_tmi K mm d c cx cy cz (mesh : pmesh) loc : projects c cx cy cz ->
  mag_response K mm d mesh c loc = lin3 d (mag_response K mm d mesh cx loc) (mag_response K mm d mesh cy loc) (mag_response K mm d mesh cz loc).
Proof.
  intros P. destruct mm as [Ms|a]; cbn [mag_response].
  - unfold magnetic_scalar_response. rewrite lin3_map. apply map_ext. intros [b cell]; cbn [fst snd]. unfold along.
    rewrite !(cell_tmi K d c cx cy cz _ _ _ _ P). ring.
  - unfold magnetic_vector_response. cbn [flat_map]. rewrite !app_nil_r.
    rewrite !lin3_app by (rewrite !map_length; reflexivity). rewrite !lin3_map.
    f_equal; [|f_equal]; apply map_ext; intros cell; rewrite !(cell_tmi K d c cx cy cz _ _ _ _ P); ring.
Qed.
Lemma c68_tmi K mm d (mesh : pmesh) loc c cx cy cz bx b_y bz t : good_mesh mesh -> projects c cx cy cz ->
  mag_integral K mm d mesh loc [cx; cy; cz; c] = Ok [bx; b_y; bz; t] -> t = lin3 d bx b_y bz.
Proof.
  intros Hg P. rewrite mag_integral_ok by exact Hg. cbn [map]. intros E.
  assert (E' : [mag_response K mm d mesh cx loc; mag_response K mm d mesh cy loc; mag_response K mm d mesh cz loc; mag_response K mm d mesh c loc] = [bx; b_y; bz; t]).
  { exact (f_equal (fun r => match r with Ok l => l | Err _ => [] end) E). }
  clear E. assert (T : forall (p q r s p' q' r' s' : vec), [p; q; r; s] = [p'; q'; r'; s'] -> p = p' /\ q = q' /\ r = r' /\ s = s') by (intros; injection H; auto).
  apply T in E'. destruct E' as (<- & <- & <- & <-). apply response_tmi. exact P.
Qed.
Lemma ccells_length cells v : length (ccells cells v) = length cells.
Proof. apply map_length. Qed.
Lemma ccells_list cells k (dr : list pt) : exists f : list nat -> R, ccells cells (cev k dr) = map f cells.
Proof. eexists. reflexivity. Qed.
Lemma crow_tmi C scalar b0 (mesh : pmesh) loc c cx cy cz : projects c cx cy cz ->
  mag_crow C scalar b0 mesh c loc = lin3 (direction_of b0) (mag_crow C scalar b0 mesh cx loc) (mag_crow C scalar b0 mesh cy loc) (mag_crow C scalar b0 mesh cz loc).
Proof.
  intros P. unfold mag_crow. cbv zeta. set (f := direction_of b0). set (A := amplitude_of b0).
  assert (H : exists ux uy uz : list nat -> pt,
    mag_cvals C b0 mesh cx loc = map ux (snd mesh) /\ mag_cvals C b0 mesh cy loc = map uy (snd mesh) /\ mag_cvals C b0 mesh cz loc = map uz (snd mesh) /\
    mag_cvals C b0 mesh c loc = map (fun q => mkpt (px f * px (ux q) + py f * px (uy q) + pz f * px (uz q)) (px f * py (ux q) + py f * py (uy q) + pz f * py (uz q)) (px f * pz (ux q) + py f * pz (uy q) + pz f * pz (uz q))) (snd mesh)).
  { unfold mag_cvals. cbv zeta. fold f.
    unfold projects in P. destruct P as [E|[E|[E|E]]]; injection E as -> -> -> ->; cbn [mag_kernels]; unfold ccells;
      rewrite !combine_map2, !map_map;
      (do 3 eexists; split; [reflexivity|split; [reflexivity|split; [reflexivity|]]];
      apply map_ext; intros q; cbn [fst snd px py pz]; f_equal; ring). }
  destruct H as (ux & uy & uz & -> & -> & -> & ->).
  destruct scalar; rewrite ?map_map; cbn [px py pz].
  - rewrite lin3_map. apply map_ext. intros q. ring.
  - rewrite !lin3_app by (rewrite !map_length; reflexivity). rewrite !lin3_map. f_equal; [|f_equal]; apply map_ext; intros q; ring.
Qed.
Lemma c68_guv K Gn (mesh : pmesh) loc gxx gyy guv : good_mesh mesh ->
  grav_integral K Gn mesh loc [Gxx; Gyy; Guv] = Ok [gxx; gyy; guv] -> guv = vscale (/ 2) (vsub gyy gxx).
Proof.
  intros Hg. rewrite grav_integral_ok by exact Hg. cbn [map]. intros E.
  assert (E' : [gravity_response K Gn mesh Gxx loc; gravity_response K Gn mesh Gyy loc; gravity_response K Gn mesh Guv loc] = [gxx; gyy; guv]).
  { exact (f_equal (fun r => match r with Ok l => l | Err _ => [] end) E). }
  clear E. assert (T : forall (p q r p' q' r' : vec), [p; q; r] = [p'; q'; r'] -> p = p' /\ q = q' /\ r = r') by (intros; injection H; auto).
  apply T in E'. destruct E' as (<- & <- & <-). unfold gravity_response.
  induction (snd mesh) as [|cell cells IH]; [reflexivity|]. cbn [map vsub zipw vscale]. f_equal; [|exact IH].
  unfold cell_value, gravity_function, gravity_units. cbv zeta. field.
Qed.
(** A scalar model is the vector model along the inducing direction. *)
Lemma c68_scalar_vector K a d (mesh : pmesh) c loc chi : length chi = length (snd mesh) ->
  dot (magnetic_scalar_response K d (repeat (times a d) (length (snd mesh))) mesh c loc) chi
  = dot (magnetic_vector_response K d a mesh c loc) (along_direction d chi).
Proof.
  intros L. unfold magnetic_vector_response, along_direction. cbn [flat_map]. rewrite app_nil_r.
  rewrite !dot_app_same by (rewrite ?vscale_length, map_length; auto).
  rewrite !dot_vscale_r. unfold magnetic_scalar_response.
  revert chi L. induction (snd mesh) as [|cell cells IH]; intros [|x chi] L; cbn in L; try lia; [cbn; ring|].
  cbn [length repeat combine map dot fst snd]. rewrite IH by lia. unfold along, times; cbn [px py pz].
  field. apply Rgt_not_eq, PI_RGT_0.
Qed.

(** Meshes, refinement, active cells at the level of the data. *)
Definition gdata K Gn xs ys zs rho c loc : R := dot (gravity_response K Gn (tmesh xs ys zs) c loc) (flat rho).
Lemma c68_tensor K Gn xs ys zs rho c loc : grid_shape (length xs) (length ys) (length zs) rho ->
  gdata K Gn xs ys zs rho c loc = - (Gn * gravity_units c) * block_response (gravity_function K c) loc xs ys zs rho.
Proof.
  intros Hs. unfold gdata, gravity_response. rewrite dot_map_scale.
  rewrite (tensor_forward _ xs ys zs loc rho Hs). ring.
Qed.
Lemma c68_refine_x K Gn xs ys zs rho c loc p x : grid_shape (length xs) (length ys) (length zs) rho -> (p + 1 < length xs)%nat ->
  gdata K Gn (cut p x xs) ys zs (map (map (copied p)) rho) c loc = gdata K Gn xs ys zs rho c loc.
Proof.
  intros Hs Hp. rewrite !c68_tensor; [rewrite refine_x by assumption; reflexivity|exact Hs|]. rewrite cut_length. apply shape_x; assumption.
Qed.
Lemma c68_refine_y K Gn xs ys zs rho c loc p y : grid_shape (length xs) (length ys) (length zs) rho -> (p + 1 < length ys)%nat ->
  gdata K Gn xs (cut p y ys) zs (map (copied p) rho) c loc = gdata K Gn xs ys zs rho c loc.
Proof.
  intros Hs Hp. rewrite !c68_tensor; [rewrite refine_y by assumption; reflexivity|exact Hs|]. rewrite cut_length. apply shape_y; assumption.
Qed.
Lemma c68_refine_z K Gn xs ys zs rho c loc p z : grid_shape (length xs) (length ys) (length zs) rho -> (p + 1 < length zs)%nat ->
  gdata K Gn xs ys (cut p z zs) (copied p rho) c loc = gdata K Gn xs ys zs rho c loc.
Proof.
  intros Hs Hp. rewrite !c68_tensor; [rewrite refine_z by assumption; reflexivity|exact Hs|]. rewrite cut_length. apply shape_z; assumption.
Qed.
Lemma c68_uniform K Gn xs ys zs v rho c loc : grid_shape (length xs) (length ys) (length zs) rho ->
  (0 < length xs)%nat -> (0 < length ys)%nat -> (0 < length zs)%nat -> Forall (Forall (Forall (eq v))) rho ->
  gdata K Gn xs ys zs rho c loc
  = - (Gn * gravity_units c) * (v * prism (gravity_function K c) (hd 0 xs - px loc) (last xs 0 - px loc) (hd 0 ys - py loc) (last ys 0 - py loc) (hd 0 zs - pz loc) (last zs 0 - pz loc)).
Proof. intros. rewrite c68_tensor by assumption. rewrite (uniform _ _ _ _ _ v) by assumption. reflexivity. Qed.

Section Programs.
  Variables (K : gkern) (Gn : R) (s : list (list gcomp * list pt)) (K0 : vec).
  Hypothesis L : length K0 = survey_nD s.
  Definition grun xs ys zs rho : result vec := geoana_fill (grav_integral_fwd K Gn (tmesh xs ys zs) (flat rho)) s K0 0.
  Lemma grun_gdata xs ys zs rho : grun xs ys zs rho = Ok (by_location (gdata K Gn xs ys zs rho) s).
  Proof. unfold grun. rewrite c68_grav_geoana_fwd by (try apply tcells_good; exact L). rewrite mv_by_location. reflexivity. Qed.
  Lemma p_refine_x xs ys zs rho p x : grid_shape (length xs) (length ys) (length zs) rho -> (p + 1 < length xs)%nat ->
    grun (cut p x xs) ys zs (map (map (copied p)) rho) = grun xs ys zs rho.
  Proof. intros. rewrite !grun_gdata. f_equal. apply by_location_ext. intros. apply c68_refine_x; assumption. Qed.
  Lemma p_refine_y xs ys zs rho p x : grid_shape (length xs) (length ys) (length zs) rho -> (p + 1 < length ys)%nat ->
    grun xs (cut p x ys) zs (map (copied p) rho) = grun xs ys zs rho.
  Proof. intros. rewrite !grun_gdata. f_equal. apply by_location_ext. intros. apply c68_refine_y; assumption. Qed.
  Lemma p_refine_z xs ys zs rho p x : grid_shape (length xs) (length ys) (length zs) rho -> (p + 1 < length zs)%nat ->
    grun xs ys (cut p x zs) (copied p rho) = grun xs ys zs rho.
  Proof. intros. rewrite !grun_gdata. f_equal. apply by_location_ext. intros. apply c68_refine_z; assumption. Qed.
  Lemma p_uniform xs ys zs v rho : grid_shape (length xs) (length ys) (length zs) rho ->
    (0 < length xs)%nat -> (0 < length ys)%nat -> (0 < length zs)%nat -> all_equal v rho ->
    grun xs ys zs rho = Ok (by_location (fun c loc => - (Gn * gravity_units c) * (v * prism (gravity_function K c) (hd 0 xs - px loc) (last xs 0 - px loc) (hd 0 ys - py loc) (last ys 0 - py loc) (hd 0 zs - pz loc) (last zs 0 - pz loc))) s).
  Proof. intros. rewrite !grun_gdata. f_equal. apply by_location_ext. intros. apply c68_uniform; assumption. Qed.
End Programs.
Lemma c_active_gravity K Gn nodes cells m c loc : good_mesh (nodes, cells) -> length m = length cells ->
  gravity_response K Gn (c_active nodes cells m) c loc = masked m (gravity_response K Gn (nodes, cells) c loc).
Proof.
  intros Hg L. destruct (act_choclo nodes cells m L) as [->|[-> A]]; [apply act_gravity; exact Hg|].
  symmetry. apply A. unfold gravity_response. rewrite map_length. reflexivity.
Qed.
Lemma c_active_good nodes cells m : good_mesh (nodes, cells) -> good_mesh (c_active nodes cells m).
Proof. intros H. unfold c_active. destruct (_ =? _)%nat; [exact H|]. apply act_good. exact H. Qed.
Lemma by_location_masked {Cmp} (row : Cmp -> pt -> vec) m s : by_location (fun c l => masked m (row c l)) s = map (masked m) (by_location row s).
Proof. apply (by_location_map (masked m)). Qed.
Lemma c68_active_geoana K Gn nodes cells m s K0 : good_mesh (nodes, cells) -> length K0 = survey_nD s ->
  geoana_fill (grav_integral K Gn (g_active nodes cells m)) s K0 0 = Ok (map (masked m) (by_location (gravity_response K Gn (nodes, cells)) s)).
Proof.
  intros Hg L. rewrite c68_grav_geoana by (try apply act_good; assumption). f_equal. rewrite <- by_location_masked.
  apply by_location_ext. intros. apply act_gravity. exact Hg.
Qed.
Lemma c68_active_choclo K C Gn nodes cells m s K0 : good_mesh (nodes, cells) -> length m = length cells -> length K0 = survey_nD s ->
  (forall loc, In loc (locations s) -> gravity_libraries_agree K C (c_active nodes cells m) loc) ->
  choclo_matrix (grav_crow C Gn (c_active nodes cells m)) s K0 = map (masked m) (by_location (gravity_response K Gn (nodes, cells)) s).
Proof.
  intros Hg Lm L H. rewrite (c68_grav_choclo K) by (try apply c_active_good; assumption). rewrite <- by_location_masked.
  apply by_location_ext. intros. apply c_active_gravity; assumption.
Qed.
Lemma c68_active_mag K a d nodes cells m s K0 : good_mesh (nodes, cells) -> length m = length cells -> length K0 = survey_nD s ->
  geoana_fill (mag_integral K (MVector a) d (g_active nodes cells m)) s K0 0 = Ok (map (masked (m ++ m ++ m)) (by_location (magnetic_vector_response K d a (nodes, cells)) s)).
Proof.
  intros Hg Lm L. rewrite c68_mag_geoana by (try apply act_good; assumption). f_equal. rewrite <- by_location_masked.
  apply by_location_ext. intros. cbn [mag_response]. destruct (act_magnetic nodes cells m Hg K d a c l) as [E|E]; [exact E|contradiction].
Qed.

(** The diagonal. *)
Lemma c68_gtg_uniform {Cmp} (row : Cmp -> pt -> vec) n a s K0 : (forall c l, length (row c l) = n) -> length K0 = survey_nD s ->
  Forall (fun r => fst r <> []) s ->
  choclo_gtg row (repeat a (survey_nD s)) s (vzero n) = weighted_diagonal n (choclo_matrix row s K0) (repeat a (survey_nD s)).
Proof.
  intros H L Hn. rewrite choclo_matrix_ok by exact L. rewrite choclo_gtg_read by exact H. f_equal.
  apply read_const. intros r Hr. rewrite Forall_forall in Hn. specialize (Hn _ Hr).
  clear - Hr Hn. induction s as [|q s IH]; [destruct Hr|]. rewrite survey_nD_cons. destruct Hr as [->|Hr].
  - unfold rx_nD. destruct (fst r); [contradiction|]. cbn [length]. nia.
  - specialize (IH Hr). lia.
Qed.
Lemma c68_gtg_single {Cmp} (row : Cmp -> pt -> vec) n w c locs K0 : (forall c l, length (row c l) = n) -> length K0 = length locs -> length w = length locs ->
  choclo_gtg row w [([c], locs)] (vzero n) = weighted_diagonal n (choclo_matrix row [([c], locs)] K0) w.
Proof.
  intros H L Lw. rewrite choclo_matrix_ok by (rewrite L; unfold survey_nD, rx_nD; cbn; lia). rewrite choclo_gtg_read by exact H. f_equal.
  apply read_single. exact Lw.
Qed.
Lemma toy_same F (mesh : pmesh) loc : same_prism F (fun x y z _ => - F x y z) mesh loc.
Proof. intros cell _. unfold sum8c, cell_value. cbv zeta. ring. Qed.
Lemma toy_gravity (mesh : pmesh) loc : gravity_libraries_agree toy_gkern toy_ckern mesh loc.
Proof.
  unfold gravity_libraries_agree, toy_gkern, toy_ckern; cbn [gravity_function fz fzx fzy fzz ce cn cu cee cnn cuu cen ceu cnu].
  repeat split; intros cell _; unfold sum8c, cell_value; cbn [gravity_function fz fzx fzy fzz]; cbv zeta; ring.
Qed.
Lemma toy_magnetic (mesh : pmesh) loc : magnetic_libraries_agree toy_gkern toy_ckern mesh loc.
Proof.
  unfold magnetic_libraries_agree, toy_gkern, toy_ckern; cbn [tensor2 tensor3 fz fzx fzy fzz fzzz fxxy fxxz fxyz].
  repeat split; intros cell _; unfold sum8c, cell_value; cbn [tensor2 tensor3 fz fzx fzy fzz fzzz fxxy fxxz fxyz cee cnn cuu cen ceu cnu ceee cnnn cuuu ceen ceeu cenn cnnu ceuu cnuu cenu]; cbv zeta; ring.
Qed.
