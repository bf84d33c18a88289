(** Facts about electrode distances and geometric factors. *)
From Verif Require Import Py Vec LinSimFacts XyzIOFacts Geom SpecGeom.
From Verif Require Survey SpecSurvey SurveyFacts.
From Coq Require Import String.
Local Open Scope R_scope.
Notation len := List.length.

Lemma norm_distance x y : norm2 (vsub x y) = distance x y.
Proof. reflexivity. Qed.
Lemma sqdist_sym : forall x y, dot (vsub x y) (vsub x y) = dot (vsub y x) (vsub y x).
Proof. induction x as [|a x IH]; intros [|b y]; cbn; auto. fold (vsub x y) (vsub y x). rewrite (IH y). ring. Qed.
Lemma distance_sym x y : distance x y = distance y x.
Proof. unfold distance. now rewrite sqdist_sym. Qed.
Lemma distance_pos x y : 0 <= distance x y.
Proof. apply sqrt_pos. Qed.
Lemma psep_sym x y : psep x y = psep y x.
Proof. destruct x, y; cbn; auto. rewrite !norm_distance. now rewrite distance_sym. Qed.

Definition place_b (o : option vec) := match o with Some v => At v | None => FarPlus end.
Definition place_n (o : option vec) := match o with Some v => At v | None => FarMinus end.
Definition quad_of (e : spread) : quad := {| qa := At (ea e); qb := place_b (eb e); qm := At (em e); qn := place_n (en e) |}.
Lemma zipq_far a b ms : zipq a b ms (map (fun _ => FarMinus) ms) = map (fun m => {| qa := a; qb := b; qm := At m; qn := FarMinus |}) ms.
Proof. induction ms as [|m ms IH]; cbn; [reflexivity|]. now rewrite IH. Qed.
Lemma zipq_near a b : forall ms ns, zipq a b ms (map At ns) = map (fun p => {| qa := a; qb := b; qm := At (fst p); qn := At (snd p) |}) (pairup ms ns).
Proof. induction ms as [|m ms IH]; intros [|n ns]; cbn; auto. now rewrite IH. Qed.
Lemma rx_quads_spreads a b r : rx_quads (At a) (place_b b) r = map quad_of (receiver_spreads a b r).
Proof.
  unfold rx_quads, receiver_spreads. destruct (g_rx r); [rewrite zipq_far|rewrite zipq_near]; rewrite map_map; reflexivity.
Qed.
Lemma mapM_if {A B} (p : A -> bool) (f : A -> B) ex : forall l out, mapM (fun x => if p x then Ok (f x) else Err ex) l = Ok out -> out = map f l.
Proof.
  induction l as [|x l IH]; intros out H; cbn in H; [now injection H as <-|]. destruct (p x); [|discriminate]. cbn in H.
  destruct (mapM _ l) as [r|] eqn:E; [|discriminate]. cbn in H. injection H as <-. cbn. f_equal. auto.
Qed.
Lemma src_quads_ok s l : src_quads s = Ok l -> l = map (fun r => map quad_of (pair_spreads s r)) (g_rxs s) /\ match g_src s with SMulti _ => False | _ => True end.
Proof.
  unfold src_quads, src_places, pair_spreads. destruct (g_src s) as [a|a b|ls]; cbn [bind fst snd]; intro H; [| |discriminate].
  - apply mapM_if in H. split; [|exact I]. rewrite H. apply map_ext. intro r. apply (rx_quads_spreads a None r).
  - apply mapM_if in H. split; [|exact I]. rewrite H. apply map_ext. intro r. apply (rx_quads_spreads a (Some b) r).
Qed.
Lemma mapM_map {A B} (f : A -> result B) (g : A -> B) (P : A -> Prop) : (forall x y, f x = Ok y -> y = g x /\ P x) -> forall l out, mapM f l = Ok out -> out = map g l /\ Forall P l.
Proof.
  intro Hf. induction l as [|x l IH]; intros out H; cbn in H; [injection H as <-; split; [reflexivity|constructor]|].
  destruct (f x) as [y|] eqn:E; [|discriminate]. cbn in H. destruct (mapM f l) as [r|]; [|discriminate]. cbn in H. injection H as <-.
  destruct (IH r eq_refl) as (-> & F). destruct (Hf _ _ E) as (-> & Px). split; [reflexivity|now constructor].
Qed.
Lemma rows_ok sv rows : rows_of sv = Ok rows -> rows = map (fun p => map quad_of (pair_spreads (fst p) (snd p))) (g_pairs sv) /\ single_sources sv.
Proof.
  unfold rows_of. destruct (mapM src_quads sv) as [l|] eqn:E; [|discriminate]. cbn [bind]. intro H. injection H as <-.
  destruct (mapM_map _ (fun s => map (fun r => map quad_of (pair_spreads s r)) (g_rxs s)) _ src_quads_ok _ _ E) as (-> & F). split; [|exact F].
  clear. unfold g_pairs. induction sv as [|s sv IH]; [reflexivity|]. cbn [map List.concat flat_map]. rewrite IH, map_app, map_map. reflexivity.
Qed.
Lemma concat_rows sv : List.concat (map (fun p => map quad_of (pair_spreads (fst p) (snd p))) (g_pairs sv)) = map quad_of (survey_spreads sv).
Proof.
  unfold g_pairs, survey_spreads. induction sv as [|s sv IH]; [reflexivity|]. cbn [flat_map]. rewrite map_app, concat_app, IH, map_app. f_equal.
  rewrite map_map. cbn [fst snd]. induction (g_rxs s) as [|r rs IHr]; [reflexivity|]. cbn [map List.concat flat_map]. now rewrite IHr, map_app.
Qed.
Lemma rows_concat sv rows : rows_of sv = Ok rows -> List.concat rows = map quad_of (survey_spreads sv).
Proof. intro H. destruct (rows_ok _ _ H) as (-> & _). apply concat_rows. Qed.

(** ** Separations *)
Lemma sep_is n e d : In n pair_names -> (sep n (quad_of e) = Some d <-> separation_is n e d).
Proof.
  intro H. cbn in H. destruct H as [<-|[<-|[<-|[<-|[<-|[<-|[]]]]]]]; unfold sep, separation_is; cbn [string_dec Ascii.ascii_dec];
    repeat match goal with |- context [string_dec ?a ?b] => destruct (string_dec a b); try (discriminate); try congruence end;
    unfold quad_of; cbn [qa qb qm qn]; destruct (eb e), (en e); cbn; (split; intro H'; [injection H' as <-; reflexivity|rewrite H'; reflexivity]).
Qed.
Lemma sep_some n q : In n pair_names -> exists d, sep n q = Some d.
Proof.
  intro H. unfold sep. cbn in H. destruct H as [<-|[<-|[<-|[<-|[<-|[<-|[]]]]]]]; repeat match goal with |- context [string_dec ?a ?b] => destruct (string_dec a b); [eexists; reflexivity|] end; congruence.
Qed.
Lemma somes_F2 n l : In n pair_names -> Forall2 (fun e d => separation_is n e d) l (somes (map (sep n) (map quad_of l))).
Proof.
  intro H. induction l as [|e l IH]; [constructor|]. cbn [map]. destruct (sep_some n (quad_of e) H) as (d & E). rewrite E. cbn [somes]. constructor; [now apply sep_is|exact IH].
Qed.
Lemma separations sv p d : electrode_separations sv p = Ok d -> forall name vals, In (name, vals) d -> Forall2 (separation_is name) (survey_spreads sv) vals.
Proof.
  unfold electrode_separations. destruct (pair_list p) as [l|]; [|discriminate]. cbn [bind]. destruct (rows_of sv) as [rows|] eqn:E; [|discriminate]. cbn [bind].
  set (D := map _ _). intros H name vals Hin. injection H as <-. unfold D in Hin. clear D. apply in_map_iff in Hin. destruct Hin as (n & Hn & Hf). injection Hn as <- <-. apply filter_In in Hf. destruct Hf as (Hf & _).
  rewrite (rows_concat _ _ E). now apply somes_F2.
Qed.
Lemma has_iff l s : has l s = true <-> In s l.
Proof. unfold has. destruct (in_dec string_dec s l); split; intro; try assumption; try reflexivity; try discriminate; contradiction. Qed.
Lemma separation_names sv l d : electrode_separations sv (PList l) = Ok d -> forall n, In n (map fst d) <-> In n l /\ In n pair_names.
Proof.
  unfold electrode_separations. cbn [pair_list bind]. destruct (rows_of sv) as [rows|]; [|discriminate]. cbn [bind]. set (D := map _ _). intros H n. injection H as <-. unfold D.
  rewrite map_map. cbn [fst]. rewrite map_id, filter_In, has_iff. tauto.
Qed.
Lemma separations_all sv d : electrode_separations sv (PStr "all") = Ok d -> map fst d = pair_names.
Proof.
  unfold electrode_separations, pair_list. destruct (string_dec (lower "all") "all") as [|C]; [|exfalso; now apply C]. cbn [bind]. destruct (rows_of sv) as [rows|]; [|discriminate]. cbn [bind].
  set (D := map _ _). intro H. injection H as <-. unfold D. rewrite map_map. cbn [fst]. rewrite map_id. reflexivity.
Qed.

(** ** Extended numbers *)
Lemma nadd_comm x y : nadd x y = nadd y x.
Proof. destruct x, y; cbn; auto. now rewrite Rplus_comm. Qed.
Lemma nadd_assoc x y z : nadd (nadd x y) z = nadd x (nadd y z).
Proof. destruct x, y, z; cbn; auto. now rewrite Rplus_assoc. Qed.
Lemma nneg_add x y : nneg (nadd x y) = nadd (nneg x) (nneg y).
Proof. destruct x, y; cbn; auto. f_equal. ring. Qed.
Lemma nneg_neg x : nneg (nneg x) = x.
Proof. destruct x; cbn; auto. now rewrite Ropp_involutive. Qed.
Lemma nmulr_add c x y : 0 < c -> nmulr c (nadd x y) = nadd (nmulr c x) (nmulr c y).
Proof. intro H. destruct x, y; cbn; repeat destruct (Rlt_dec _ _); try lra; cbn; auto. f_equal. ring. Qed.
Lemma nmulr_neg c x : 0 < c -> nmulr c (nneg x) = nneg (nmulr c x).
Proof. intro H. destruct x; cbn; repeat destruct (Rlt_dec _ _); try lra; cbn; auto. f_equal. ring. Qed.
Lemma nmulr_mulr c d x : 0 < c -> 0 < d -> nmulr c (nmulr d x) = nmulr (c * d) x.
Proof. intros H H'. assert (0 < c * d) by nra. destruct x; cbn; repeat destruct (Rlt_dec _ _); try lra; cbn; repeat destruct (Rlt_dec _ _); try lra; auto. f_equal. ring. Qed.
Lemma ndiv_scaled c x : 0 < c -> ndiv 1 (nmulr c x) = nmulr (/ c) (ndiv 1 x).
Proof.
  intro H. assert (0 < / c) by now apply Rinv_0_lt_compat. destruct x as [r| | |]; cbn.
  - destruct (Req_EM_T (c * r) 0) as [e|e], (Req_EM_T r 0) as [e'|e']; try (exfalso; nra).
    + destruct (Rlt_dec 0 1); [|lra]. cbn. destruct (Rlt_dec 0 (/ c)); [reflexivity|lra].
    + cbn. f_equal. field. split; [assumption|lra].
  - destruct (Rlt_dec 0 c); [|lra]. cbn. f_equal. ring.
  - destruct (Rlt_dec 0 c); [|lra]. cbn. f_equal. ring.
  - reflexivity.
Qed.

(** ** Factors *)
Lemma space_whole sp : In sp whole_names -> space_factor sp = Ok 4.
Proof. intro H. cbn in H. destruct H as [<-|[<-|[<-|[<-|[<-|[]]]]]]; reflexivity. Qed.
Lemma space_half sp : In sp half_names -> space_factor sp = Ok 2.
Proof. intro H. cbn in H. destruct H as [<-|[<-|[<-|[<-|[<-|[]]]]]]; reflexivity. Qed.
Lemma space_pos sp c : space_factor sp = Ok c -> 0 < c.
Proof. unfold space_factor. destruct (has whole_names _); [intro H; injection H as <-; lra|]. destruct (has half_names _); [intro H; injection H as <-; lra|discriminate]. Qed.
Lemma factor_ok sv sp G : geometric_factor sv sp = Ok G -> exists c, space_factor sp = Ok c /\ G = map (fun e => gfac c (quad_of e)) (survey_spreads sv) /\ single_sources sv.
Proof.
  unfold geometric_factor. destruct (space_factor sp) as [c|]; [|discriminate]. cbn [bind]. destruct (rows_of sv) as [rows|] eqn:E; [|discriminate]. cbn [bind].
  intro H. exists c. split; [reflexivity|]. destruct (rows_ok _ _ E) as (Er & F). split; [|exact F].
  assert (G = map (gfac c) (List.concat rows)) as -> by (destruct rows; [discriminate|now injection H as <-]).
  now rewrite (rows_concat _ _ E), map_map.
Qed.
Definition inv_opt (o : option R) : R := match o with Some r => / r | None => 0 end.
Definition odist (x y : option vec) : option R := match x, y with Some v, Some w => Some (distance v w) | _, _ => None end.
Definition gval (c : R) (e : spread) : R :=
  / (c * PI) * (/ distance (ea e) (em e) - inv_opt (odist (eb e) (Some (em e))) - inv_opt (odist (Some (ea e)) (en e)) + inv_opt (odist (eb e) (en e))).
Lemma ndiv_fin r : r <> 0 -> ndiv 1 (Fin r) = Fin (/ r).
Proof. intro H. cbn. destruct (Req_EM_T r 0); [contradiction|]. f_equal. unfold Rdiv. ring. Qed.
Lemma gfac_clear c e : clear e -> gfac c (quad_of e) = Fin (gval c e).
Proof.
  intros (H1 & H2 & H3 & H4). unfold gfac, quad_of, gval. cbn [qa qb qm qn].
  destruct (eb e) as [b|], (en e) as [n|]; cbn [place_b place_n psep odist inv_opt opt_all] in *; rewrite ?norm_distance, ?ndiv_fin by assumption; cbn; f_equal; ring.
Qed.
Lemma total_two {A} (f : A -> R) x y : total f [x; y] = f x + f y.
Proof. cbn. ring. Qed.
Lemma PI_nz : PI <> 0.
Proof. pose proof PI_RGT_0. lra. Qed.
Lemma voltage_whole rho I e : clear e -> voltage (whole_space rho) I e = rho * I * gval 4 e.
Proof.
  intros (H1 & H2 & H3 & H4). pose proof PI_nz. unfold voltage, whole_space, injected, gval.
  destruct (eb e) as [b|], (en e) as [n|]; cbn [odist inv_opt opt_all total fst snd] in *; field; repeat split; assumption.
Qed.
Lemma mirror_surface v : on_surface v -> mirror v = v.
Proof. intros (H & L). unfold mirror. rewrite L, Ropp_0, <- L. symmetry. now apply app_removelast_last. Qed.
Lemma voltage_half rho I e : clear e -> sources_on_surface e -> voltage (half_space rho) I e = rho * I * gval 2 e.
Proof.
  intros (H1 & H2 & H3 & H4) (S1 & S2). pose proof PI_nz. unfold voltage, half_space, injected, gval.
  destruct (eb e) as [b|], (en e) as [n|]; cbn [odist inv_opt opt_all total fst snd] in *; rewrite ?(mirror_surface _ S1), ?(mirror_surface _ S2); field; repeat split; assumption.
Qed.

(** ** Similarities *)
Section Sim.
Variables (c : R) (F : vec -> vec).
Hypotheses (Hc : 0 < c) (HF : similarity c F).
Definition move_e (e : spread) : spread := {| ea := F (ea e); eb := option_map F (eb e); em := F (em e); en := option_map F (en e) |}.
Lemma pairup_map {A B C D} (f : A -> C) (g : B -> D) : forall x y, pairup (map f x) (map g y) = map (fun p => (f (fst p), g (snd p))) (pairup x y).
Proof. induction x as [|a x IH]; intros [|b y]; cbn; auto. now rewrite IH. Qed.
Lemma receiver_move a b r : receiver_spreads (F a) (option_map F b) (move_rx F r) = map move_e (receiver_spreads a b r).
Proof.
  unfold receiver_spreads, move_rx. cbn [g_rx]. destruct (g_rx r); [now rewrite !map_map|]. rewrite pairup_map, !map_map. reflexivity.
Qed.
Lemma pair_move s r : pair_spreads (move_src F s) (move_rx F r) = map move_e (pair_spreads s r).
Proof. unfold pair_spreads, move_src. cbn [g_src]. destruct (g_src s) as [a|a b|l]; [apply (receiver_move a None)|apply (receiver_move a (Some b))|reflexivity]. Qed.
Lemma spreads_move sv : survey_spreads (map (move_src F) sv) = map move_e (survey_spreads sv).
Proof.
  unfold survey_spreads. induction sv as [|s sv IH]; [reflexivity|]. cbn [map flat_map]. rewrite IH, map_app. f_equal.
  unfold move_src at 2. cbn [g_rxs]. induction (g_rxs s) as [|r rs IHr]; [reflexivity|]. cbn [map flat_map]. now rewrite IHr, map_app, pair_move.
Qed.
Lemma psep_move x y : psep (At (F x)) (At (F y)) = nmulr c (psep (At x) (At y)).
Proof. cbn. rewrite !norm_distance. now rewrite (proj2 HF). Qed.
Lemma psep_b x y : psep (place_b (option_map F x)) (At (F y)) = nmulr c (psep (place_b x) (At y)).
Proof. destruct x; [apply psep_move|]. cbn. destruct (Rlt_dec 0 c); [reflexivity|contradiction]. Qed.
Lemma psep_n x y : psep (At (F x)) (place_n (option_map F y)) = nmulr c (psep (At x) (place_n y)).
Proof. destruct y; [apply psep_move|]. cbn. destruct (Rlt_dec 0 c); [reflexivity|contradiction]. Qed.
Lemma psep_bn x y : psep (place_b (option_map F x)) (place_n (option_map F y)) = nmulr c (psep (place_b x) (place_n y)).
Proof. destruct x, y; [apply psep_move| | |]; cbn; (destruct (Rlt_dec 0 c); [reflexivity|contradiction]). Qed.
Lemma gfac_move k e : 0 < k -> gfac k (quad_of (move_e e)) = nmulr (/ c) (gfac k (quad_of e)).
Proof.
  intro Hk. pose proof PI_RGT_0. assert (0 < / c) by now apply Rinv_0_lt_compat. assert (0 < / (k * PI)) by (apply Rinv_0_lt_compat; nra).
  unfold gfac, quad_of, move_e. cbn [qa qb qm qn ea eb em en]. rewrite psep_move, psep_b, psep_n, psep_bn, !ndiv_scaled by assumption. unfold nsub.
  rewrite <- !nmulr_neg, <- !nmulr_add by assumption. rewrite !nmulr_mulr by assumption. f_equal. ring.
Qed.
Lemma even_move a r : even_rows (At (F a)) (move_rx F r) = even_rows (At a) r.
Proof.
  unfold even_rows, g_ms, move_rx. cbn [g_rx]. rewrite (proj1 HF). destruct (g_rx r) as [ms|ms ns]; (induction ms as [|m ms IH]; [reflexivity|]; cbn [map forallb]; rewrite (proj1 HF), IH; reflexivity).
Qed.
Lemma mapM_ok_iff {A B C D} (f : A -> result B) (g : C -> result D) (h : C -> A) : (forall x, (exists y, f (h x) = Ok y) <-> exists y, g x = Ok y) ->
  (forall x e, f (h x) = Err e -> g x = Err e) ->
  forall l, match mapM f (map h l), mapM g l with Ok _, Ok _ => True | Err e, Err e' => e = e' | _, _ => False end.
Proof.
  intros H1 H2. induction l as [|x l IH]; cbn; [exact I|]. specialize (H1 x). specialize (H2 x).
  destruct (f (h x)) as [y|e].
  - destruct (proj1 H1) as (y' & E); [eauto|]. rewrite E. cbn. destruct (mapM f (map h l)), (mapM g l); cbn; auto.
  - rewrite (H2 e eq_refl). cbn. reflexivity.
Qed.
Lemma src_quads_move s : match src_quads (move_src F s), src_quads s with Ok _, Ok _ => True | Err e, Err e' => e = e' | _, _ => False end.
Proof.
  unfold src_quads, src_places, move_src. cbn [g_src g_rxs]. destruct (g_src s) as [a|a b|l]; cbn [bind fst snd]; [| |reflexivity];
  (apply mapM_ok_iff; [intro r; rewrite even_move; destruct (even_rows (At a) r); split; intros (y & E); eauto; discriminate|
   intros r e; rewrite even_move; destruct (even_rows (At a) r); [discriminate|auto]]).
Qed.
Lemma rows_move sv : match rows_of (map (move_src F) sv), rows_of sv with Ok l, Ok l' => len l = len l' | Err e, Err e' => e = e' | _, _ => False end.
Proof.
  assert (match mapM src_quads (map (move_src F) sv), mapM src_quads sv with Ok _, Ok _ => True | Err e, Err e' => e = e' | _, _ => False end) as M.
  { apply mapM_ok_iff; intro s; pose proof (src_quads_move s) as H; destruct (src_quads (move_src F s)), (src_quads s); try contradiction; [split; eauto|split; intros (y & E); discriminate|discriminate|].
    intros e' E. congruence. }
  destruct (rows_of (map (move_src F) sv)) as [l|e] eqn:E1, (rows_of sv) as [l'|e'] eqn:E2.
  - destruct (rows_ok _ _ E1) as (-> & _), (rows_ok _ _ E2) as (-> & _). rewrite !map_length. unfold g_pairs. clear.
    induction sv as [|s sv IH]; [reflexivity|]. cbn [map flat_map]. rewrite !app_length, IH, !map_length. unfold move_src. cbn [g_rxs]. now rewrite map_length.
  - unfold rows_of in *. destruct (mapM src_quads (map _ sv)), (mapM src_quads sv); cbn in *; congruence || contradiction.
  - unfold rows_of in *. destruct (mapM src_quads (map _ sv)), (mapM src_quads sv); cbn in *; congruence || contradiction.
  - unfold rows_of in *. destruct (mapM src_quads (map _ sv)), (mapM src_quads sv); cbn in *; congruence || contradiction.
Qed.
Lemma factor_move sv sp : geometric_factor (map (move_src F) sv) sp = (do G <- geometric_factor sv sp; Ok (map (nmulr (/ c)) G)).
Proof.
  unfold geometric_factor. destruct (space_factor sp) as [k|] eqn:Ek; [|reflexivity]. cbn [bind]. pose proof (space_pos _ _ Ek) as Hk. pose proof (rows_move sv) as H.
  destruct (rows_of (map (move_src F) sv)) as [l|] eqn:E1, (rows_of sv) as [l'|] eqn:E2; try contradiction; cbn [bind]; [|congruence].
  pose proof (rows_concat _ _ E1) as C1. pose proof (rows_concat _ _ E2) as C2. destruct l as [|x l], l' as [|x' l']; try discriminate; [reflexivity|]. cbn [bind]. rewrite C1, C2. f_equal.
  rewrite spreads_move, !map_map. apply map_ext. intro e. now apply gfac_move.
Qed.
End Sim.
