(** Facts about geometric factors kept by receivers, and apparent resistivities. *)
From Verif Require Import Py Vec LinSimFacts XyzIOFacts Geom SpecGeom GeomFacts.
From Verif Require Survey SpecSurvey SurveyFacts.
From Coq Require Import String.
Local Open Scope R_scope.

Definition key (p : gsrc * grx) : Survey.pkey := (g_sid (fst p), g_rid (snd p)).
Definition sr (p : gsrc * grx) : Survey.src * Survey.rx := (to_src (fst p), Survey.mkRx (g_rid (snd p)) (g_nD (snd p))).
Lemma pairs_sr sv : Survey.pairs (map to_src sv) = map sr (g_pairs sv).
Proof.
  unfold Survey.pairs, g_pairs. induction sv as [|s sv IH]; [reflexivity|]. cbn [map flat_map]. rewrite IH, map_app. f_equal.
  unfold to_src at 2. cbn [Survey.src_rxs]. rewrite !map_map. reflexivity.
Qed.
Lemma accepted_distinct sv : distinct sv -> Survey.accepted (map to_src sv) = true.
Proof.
  intros (H1 & H2). unfold Survey.accepted. apply andb_true_iff. split.
  - unfold Survey.valid_src_list. apply nodupb_NoDup. rewrite map_map. exact H1.
  - apply forallb_forall. intros x Hx. apply in_map_iff in Hx. destruct Hx as (s & <- & Hs). unfold Survey.valid_rx_list. apply nodupb_NoDup.
    unfold to_src. cbn [Survey.src_rxs]. rewrite map_map. exact (proj1 (Forall_forall _ _) H2 s Hs).
Qed.
Definition psum (l : list (gsrc * grx)) : nat := list_sum (map (fun p => g_nD (snd p)) l).
Lemma psum_sr l : SurveyFacts.psum (map sr l) = psum l.
Proof. induction l as [|p l IH]; [reflexivity|]. change (SurveyFacts.psum (map sr (p :: l))) with (g_nD (snd p) + SurveyFacts.psum (map sr l))%nat. rewrite IH. reflexivity. Qed.
Lemma slice_at sv l1 p l2 : distinct sv -> g_pairs sv = l1 ++ p :: l2 ->
  dict_get Survey.pkey_eqb (key p) (Survey.get_all_slices (map to_src sv)) = Some (psum l1, psum l1 + g_nD (snd p))%nat.
Proof.
  intros H E. pose proof (accepted_distinct _ H) as A. rewrite (SurveyFacts.all_slices_eq _ A), SurveyFacts.slices_from_get, pairs_sr, E, map_app. cbn [map].
  pose proof (SurveyFacts.accepted_nodup _ A) as N. rewrite pairs_sr, E, map_app, map_app in N. cbn [map] in N.
  change (key p) with (SurveyFacts.key_of (sr p)). rewrite SurveyFacts.loop_hit.
  - rewrite psum_sr. reflexivity.
  - apply NoDup_remove_2 in N. intro C. apply N. apply in_or_app. now left.
Qed.
Lemma receiver_count a b r : same_tables r -> len (receiver_spreads a b r) = g_nD r.
Proof.
  unfold same_tables, receiver_spreads, g_nD, g_ms. destruct (g_rx r) as [ms|ms ns]; rewrite map_length; [reflexivity|].
  revert ns. induction ms as [|m ms IH]; intros [|n ns] H; cbn in *; auto; try discriminate.
Qed.
Lemma pair_count s r : same_tables r -> match g_src s with SMulti _ => False | _ => True end -> len (pair_spreads s r) = g_nD r.
Proof. unfold pair_spreads. destruct (g_src s); intros H M; [now apply receiver_count|now apply receiver_count|contradiction]. Qed.
Lemma spreads_pairs sv : survey_spreads sv = flat_map (fun p => pair_spreads (fst p) (snd p)) (g_pairs sv).
Proof.
  unfold survey_spreads, g_pairs. induction sv as [|s sv IH]; [reflexivity|]. cbn [flat_map]. rewrite IH, flat_map_app. f_equal.
  induction (g_rxs s) as [|r rs IHr]; [reflexivity|]. cbn [map flat_map fst snd]. now rewrite IHr.
Qed.
Lemma in_g_pairs sv s r : In (s, r) (g_pairs sv) <-> In s sv /\ In r (g_rxs s).
Proof.
  unfold g_pairs. rewrite in_flat_map. split.
  - intros (s' & H1 & H2). apply in_map_iff in H2. destruct H2 as (r' & E & H3). injection E as <- <-. auto.
  - intros (H1 & H2). exists s. split; [assumption|]. apply in_map_iff. eauto.
Qed.
Lemma count_pairs l : (forall p, In p l -> len (pair_spreads (fst p) (snd p)) = g_nD (snd p)) -> len (flat_map (fun p => pair_spreads (fst p) (snd p)) l) = psum l.
Proof.
  induction l as [|p l IH]; intro H; [reflexivity|]. cbn [flat_map]. rewrite app_length, IH, H by (intros; try apply H; cbn; auto). reflexivity.
Qed.
Lemma part_mid {A} (x y z : list A) : part (len x, len x + len y)%nat (x ++ y ++ z) = y.
Proof.
  unfold part. cbn [fst snd]. replace (len x + len y - len x)%nat with (len y) by lia. rewrite skipn_app, skipn_all, Nat.sub_diag. cbn [app skipn].
  rewrite firstn_app, firstn_all, Nat.sub_diag. cbn. apply app_nil_r.
Qed.
Lemma fold_keeps slices G k v : forall l d, (forall p, In p l -> key p = k -> g_type (snd p) = AppRes -> forall sl, dict_get Survey.pkey_eqb k slices = Some sl -> part sl G = v) ->
  dict_get Survey.pkey_eqb k d = Some v -> dict_get Survey.pkey_eqb k (fold_left (gf_step slices G) l d) = Some v.
Proof.
  induction l as [|p l IH]; intros d H E; [exact E|]. cbn [fold_left]. apply IH; [intros; eapply H; eauto; now right|].
  unfold gf_step. destruct (g_type (snd p)) eqn:Et; auto. fold (key p). destruct (dict_get Survey.pkey_eqb (key p) slices) as [sl|] eqn:Es; [|exact E].
  destruct (Survey.pkey_eqb (key p) k) eqn:Ek.
  - apply SurveyFacts.pkey_eqb_ok in Ek. subst k. rewrite (dict_get_set_eq _ SurveyFacts.pkey_eqb_ok). f_equal. apply (H p); auto. now left.
  - rewrite (dict_get_set_neq _ SurveyFacts.pkey_eqb_ok); [exact E|]. intro C. rewrite C in Ek. rewrite (proj2 (SurveyFacts.pkey_eqb_ok _ _) eq_refl) in Ek. discriminate.
Qed.
Lemma fold_sets slices G : forall l p d sl, In p l -> g_type (snd p) = AppRes -> dict_get Survey.pkey_eqb (key p) slices = Some sl ->
  dict_get Survey.pkey_eqb (key p) (fold_left (gf_step slices G) l d) = Some (part sl G).
Proof.
  induction l as [|q l IH]; intros p d sl Hin Ht Hs; [destruct Hin|]. destruct Hin as [->|Hin]; [|now apply IH]. cbn [fold_left]. apply fold_keeps.
  - intros q _ _ _ sl' Hs'. congruence.
  - unfold gf_step. rewrite Ht. fold (key p). rewrite Hs. apply (dict_get_set_eq _ SurveyFacts.pkey_eqb_ok).
Qed.
Lemma fold_other slices G k : forall l d, (forall p, In p l -> key p = k -> g_type (snd p) <> AppRes) -> dict_get Survey.pkey_eqb k (fold_left (gf_step slices G) l d) = dict_get Survey.pkey_eqb k d.
Proof.
  induction l as [|p l IH]; intros d H; [reflexivity|]. cbn [fold_left]. rewrite IH by (intros; apply H; auto; now right).
  unfold gf_step. destruct (g_type (snd p)) eqn:Et; auto. fold (key p). destruct (dict_get Survey.pkey_eqb (key p) slices); [|reflexivity].
  apply (dict_get_set_neq _ SurveyFacts.pkey_eqb_ok). intro C. apply (H p); [now left|auto|assumption].
Qed.
Lemma own_factors sv sp d d' G : set_geometric_factor sv sp d = Ok (d', G) -> distinct sv -> dipole_tables sv ->
  exists c, space_factor sp = Ok c /\ G = map (fun e => gfac c (quad_of e)) (survey_spreads sv) /\
  forall s r, In s sv -> In r (g_rxs s) -> g_type r = AppRes -> dict_get Survey.pkey_eqb (g_sid s, g_rid r) d' = Some (map (fun e => gfac c (quad_of e)) (pair_spreads s r)).
Proof.
  unfold set_geometric_factor. intros H Hd Ht. destruct (geometric_factor sv sp) as [G'|] eqn:E; [|discriminate]. cbn [bind] in H.
  destruct (factor_ok _ _ _ E) as (c & Ec & EG & Hs). assert (d' = fold_left (gf_step (Survey.get_all_slices (map to_src sv)) G') (g_pairs sv) d /\ G = G') as (-> & ->) by (split; congruence).
  exists c. split; [exact Ec|]. split; [exact EG|]. intros s r Is Ir It.
  assert (In (s, r) (g_pairs sv)) as Ip by now apply in_g_pairs. pose proof Ip as Ip'. apply in_split in Ip'. destruct Ip' as (l1 & l2 & El).
  pose proof (fold_sets (Survey.get_all_slices (map to_src sv)) G' (g_pairs sv) (s, r) d _ Ip It (slice_at sv l1 (s, r) l2 Hd El)) as HF. unfold key in HF. cbn [fst snd] in HF. rewrite HF. f_equal.
  rewrite EG, spreads_pairs, El, flat_map_app. cbn [flat_map fst snd]. rewrite !map_app.
  assert (Hc : forall p, In p (g_pairs sv) -> len (pair_spreads (fst p) (snd p)) = g_nD (snd p)).
  { intros (s' & r') Hp. apply in_g_pairs in Hp. cbn [fst snd]. apply pair_count.
    - exact (proj1 (Forall_forall _ _) (proj1 (Forall_forall _ _) Ht s' (proj1 Hp)) r' (proj2 Hp)).
    - exact (proj1 (Forall_forall _ _) Hs s' (proj1 Hp)). }
  rewrite <- (count_pairs l1) by (intros p Hp; apply Hc; rewrite El; apply in_or_app; now left).
  pose proof (Hc (s, r) Ip) as Hl. cbn [fst snd] in Hl. rewrite <- Hl.
  rewrite <- (map_length (fun e => gfac c (quad_of e)) (flat_map _ l1)), <- (map_length (fun e => gfac c (quad_of e)) (pair_spreads s r)). apply part_mid.
Qed.
Lemma other_factors sv sp d d' G s r : set_geometric_factor sv sp d = Ok (d', G) -> (forall s' r', In s' sv -> In r' (g_rxs s') -> g_sid s' = g_sid s -> g_rid r' = g_rid r -> g_type r' <> AppRes) ->
  dict_get Survey.pkey_eqb (g_sid s, g_rid r) d' = dict_get Survey.pkey_eqb (g_sid s, g_rid r) d.
Proof.
  unfold set_geometric_factor. intros H Ho. destruct (geometric_factor sv sp) as [G'|] eqn:E; [|discriminate]. cbn [bind] in H.
  assert (d' = fold_left (gf_step (Survey.get_all_slices (map to_src sv)) G') (g_pairs sv) d) as -> by congruence. apply fold_other.
  intros (s' & r') Hp K. apply in_g_pairs in Hp. unfold key in K. cbn [fst snd] in *. injection K as K1 K2. now apply (Ho s' r').
Qed.

(** ** A homogeneous ground *)
Lemma zip_const (f : spread -> R) (g : spread -> num) x : forall l, (forall e, In e l -> ndiv (f e) (g e) = Fin x) -> zipn ndiv (map f l) (map g l) = map (fun _ => Fin x) l.
Proof. induction l as [|e l IH]; intro H; [reflexivity|]. cbn [map zipn]. rewrite H by now left. f_equal. apply IH. intros; apply H; now right. Qed.
Section Uniform.
Variables (u : R -> list (R * vec) -> vec -> R) (c : R) (names : list string).
Variable ok : spread -> Prop.
Hypothesis Hn : forall sp, In sp names -> space_factor sp = Ok c.
Hypothesis Hu : forall rho I e, ok e -> voltage (u rho) I e = rho * I * gval c e.
Hypothesis Hc : forall e, ok e -> clear e.
Lemma uniform sv sp d0 d G s r rho I : In sp names -> set_geometric_factor sv sp d0 = Ok (d, G) -> distinct sv -> dipole_tables sv -> In s sv -> In r (g_rxs s) -> g_type r = AppRes ->
  Forall ok (pair_spreads s r) -> Forall (fun e => voltage (u 1) 1 e <> 0) (pair_spreads s r) ->
  rx_eval d s r (map (voltage (u rho) I) (pair_spreads s r)) = Ok (map (fun _ => Fin (rho * I)) (pair_spreads s r)).
Proof.
  intros Isp H Hd Ht Is Ir It Fo Fz. destruct (own_factors _ _ _ _ _ H Hd Ht) as (c' & Ec & _ & Hf). rewrite (Hn _ Isp) in Ec. injection Ec as <-.
  unfold rx_eval. rewrite It, (Hf s r Is Ir It). f_equal. apply zip_const. intros e Hin.
  pose proof (proj1 (Forall_forall _ _) Fo e Hin) as O. pose proof (proj1 (Forall_forall _ _) Fz e Hin) as Z. cbn beta in Z. rewrite Hu in Z by assumption. rewrite Hu by assumption. rewrite gfac_clear by auto.
  unfold ndiv. destruct (Req_EM_T (gval c e) 0) as [Q|Q]; [exfalso; apply Z; rewrite Q; ring|]. f_equal. field. exact Q.
Qed.
Lemma app_res_bound eps rho g : 0 <= eps -> eps < Rabs g -> 0 < rho -> exists y, app_res eps (rho * 1 * g) (Fin g) = Fin y /\ Rabs (y - rho) <= rho * eps / (Rabs g - eps).
Proof.
  intros He Hg Hr. unfold app_res. cbn [nadd]. assert (Hne : g + eps <> 0) by (intro C; replace g with (- eps) in Hg by lra; rewrite Rabs_Ropp, Rabs_right in Hg; lra).
  rewrite ndiv_fin by assumption. cbn. eexists. split; [reflexivity|].
  replace (rho * 1 * g * / (g + eps)) with (rho * (g / (g + eps))) by (field; assumption). rewrite Rabs_mult, (Rabs_right rho) by lra.
  replace (rho * Rabs (g / (g + eps)) - rho) with (rho * (Rabs (g / (g + eps)) - 1)) by ring. rewrite Rabs_mult, (Rabs_right rho) by lra.
  replace (rho * eps / (Rabs g - eps)) with (rho * (eps * / (Rabs g - eps))) by (unfold Rdiv; ring). apply Rmult_le_compat_l; [lra|].
  unfold Rdiv. rewrite Rabs_mult, Rabs_inv.
  assert (Hge : Rabs g - eps <= Rabs (g + eps)) by (unfold Rabs in *; repeat destruct (Rcase_abs _); lra).
  assert (Hp : 0 < Rabs (g + eps)) by lra.
  replace (Rabs g * / Rabs (g + eps) - 1) with ((Rabs g - Rabs (g + eps)) * / Rabs (g + eps)) by (field; lra).
  rewrite Rabs_mult, (Rabs_right (/ Rabs (g + eps))) by (apply Rle_ge, Rlt_le, Rinv_0_lt_compat; lra).
  apply Rmult_le_compat; [apply Rabs_pos|apply Rlt_le, Rinv_0_lt_compat; lra| |apply Rinv_le_contravar; lra].
  unfold Rabs in *; repeat destruct (Rcase_abs _); lra.
Qed.
Lemma from_voltage sv sp rho eps l : In sp names -> 0 < rho -> 0 <= eps -> apparent_resistivity_from_voltage sv (map (voltage (u rho) 1) (survey_spreads sv)) sp eps = Ok l ->
  Forall ok (survey_spreads sv) ->
  Forall2 (fun e x => eps < Rabs (voltage (u 1) 1 e) -> exists y, x = Fin y /\ Rabs (y - rho) <= rho * eps / (Rabs (voltage (u 1) 1 e) - eps)) (survey_spreads sv) l.
Proof.
  intros Isp Hr He H Fo. unfold apparent_resistivity_from_voltage in H. destruct (geometric_factor sv sp) as [G|] eqn:E; [|discriminate]. cbn [bind] in H.
  destruct (_ =? _)%nat; [|discriminate]. assert (l = zipn (app_res eps) (map (voltage (u rho) 1) (survey_spreads sv)) G) as -> by congruence. clear H.
  destruct (factor_ok _ _ _ E) as (c' & Ec & -> & _). rewrite (Hn _ Isp) in Ec. injection Ec as <-. clear E.
  induction (survey_spreads sv) as [|e es IH]; [constructor|]. cbn [map zipn]. constructor; [|apply IH; now apply Forall_inv_tail in Fo].
  pose proof (Forall_inv Fo) as O. rewrite !Hu, gfac_clear by auto. intro Hg. replace (1 * 1 * gval c e) with (gval c e) in * by ring. now apply app_res_bound.
Qed.
End Uniform.
