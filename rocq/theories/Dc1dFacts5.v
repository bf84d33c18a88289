(** Statements for layered DC resistivity. *)
From Verif Require Import Py Vec VecDeriv PropsM Geom SpecGeom GeomFacts GeomFacts2 Dc1d SpecDc1d Dc1dFacts Dc1dFacts2 Dc1dFacts3 Dc1dFacts4 LinSimFacts XyzIOFacts XyzIOFacts2.
From Verif Require Mt1d SpecMt1d Mt1dFacts5 Survey.
From Coq Require Import Lra Lia String.
Local Open Scope R_scope.
Notation length := List.length.
Notation concat := List.concat.

(** ** The kernel *)
Lemma layers_list rhos hs lb : layers rhos hs = Ok lb -> exists n, length rhos = S n /\ (n <= length hs)%nat /\ lb = (combine (removelast rhos) hs, last rhos 0).
Proof.
  unfold layers. destruct rhos as [|r l] eqn:E; [discriminate|]. rewrite <- E. destruct (_ <=? _)%nat eqn:L; [|discriminate]. intros K. apply Nat.leb_le in L.
  exists (length l). rewrite E in *. cbn [length] in *. split; [reflexivity|]. split; [lia|congruence].
Qed.
Lemma layers_app above rb hs : length above = length hs -> layers (above ++ [rb]) hs = Ok (combine above hs, rb).
Proof.
  intros H. unfold layers. destruct (above ++ [rb]) as [|x l] eqn:E; [destruct above; discriminate|]. rewrite <- E. rewrite app_length, H. cbn [length].
  replace (_ <=? _)%nat with true by (symmetry; apply Nat.leb_le; lia). now rewrite removelast_last, last_last.
Qed.
Lemma pos_combine a b : positive a -> positive b -> Forall (fun l => 0 < fst l /\ 0 <= snd l) (combine a b).
Proof. unfold positive. rewrite !Forall_forall. intros A B [x y] H. pose proof (in_combine_l _ _ _ _ H). pose proof (in_combine_r _ _ _ _ H). cbn. split; [auto|left; auto]. Qed.
Lemma physics above rb hs lams ts k : length above = length hs -> positive above -> positive hs -> 0 < rb -> positive lams -> phi_tilde (above ++ [rb]) hs lams = Ok ts -> (k < length lams)%nat ->
  (forall u0 j0, surface (nth k lams 0) (combine above hs) rb u0 j0 -> nth k lams 0 * u0 = nth k ts 0 * j0) /\
  exists u0 j0, j0 <> 0 /\ surface (nth k lams 0) (combine above hs) rb u0 j0.
Proof.
  intros L PA PH PB PL H Hk. unfold phi_tilde in H. rewrite layers_app in H by exact L. cbn [bind fst snd] in H. injection H as <-.
  assert (P : 0 < nth k lams 0) by (unfold positive in PL; rewrite Forall_forall in PL; apply PL, nth_In, Hk).
  pose proof (pos_combine _ _ PA PH) as PC. rewrite (map_nth_lt (fun lam => phi lam (combine above hs) rb) lams k 0 Hk). split; [now apply surface_ratio|now apply surface_exists].
Qed.
Lemma range rhos hs lams ts lo hi : 0 < lo -> Forall (fun r => lo <= r <= hi) rhos -> Forall (fun h => 0 <= h) hs -> Forall (fun l => 0 <= l) lams -> phi_tilde rhos hs lams = Ok ts ->
  length ts = length lams /\ Forall (fun t => lo <= t <= hi) ts.
Proof.
  intros H0 PR PH PL H. unfold phi_tilde in H. destruct (layers rhos hs) as [lb|] eqn:E; [|discriminate]. cbn [bind] in H. injection H as <-. split; [apply map_length|].
  apply layers_list in E as (n & L & LE & ->). cbn [fst snd]. apply Forall_forall. intros t Ht. apply in_map_iff in Ht as (lam & <- & Hlam). rewrite Forall_forall in PR, PH, PL.
  apply phi_range; [auto|exact H0|rewrite (last_seq _ n L); apply PR, nth_In; lia|]. apply Forall_forall. intros [x y] Hx.
  pose proof (in_combine_l _ _ _ _ Hx) as X. pose proof (in_combine_r _ _ _ _ Hx) as Y. cbn. split; [|auto]. apply PR. rewrite (removelast_seq _ n L) in X. apply in_map_iff in X as (i & <- & Hi). apply in_seq in Hi. apply nth_In. lia.
Qed.
Lemma combine_app' {A B} (a c : list A) (b d : list B) : length a = length b -> combine (a ++ c) (b ++ d) = combine a b ++ combine c d.
Proof. revert b; induction a as [|x a IH]; intros [|y b] H; cbn in *; try lia; [reflexivity|]. rewrite IH by lia. reflexivity. Qed.
Lemma split_layer a b ha hb r h1 h2 rb lams : length a = length ha -> length b = length hb -> positive b -> positive hb -> 0 < r -> 0 <= h1 -> 0 <= h2 -> 0 < rb -> Forall (fun l => 0 <= l) lams ->
  phi_tilde (a ++ [r; r] ++ b ++ [rb]) (ha ++ [h1; h2] ++ hb) lams = phi_tilde (a ++ [r] ++ b ++ [rb]) (ha ++ [h1 + h2] ++ hb) lams.
Proof.
  intros LA LB PB PHB Hr H1 H2 Hb PL. unfold phi_tilde.
  replace (a ++ [r; r] ++ b ++ [rb]) with ((a ++ r :: r :: b) ++ [rb]) by (now rewrite <- app_assoc). replace (a ++ [r] ++ b ++ [rb]) with ((a ++ r :: b) ++ [rb]) by (now rewrite <- app_assoc).
  cbn [app]. rewrite !layers_app by (rewrite !app_length; cbn; lia). cbn [bind fst snd]. f_equal. apply map_ext_in. intros lam Hlam. rewrite Forall_forall in PL. specialize (PL lam Hlam).
  rewrite !combine_app' by exact LA. cbn [combine]. rewrite !phi_app. f_equal. apply phi_split; auto. now apply pos_combine.
Qed.
Lemma split_bottom a ha rb h lams : length a = length ha -> 0 < rb -> 0 <= h -> Forall (fun l => 0 <= l) lams ->
  phi_tilde (a ++ [rb; rb]) (ha ++ [h]) lams = phi_tilde (a ++ [rb]) ha lams.
Proof.
  intros LA Hb Hh PL. unfold phi_tilde. change [rb; rb] with ([rb] ++ [rb]). rewrite app_assoc. rewrite !layers_app by (rewrite ?app_length; cbn; lia). cbn [bind fst snd]. f_equal. apply map_ext_in. intros lam Hlam. rewrite Forall_forall in PL. specialize (PL lam Hlam).
  rewrite combine_app' by exact LA. rewrite phi_app. f_equal. cbn [combine]. apply phi_uniform; auto.
Qed.
Lemma extra_thickness rhos hs more lams : (length rhos - 1 <= length hs)%nat -> phi_tilde rhos (hs ++ more) lams = phi_tilde rhos hs lams.
Proof.
  intros H. unfold phi_tilde, layers. destruct rhos as [|r l] eqn:E; [reflexivity|]. rewrite <- E in *. assert (LR : length (removelast rhos) = (length rhos - 1)%nat).
  { rewrite (removelast_seq rhos (length l)) by (rewrite E; reflexivity). rewrite map_length, seq_length, E. cbn. lia. }
  rewrite app_length. replace (_ <=? _)%nat with true by (symmetry; apply Nat.leb_le; lia). replace (_ <=? length hs)%nat with true by (symmetry; apply Nat.leb_le; lia).
  cbn [bind fst snd]. f_equal. apply map_ext. intros lam. f_equal. clear E l r lams. revert hs H LR. generalize (removelast rhos) as a. intros a hs H LR. rewrite <- LR in H. clear LR. revert hs H.
  induction a as [|x a IH]; intros [|y hs] H; cbn in *; try lia; try reflexivity. rewrite IH by lia. reflexivity.
Qed.
Lemma few_thickness rhos hs lams : (length hs < length rhos - 1)%nat -> phi_tilde rhos hs lams = Err IndexError.
Proof. intros H. unfold phi_tilde, layers. destruct rhos as [|r l] eqn:E; [reflexivity|]. rewrite <- E in *. replace (_ <=? _)%nat with false by (symmetry; apply Nat.leb_gt; lia). reflexivity. Qed.

(** ** Coefficients *)
Lemma filter_points rnd f a b lams rs : log_spaced rnd f -> 0 < a -> a <= b -> dlf_points rnd (f_base f) a b = (lams, rs) ->
  (4 <= length rs)%nat /\ nth 0 rs 0 = b /\ last rs 0 <= a /\
  exists D, A_dht (length rs) (length lams) (f_j0 f) = Ok D /\ forall T i, (i < length rs)%nat -> nth (length rs - 1 - i) (mv D (map T lams)) 0 = dot (f_j0 f) (map (fun x => T (x / nth i rs 0)) (f_base f)).
Proof.
  intros (b0 & q & n & Hb & Hq & Hr & Hn & Hj & EB) Ha Hab E.
  assert (EL : lams = fst (dlf_points rnd (f_base f) a b)) by (now rewrite E). assert (ER : rs = snd (dlf_points rnd (f_base f) a b)) by (now rewrite E). rewrite EL, ER. clear E EL ER.
  pose proof (rs_len rnd f b0 q n EB a b) as LR. pose proof (N3 rnd f b0 q n EB a b) as HN.
  split; [lia|]. split; [exact (first_r rnd f b0 q n Hb Hq Hr Hn Hj EB a b)|]. split; [exact (last_r rnd f b0 q n Hb Hq Hr Hn Hj EB a b Ha Hab)|]. eexists. split; [exact (dht_ok rnd f b0 q n Hn Hj EB a b)|].
  intros T i Hi. exact (transform rnd f b0 q n Hb Hq Hr Hn Hj EB a b Ha Hab T _ i (dht_ok rnd f b0 q n Hn Hj EB a b) Hi).
Qed.
Lemma coef_volts rnd spline f sv offs G : offsets sv = Ok offs -> set_geometric_factor sv "halfspace" [] = Ok G -> volts sv -> length (f_j0 f) = length (f_base f) ->
  exists co, coefficients rnd spline f [] sv = Ok co.
Proof.
  intros HO HG HV HJ. unfold coefficients. rewrite HO, HG. cbn [bind]. unfold dlf_points. pose proof (n_out_3 rnd (f_base f) (lowest offs) (highest offs)) as N3'.
  rewrite !map_length, !seq_length. destruct (A_dht _ _ _) as [dht|] eqn:ED.
  - cbn [bind]. unfold volts in HV. assert (exists As, mapM (rx_coef spline (map ln (rev (map (fun k => highest offs * exp (- INR k / ppd rnd (f_base f))) (seq 0 (n_out rnd (f_base f) (lowest offs) (highest offs) - length (f_base f) + 1)))))
      (n_out rnd (f_base f) (lowest offs) (highest offs) - length (f_base f) + 1) (n_out rnd (f_base f) (lowest offs) (highest offs)) dht (fst G)) (g_pairs sv) = Ok As) as (As & ->); [|cbn [bind]; eauto].
    clear -HV. induction HV as [|p l Hp _ IH]; [exists []; reflexivity|]. destruct IH as (As & IH). cbn [mapM]. unfold rx_coef at 1. destruct (g_type (snd p)); try congruence; cbn [bind]; rewrite IH; cbn [bind]; eauto.
  - exfalso. unfold A_dht in ED. destruct (_ || _)%bool eqn:E; [discriminate|]. apply orb_false_iff in E as [_ E]. apply Nat.leb_gt in E. lia.
Qed.
Lemma multipole rnd spline f sv s : In s sv -> (exists l, g_src s = SMulti l) -> forall co, coefficients rnd spline f [] sv <> Ok co.
Proof.
  intros Hs (l & El) co H. unfold coefficients in H. destruct (offsets sv) as [offs|]; [|discriminate]. cbn [bind] in H.
  destruct (set_geometric_factor _ _ _) as [G|] eqn:EG; [|discriminate]. unfold set_geometric_factor in EG. destruct (geometric_factor sv "halfspace") as [G'|] eqn:E; [|discriminate].
  apply factor_ok in E as (c & _ & _ & F). unfold single_sources in F. rewrite Forall_forall in F. specialize (F s Hs). now rewrite El in F.
Qed.
Lemma finite_length gf g : finite gf = Some g -> length g = length gf.
Proof.
  revert g; induction gf as [|x gf IH]; intros g H; [injection H as <-; reflexivity|]. destruct x as [r| | |]; try discriminate. cbn in H. destruct (Req_EM_T r 0); [discriminate|].
  destruct (finite gf) as [g'|]; [|discriminate]. injection H as <-. cbn. now rewrite (IH g').
Qed.
Lemma mapM_in {A B} (f : A -> result B) l ys x : mapM f l = Ok ys -> In x l -> exists y, f x = Ok y.
Proof. intros H Hx. apply mapM_F2 in H. induction H as [|a b l ys E _ IH]; [destruct Hx|]. destruct Hx as [->|Hx]; eauto. Qed.
Lemma several rnd spline f sv s r : distinct sv -> dipole_tables sv -> In s sv -> In r (g_rxs s) -> g_type r = AppRes -> (2 <= g_nD r <= 3)%nat -> forall co, coefficients rnd spline f [] sv <> Ok co.
Proof.
  intros Hd Ht Is Ir It Hn co H. unfold coefficients in H. destruct (offsets sv) as [offs|]; [|discriminate]. cbn [bind] in H.
  destruct (set_geometric_factor _ _ _) as [[d G]|] eqn:EG; [|discriminate]. cbn [bind] in H.
  pose proof (n_out_3 rnd (f_base f) (lowest offs) (highest offs)) as N3'.
  destruct (dlf_points rnd (f_base f) (lowest offs) (highest offs)) as [lams rs] eqn:EP.
  assert (LR : (4 <= length rs)%nat). { unfold dlf_points in EP. injection EP as _ <-. rewrite map_length, seq_length. lia. }
  destruct (A_dht _ _ _) as [dht|]; [|discriminate]. cbn [bind] in H. destruct (mapM _ _) as [As|] eqn:EM; [|discriminate].
  apply (mapM_in _ _ _ (s, r)) in EM; [|now apply in_g_pairs]. destruct EM as [M EM]. unfold rx_coef in EM. cbn [fst snd] in EM. rewrite It in EM.
  destruct (own_factors _ _ _ _ _ EG Hd Ht) as (c & _ & _ & Hf). rewrite (Hf s r Is Ir It) in EM.
  unfold set_geometric_factor in EG. destruct (geometric_factor sv "halfspace") as [G'|] eqn:E; [|discriminate]. apply factor_ok in E as (c' & _ & _ & F).
  unfold single_sources in F. rewrite Forall_forall in F. specialize (F s Is).
  unfold dipole_tables in Ht. rewrite Forall_forall in Ht. specialize (Ht s Is). rewrite Forall_forall in Ht. specialize (Ht r Ir).
  assert (LP : length (pair_spreads s r) = g_nD r).
  { clear -F Ht. unfold pair_spreads, receiver_spreads, g_nD, g_ms, same_tables in *. destruct (g_src s) as [x|x y|]; [| |contradiction]; destruct (g_rx r) as [ms|ms ns]; rewrite map_length; try reflexivity;
      revert ns Ht; induction ms as [|m ms IH]; intros [|n ns] Ht; cbn in *; try lia; rewrite IH; lia. }
  unfold over_factor in EM. destruct (finite _) as [g|] eqn:EF; [|discriminate]. apply finite_length in EF. rewrite map_length, LP in EF.
  destruct g as [|g1 [|g2 gs]]; cbn [length] in EF; try lia. change (length (g1 :: g2 :: gs)) with (S (S (length gs))) in EM.
  destruct (S (S (length gs)) =? length rs)%nat eqn:E; [apply Nat.eqb_eq in E; lia|]. discriminate.
Qed.

(** ** The example surveys *)
Lemma line_dist d : 0 < d -> norm2 (vsub [0; 0] [d; 0]) = d.
Proof. intros H. unfold norm2, vsub. cbn. replace ((0 - d) * (0 - d) + ((0 - 0) * (0 - 0) + 0)) with (d * d) by ring. apply sqrt_square. lra. Qed.
Lemma line_offsets t d ds : Forall (fun d => 0 < d) (d :: ds) -> offsets (line t (d :: ds)) = Ok (d :: ds).
Proof.
  intros H. unfold offsets. cbn [line g_pairs flat_map map g_rxs app mapM rx_tables g_rx snd fst elecs g_src bind concat].
  rewrite !app_nil_r. f_equal. rewrite (line_dist d) by (now inversion H). f_equal. rewrite map_map. inversion H as [|? ? _ H2]; subst. clear H.
  induction H2 as [|x l Hx _ IH]; [reflexivity|]. cbn [map]. rewrite line_dist by exact Hx. now rewrite IH.
Qed.
Lemma line_rows t ds : rows_of (line t ds) = Ok [zipq (At [0; 0]) FarPlus (map (fun d => [d; 0]) ds) (map (fun _ => FarMinus) (map (fun d => [d; 0]) ds))].
Proof.
  unfold rows_of. cbn [line mapM]. unfold src_quads. cbn [g_src src_places bind fst snd g_rxs mapM even_rows g_ms g_rx].
  replace (forallb _ _) with true; [reflexivity|]. symmetry. apply forallb_forall. intros m Hm. apply in_map_iff in Hm as (x & <- & _). reflexivity.
Qed.
Lemma line_factor t ds : exists G, set_geometric_factor (line t ds) "halfspace" [] = Ok G.
Proof. unfold set_geometric_factor, geometric_factor. rewrite line_rows. change (space_factor "halfspace") with (@Ok R 2). cbn [bind]. eauto. Qed.
Lemma line_clear d : 0 < d -> let e := {| ea := [0; 0]; eb := None; em := [d; 0]; en := None |} in clear e /\ sources_on_surface e /\ gval 2 e = / (2 * PI * d).
Proof.
  intros H e. assert (D : distance [0; 0] [d; 0] = d) by (apply line_dist; exact H). unfold clear, sources_on_surface, gval, e; cbn [ea eb em en opt_all odist inv_opt]. rewrite D.
  pose proof PI_RGT_0. repeat split; try lra; [discriminate|]. field. lra.
Qed.
Lemma line_ok t ds : distinct (line t ds) /\ dipole_tables (line t ds) /\ Forall (drives 1) (line t ds).
Proof. repeat split; cbn; repeat constructor; cbn; tauto. Qed.
Lemma line_coef rnd spline t d ds f : t <> AppRes -> Forall (fun d => 0 < d) (d :: ds) -> length (f_j0 f) = length (f_base f) -> exists co, coefficients rnd spline f [] (line t (d :: ds)) = Ok co.
Proof.
  intros Ht H HJ. destruct (line_factor t (d :: ds)) as [G HG]. apply (coef_volts rnd spline f _ _ G (line_offsets t d ds H) HG); [|exact HJ]. repeat constructor. exact Ht.
Qed.
Lemma flat_keeps : keeps_constants flat_spline.
Proof.
  intros xs x H. destruct xs as [|y xs]; [contradiction|]. cbn [length seq map vsum]. unfold flat_spline at 1. cbn.
  assert (Z : forall l, (forall i, In i l -> (0 < i)%nat) -> vsum (map (fun i => flat_spline (y :: xs) i x) l) = 0).
  { induction l as [|i l IH]; intros Hl; [reflexivity|]. cbn. rewrite IH by (intros; apply Hl; now right). unfold flat_spline. destruct i; [specialize (Hl 0%nat (or_introl eq_refl)); lia|]. cbn. lra. }
  rewrite Z; [lra|]. intros i Hi. apply in_seq in Hi. lia.
Qed.
Lemma simple_weighs c : weighs c (simple_filter c). Proof. unfold weighs. cbn. ring. Qed.
Lemma simple_log c : log_spaced (fun x => x) (simple_filter c).
Proof.
  exists 1, (exp 1), 2%nat. repeat split; try lra; try lia; try reflexivity; [pose proof (exp_ineq1 1 ltac:(lra)); lra|]. cbn. f_equal; [ring|]. f_equal. ring.
Qed.
Lemma line_data spline c t d m : keeps_constants spline -> t <> AppRes -> 0 < d -> 0 < m -> fresh (fun x => x) spline half (line t [d]) (simple_filter c) (CallDpred [m]) = Ok [c * (m / (2 * PI * d))].
Proof.
  intros HK Ht Hd Hm. destruct (line_coef (fun x => x) spline t d [] (simple_filter c) Ht ltac:(repeat constructor; exact Hd) eq_refl) as [co EC].
  destruct (line_ok t [d]) as (L1 & L2 & L3). pose proof PI_RGT_0 as PP.
  rewrite (homogeneous (fun x => x) spline HK half (simple_filter c) (line t [d]) co [m] m 1 c 0 EC (simple_weighs c) L1 L2 L3); try reflexivity; try assumption; [| |constructor].
  - cbn [line g_pairs flat_map map g_rxs app concat fst snd pair_spreads g_src receiver_spreads g_rx]. destruct (line_clear d Hd) as (A & B & C). unfold reading. cbn [g_type]. rewrite voltage_half by assumption. rewrite C.
    f_equal. destruct t; [|contradiction|]; f_equal; field; lra.
  - cbn [line g_pairs flat_map map g_rxs app]. constructor; [|constructor]. cbn [fst snd pair_spreads g_src receiver_spreads g_rx map g_type]. split; [|contradiction].
    constructor; [|constructor]. destruct (line_clear d Hd) as (A & B & _). auto.
Qed.
