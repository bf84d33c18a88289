From Verif Require Import Py Vec VecDeriv SensW SpecSensW SensWFacts PowerIt SpecPowerIt PowerItFacts Scaling SpecScaling.
From Coq Require Import Lra Permutation.
Local Open Scope R_scope.

Lemma quot_some a b : b <> 0 -> quot a b = Some (a / b).
Proof. intros H. unfold quot. destruct (Req_EM_T b 0); [contradiction|reflexivity]. Qed.
Lemma quot_inv a b q : quot a b = Some q -> b <> 0 /\ q = a / b.
Proof. unfold quot. destruct (Req_EM_T b 0); [discriminate|]. intros E; injection E as <-. auto. Qed.
Lemma c55_beta_bounds ratio k dm rg Md Mr xd xr n dlo dhi rlo rhi beta : matrices n dm Md -> matrices n rg Mr -> length xd = n -> length xr = n ->
  (forall x, length x = n -> dlo * dot x x <= form dm Md x x <= dhi * dot x x) ->
  (forall x, length x = n -> rlo * dot x x <= form rg Mr x x <= rhi * dot x x) -> 0 < ratio -> 0 <= dlo -> 0 < rlo ->
  beta_by_eig ratio k dm rg xd xr = Some beta -> ratio * (dlo / rhi) <= beta <= ratio * (dhi / rlo).
Proof.
  intros HD HR Ld Lr BD BR Pr Pd Prl E. unfold beta_by_eig in E. destruct (eigenvalue dm xd k) as [d|] eqn:ED; [|discriminate]. destruct (eigenvalue rg xr k) as [r|] eqn:ER; [|discriminate].
  pose proof (c52_bounds n dm Md HD dlo dhi xd k d Ld BD ED) as Bd. pose proof (c52_bounds n rg Mr HR rlo rhi xr k r Lr BR ER) as Br.
  rewrite quot_some in E by lra. cbn in E. injection E as <-.
  assert (Q1 : dlo / rhi <= d / r) by (unfold Rdiv; apply Rmult_le_compat; [lra|apply Rlt_le, Rinv_0_lt_compat; lra|lra|apply Rinv_le_contravar; lra]).
  assert (Q2 : d / r <= dhi / rlo) by (unfold Rdiv; apply Rmult_le_compat; [lra|apply Rlt_le, Rinv_0_lt_compat; lra|lra|apply Rinv_le_contravar; lra]).
  split; apply Rmult_le_compat_l; lra.
Qed.
Lemma c55_beta_scaled ratio k dm rg Md Mr xd xr n c beta : matrices n dm Md -> matrices n rg Mr -> length xd = n -> length xr = n -> 0 < c ->
  beta_by_eig ratio k dm rg xd xr = Some beta ->
  beta_by_eig ratio k (scaled c dm) rg xd xr = Some (c * beta) /\ beta_by_eig ratio k dm (scaled c rg) xd xr = Some (beta / c).
Proof.
  intros HD HR Ld Lr Pc E. unfold beta_by_eig in *. destruct (eigenvalue dm xd k) as [d|] eqn:ED; [|discriminate]. destruct (eigenvalue rg xr k) as [r|] eqn:ER; [|discriminate].
  rewrite (c52_scaled n c dm Md xd k d HD Ld Pc ED), (c52_scaled n c rg Mr xr k r HR Lr Pc ER).
  destruct (quot d r) as [q|] eqn:EQ; [|discriminate]. cbn in E. injection E as <-. apply quot_inv in EQ. destruct EQ as [Nr ->].
  rewrite !quot_some by (first [assumption | apply Rmult_integral_contrapositive; split; [lra|assumption]]). cbn. split; f_equal; field; repeat split; lra.
Qed.
Lemma vmax_zero n : vmax (vzero n) = 0.
Proof. destruct n; [reflexivity|]. cbn. unfold vzero, vconst. induction n as [|n IH]; cbn; [reflexivity|]. rewrite Rmax_left by lra. exact IH. Qed.
Lemma absmax_zero n : absmax (vzero n) = 0.
Proof.
  unfold absmax. assert (E : map Rabs (vzero n) = vzero n); [|rewrite E; apply vmax_zero]. unfold vzero, vconst. induction n as [|n IH]; cbn; [reflexivity|]. rewrite IH, Rabs_R0. reflexivity.
Qed.
Lemma c55_beta_zero ratio gd gr n x0 : length x0 = n -> gr (vzero n) = vzero n -> beta_by_max ratio gd gr (vzero n) x0 = None.
Proof.
  intros L H. unfold beta_by_max. destruct (quot 1 (vmax x0)) as [i|]; [|reflexivity]. cbv zeta. rewrite vmax_zero, vscale_0, vscale_length, L, vadd_zero_r by apply vzero_length.
  rewrite H, absmax_zero. unfold quot. destruct (Req_EM_T 0 0); [reflexivity|contradiction].
Qed.
Lemma quots_ok f (l : vec) : (forall x, In x l -> exists y, f x = Some y) -> exists q, quots (map f l) = Some q /\ length q = length l /\ forall i, (i < length l)%nat -> f (nth i l 0) = Some (nth i q 0).
Proof.
  induction l as [|x l IH]; intros H; [exists []; cbn; split; [reflexivity|split; [reflexivity|intros; lia]]|].
  destruct (H x (or_introl eq_refl)) as [y E]. destruct IH as (q & EQ & L & N); [intros; apply H; right; assumption|]. exists (y :: q). cbn. rewrite E, EQ. cbn.
  split; [reflexivity|]. split; [congruence|]. intros [|i] Hi; [assumption|apply N; lia].
Qed.
Lemma broadcast_ok v n r : broadcast v n = Ok r -> length r = n.
Proof.
  unfold broadcast. destruct (Nat.eqb_spec (length v) n); [intros E; injection E as <-; assumption|]. destruct (Nat.eqb (length v) 1); [|discriminate]. intros E; injection E as <-. apply vconst_length.
Qed.
Lemma c55_alphas alphas ratios r small smooth : broadcast ratios (length alphas) = Ok r -> length smooth = length alphas -> Forall (fun x => x <> 0) smooth ->
  exists new, alphas_by_eig alphas ratios small smooth = Ok (Some new) /\ length new = length alphas /\
    forall i, (i < length alphas)%nat -> nth i new 0 * nth i smooth 0 = nth i alphas 0 * nth i r 0 * small.
Proof.
  intros E L HN. pose proof (broadcast_ok _ _ _ E) as Lr. unfold alphas_by_eig. rewrite E. cbn [bind].
  destruct (quots_ok (quot small) smooth) as (q & EQ & Lq & Nq); [intros x Hx; rewrite Forall_forall in HN; exists (small / x); apply quot_some, HN, Hx|].
  rewrite EQ. cbn [option_map]. assert (L1 : length (vmul alphas r) = length alphas) by (apply vmul_length; congruence).
  eexists. split; [reflexivity|]. split; [rewrite vmul_length; congruence|]. intros i Hi. rewrite !nth_vmul by congruence.
  specialize (Nq i ltac:(lia)). apply quot_inv in Nq. destruct Nq as [N0 ->]. field. assumption.
Qed.
Lemma c55_alphas_twice : exists alphas ratios small smooth new new', alphas_by_eig alphas ratios small smooth = Ok (Some new) /\ alphas_by_eig new ratios small smooth = Ok (Some new') /\ new' <> new.
Proof.
  exists [1], [1], 2, [1], [2], [4]. unfold alphas_by_eig, broadcast. cbn. unfold quot. destruct (Req_EM_T 1 0); [lra|]. cbn.
  split; [repeat f_equal; lra|]. split; [repeat f_equal; lra|]. intros H. injection H as H. lra.
Qed.
Lemma vsum_pos v : positive v -> v <> [] -> 0 < vsum v.
Proof.
  intros H N. destruct v as [|x v]; [congruence|]. clear N. revert x H. induction v as [|y v IH]; intros x H; inversion H; subst; [cbn; lra|]. cbn [vsum] in *. specialize (IH y H3). lra.
Qed.
Lemma vsum_scale c v : vsum (vscale c v) = c * vsum v.
Proof. induction v as [|x v IH]; cbn; [ring|]. fold (vscale c v). rewrite IH. ring. Qed.
Lemma quots_scale (v : vec) s : s <> 0 -> quots (map (fun x => quot x s) v) = Some (vscale (/ s) v).
Proof. intros H. induction v as [|x v IH]; cbn; [reflexivity|]. rewrite quot_some by assumption. rewrite IH. cbn. f_equal. f_equal. unfold Rdiv. ring. Qed.
Lemma nth_vscale' c v i : nth i (vscale c v) 0 = c * nth i v 0.
Proof. revert i; induction v as [|x v IH]; intros [|i]; cbn; try ring. apply IH. Qed.
Lemma positive_nth v : positive v <-> forall i, (i < length v)%nat -> 0 < nth i v 0.
Proof.
  split.
  - intros H i Hi. unfold positive in H. rewrite Forall_forall in H. apply H, nth_In, Hi.
  - intros H. apply Forall_forall. intros x Hx. destruct (In_nth v x 0 Hx) as (i & Hi & <-). auto.
Qed.
Lemma quots_combine (c e : vec) : length c = length e -> positive e -> exists q, quots (map (fun ce => quot (fst ce) (snd ce)) (combine c e)) = Some q /\ length q = length c /\ forall i, (i < length c)%nat -> nth i q 0 = nth i c 0 / nth i e 0.
Proof.
  revert e; induction c as [|x c IH]; intros [|y e] L P; cbn in L; try lia; [exists []; cbn; split; [reflexivity|split; [reflexivity|intros; lia]]|].
  inversion P; subst. destruct (IH e ltac:(lia) H2) as (q & EQ & Lq & Nq). exists (x / y :: q). cbn. rewrite quot_some by lra. rewrite EQ. cbn. split; [reflexivity|]. split; [congruence|].
  intros [|i] Hi; [reflexivity|apply Nq; lia].
Qed.
Lemma c55_scales k mults chi0 c dms xs eigs : match chi0 with Some v => broadcast v (length dms) = Ok c | None => c = mults /\ length mults = length dms end ->
  (2 <= length dms)%nat -> misfit_eigs k dms xs = Some eigs -> length eigs = length dms -> positive eigs -> positive c ->
  exists m, scale_misfits k mults chi0 dms xs = Ok (Some m) /\ length m = length dms /\ positive m /\ vsum m = 1 /\ balanced m c eigs.
Proof.
  intros HC HL HE Le Pe Pc. unfold scale_misfits. destruct (Nat.eqb_spec (length dms) 1); [lia|].
  assert (E : match chi0 with Some c => broadcast c (length dms) | None => Ok mults end = Ok c) by (destruct chi0; [assumption|destruct HC as [-> _]; reflexivity]).
  assert (Lc : length c = length dms) by (destruct chi0; [eapply broadcast_ok; eassumption|destruct HC as [-> ?]; assumption]).
  rewrite E. cbn [bind]. rewrite HE. destruct (quots_combine c eigs) as (q & EQ & Lq & Nq); [congruence|assumption|]. rewrite EQ.
  rewrite positive_nth in Pe, Pc.
  assert (Pq : positive q) by (apply positive_nth; intros i Hi; rewrite Nq by congruence; apply Rdiv_lt_0_compat; [apply Pc; congruence|apply Pe; congruence]).
  assert (Ps : 0 < vsum q) by (apply vsum_pos; [assumption|intros ->; cbn in Lq; lia]). rewrite quots_scale by lra.
  exists (vscale (/ vsum q) q). split; [reflexivity|]. rewrite vscale_length. split; [congruence|]. pose proof (Rinv_0_lt_compat _ Ps) as Pi.
  split; [|split].
  - apply positive_nth. intros i Hi. rewrite vscale_length in Hi. rewrite nth_vscale'. rewrite positive_nth in Pq. apply Rmult_lt_0_compat; auto.
  - rewrite vsum_scale. field. lra.
  - split; [rewrite vscale_length; assumption|]. split; [congruence|]. exists (/ vsum q). split; [assumption|]. intros i Hi. rewrite nth_vscale', Nq by assumption.
    pose proof (Pe i ltac:(congruence)). field. split; lra.
Qed.
Lemma diag2_mat a b : matrices 2 (diag2 a b) [[[a; 0]; [0; b]]].
Proof. constructor; [split; [split; [reflexivity|repeat constructor]|reflexivity]|constructor]. Qed.
Lemma diag2_pows a b k : pows 2 (diag2 a b) k [1; 1] = [a ^ k; b ^ k].
Proof. induction k as [|k IH]; [reflexivity|]. cbn [pows]. rewrite IH. unfold product, diag2. cbn. f_equal; [ring|f_equal; ring]. Qed.
Lemma diag2_eig a b k : 0 < a -> 0 < b -> eigenvalue (diag2 a b) [1; 1] k = Some ((a * (a ^ k * a ^ k) + b * (b ^ k * b ^ k)) / (a ^ k * a ^ k + b ^ k * b ^ k)).
Proof.
  intros Pa Pb. assert (PP : forall j, 0 < a ^ j * a ^ j + b ^ j * b ^ j).
  { intros j. pose proof (pow_lt a j Pa). pose proof (pow_lt b j Pb). nra. }
  destruct (eigenvalue_some 2 _ _ (diag2_mat a b) [1; 1] k eq_refl) as [mu E].
  - intros j _. rewrite diag2_pows. cbn [dot]. pose proof (PP j). lra.
  - rewrite E. f_equal. destruct (eigenvalue_spec 2 _ _ (diag2_mat a b) [1; 1] k mu eq_refl E) as [_ ->]. rewrite diag2_pows. pose proof (PP k). unfold form, diag2. cbn [combine fold_right fst snd mv map dot]. field. cbn [dot] in *; lra.
Qed.
Lemma c55_iterations : exists dms xs eigs m, quots (map (fun tx => eigenvalue (fst tx) (snd tx) 1) (combine dms xs)) = Some eigs /\ positive eigs /\
  scale_misfits 1 [1; 1] None dms xs = Ok (Some m) /\ ~ balanced m [1; 1] eigs.
Proof.
  exists [diag2 1 2; diag2 1 1], [[1; 1]; [1; 1]], [9 / 5; 1].
  assert (E4 : misfit_eigs 1 [diag2 1 2; diag2 1 1] [[1; 1]; [1; 1]] = Some [513 / 257; 1]).
  { unfold misfit_eigs. cbn [combine map fst snd]. rewrite !diag2_eig by lra. cbn [quots option_map]. f_equal. f_equal; [field|f_equal; field]. }
  assert (P4 : positive [513 / 257; 1]) by (repeat constructor; lra).
  destruct (c55_scales 1 [1; 1] None [1; 1] [diag2 1 2; diag2 1 1] [[1; 1]; [1; 1]] [513 / 257; 1] (conj eq_refl eq_refl) ltac:(cbn; lia) E4 eq_refl P4 ltac:(repeat constructor; lra)) as (m & E & L & P & S & (_ & _ & c & Pc & B)).
  exists m. split; [cbn [combine map fst snd]; rewrite !diag2_eig by lra; cbn [quots option_map]; f_equal; f_equal; [field|f_equal; field]|].
  split; [repeat constructor; lra|]. split; [exact E|]. intros (_ & _ & c' & Pc' & B').
  pose proof (B 0%nat ltac:(cbn; lia)) as B0. pose proof (B 1%nat ltac:(cbn; lia)) as B1. pose proof (B' 0%nat ltac:(cbn; lia)) as B0'. pose proof (B' 1%nat ltac:(cbn; lia)) as B1'. cbn in *.
  assert (c = c') by lra. subst c'. lra.
Qed.
(** ** The joint schedule *)
Lemma median_in_range l lo hi : l <> [] -> (forall x, In x l -> lo <= x <= hi) -> lo <= median l <= hi.
Proof.
  intros Hl H. unfold median. assert (Ln : (0 < length l)%nat) by (destruct l; [congruence|cbn; lia]).
  assert (HI : forall i, (i < length l)%nat -> lo <= nth i (rsort l) 0 <= hi).
  { intros i Hi. apply H. apply Permutation_in with (rsort l); [apply rsort_perm|]. apply nth_In. rewrite (Permutation_length (rsort_perm l)). assumption. }
  assert (D : (length l / 2 < length l)%nat) by (apply Nat.div_lt; lia).
  pose proof (HI (length l / 2)%nat D). pose proof (HI (length l / 2 - 1)%nat ltac:(lia)). destruct (Nat.even (length l)); lra.
Qed.
Lemma ltb_true a b : ltb a b = true <-> a < b.
Proof. unfold ltb. destruct (Rlt_dec a b); split; intros; try assumption; try reflexivity; try discriminate; contradiction. Qed.
Lemma scale_at_spec ix c : forall v, length ix = length v -> length (scale_at ix c v) = length v /\ forall i, (i < length v)%nat -> nth i (scale_at ix c v) 0 = (if nth i ix false then c else 1) * nth i v 0.
Proof.
  induction ix as [|b ix IH]; intros [|x v] L; cbn in L; try lia; [split; [reflexivity|intros; cbn in *; lia]|]. destruct (IH v ltac:(lia)) as [L1 N1]. unfold scale_at in *. cbn. split; [congruence|].
  intros [|i] Hi; [destruct b; ring|apply N1; lia].
Qed.
Lemma quots_pairs (l : list (R * R)) : (forall p, In p l -> fst p <> 0) -> quots (map (fun p => quot (snd p) (fst p)) l) = Some (map (fun p => snd p / fst p) l).
Proof. induction l as [|p l IH]; intros H; cbn; [reflexivity|]. rewrite quot_some by (apply H; left; reflexivity). rewrite IH by (intros; apply H; right; assumption). reflexivity. Qed.
Lemma select_in {A} (ix : list bool) (l : list A) x : In x (select ix l) -> exists i, nth_error ix i = Some true /\ nth_error l i = Some x.
Proof.
  unfold select. rewrite in_map_iff. intros ((b & y) & <- & Hf). apply filter_In in Hf. destruct Hf as [Hc Hb]. cbn in *. subst b.
  apply In_nth_error in Hc. destruct Hc as [i Hi]. exists i. revert ix l Hi. induction i as [|i IH]; intros [|b ix] [|z l] Hi; cbn in *; try discriminate; [injection Hi as -> ->; auto|apply IH; assumption].
Qed.
Lemma select_some {A} (ix : list bool) (l : list A) i x : nth_error ix i = Some true -> nth_error l i = Some x -> In x (select ix l).
Proof.
  intros H1 H2. unfold select. apply in_map_iff. exists (true, x). split; [reflexivity|]. apply filter_In. split; [|reflexivity].
  revert ix l H1 H2. induction i as [|i IH]; intros [|b ix] [|z l] H1 H2; cbn in *; try discriminate; [injection H1 as ->; injection H2 as ->; left; reflexivity|right; apply IH; assumption].
Qed.
(** What one iteration does to an array of multipliers. *)
Lemma joint_step c s i n : is_array s = true -> length (jm s) = n -> positive (jm s) -> sensible n i -> 0 < warming c ->
  let r := end_iter c true s (j_dms i) (j_targets i) (j_iter i) in
  snd r = None /\ is_array (fst r) = true /\
  (fst r = s /\ ~ due c s i \/ length (jm (fst r)) = n /\ positive (jm (fst r)) /\ vsum (jm (fst r)) = 1 /\
     exists f g, warming c <= f /\ 0 < g /\ forall j, (j < n)%nat ->
       nth j (jm (fst r)) 0 = g * ((if Rlt_dec (nth j (j_targets i) 0) (nth j (j_dms i) 0) then f else 1) * nth j (jm s) 0)).
Proof.
  intros HA Lm Pm (Ld & Lt & Pd & Pt) Pw. unfold end_iter. cbn [negb].
  destruct (andb _ _) eqn:EM.
  2:{ cbn. split; [reflexivity|]. split; [assumption|]. left. split; [reflexivity|]. intros (D1 & D2 & (p & Hp & Lp) & _). apply Nat.ltb_lt in D1. apply Nat.eqb_eq in D2. rewrite D1, D2 in EM. cbn in EM.
      rewrite <- not_true_iff_false in EM. apply EM, existsb_exists. exists p. split; [assumption|apply ltb_true; assumption]. }
  destruct (andb (forallb _ _) _) eqn:EB.
  2:{ cbn. split; [reflexivity|]. split; [assumption|]. left. split; [reflexivity|]. intros (_ & _ & _ & _ & HB). rewrite <- not_true_iff_false in EB. apply EB, andb_true_iff. rewrite Forall_forall in HB.
      split; apply forallb_forall; intros x Hx; apply ltb_true; apply HB; assumption. }
  set (cmb := combine (j_dms i) (j_targets i)) in *. set (ix := map (fun p => ltb (snd p) (fst p)) cmb).
  destruct (existsb (fun b => b) ix) eqn:EX.
  2:{ cbn. split; [reflexivity|]. split; [assumption|]. left. split; [reflexivity|]. intros (_ & _ & _ & (p & Hp & Lp) & _). rewrite <- not_true_iff_false in EX. apply EX, existsb_exists. exists true. split; [|reflexivity].
      unfold ix. apply in_map_iff. exists p. split; [apply ltb_true; assumption|assumption]. }
  apply andb_true_iff in EM. destruct EM as [_ EM]. apply existsb_exists in EM. destruct EM as (p0 & Hp0 & Lp0). apply ltb_true in Lp0.
  assert (CN : forall j, (j < n)%nat -> nth_error cmb j = Some (nth j (j_dms i) 0, nth j (j_targets i) 0)).
  { intros j Hj. unfold cmb. rewrite (nth_error_nth' _ (0, 0)) by (rewrite combine_length; lia). rewrite combine_nth by congruence. reflexivity. }
  assert (CI : forall p, In p cmb -> 0 < fst p /\ 0 < snd p).
  { intros [a b] Hp. pose proof (in_combine_l _ _ _ _ Hp). pose proof (in_combine_r _ _ _ _ Hp). unfold positive in *. rewrite Forall_forall in Pd, Pt. auto. }
  assert (SI : forall p, In p (select (map negb ix) cmb) -> In p cmb /\ fst p <= snd p).
  { intros p Hp. apply select_in in Hp. destruct Hp as (j & H1 & H2). split; [eapply nth_error_In; eassumption|]. unfold ix in H1. rewrite map_map, nth_error_map, H2 in H1. cbn in H1. injection H1 as H1.
    destruct (ltb (snd p) (fst p)) eqn:E; [discriminate|]. destruct (Rle_lt_dec (fst p) (snd p)) as [|G]; [assumption|]. apply ltb_true in G. congruence. }
  rewrite quots_pairs by (intros p Hp; apply SI in Hp; destruct Hp as [Hp _]; apply CI in Hp; lra). rewrite HA.
  set (q := map (fun p => snd p / fst p) (select (map negb ix) cmb)). set (f := warming c * median q).
  assert (QN : q <> []).
  { unfold q. apply map_nonempty. intros E. apply In_nth_error in Hp0. destruct Hp0 as [j Hj].
    assert (HI : In p0 (select (map negb ix) cmb)); [|rewrite E in HI; destruct HI]. apply select_some with j; [|assumption]. unfold ix. rewrite map_map, nth_error_map, Hj. cbn. f_equal.
    destruct (ltb (snd p0) (fst p0)) eqn:E2; [apply ltb_true in E2; lra|reflexivity]. }
  assert (QR : 1 <= median q).
  { destruct (vmax_greatest q QN) as [_ MX]. apply (median_in_range q 1 (vmax q) QN). intros x Hx. split; [|apply MX; assumption]. unfold q in Hx. apply in_map_iff in Hx. destruct Hx as (p & <- & Hp). apply SI in Hp. destruct Hp as [Hp Hle]. apply CI in Hp.
    apply (Rmult_le_reg_r (fst p)); [lra|]. unfold Rdiv. rewrite Rmult_assoc, Rinv_l by lra. lra. }
  assert (Pf : warming c <= f) by (unfold f; nra).
  assert (Lix : length ix = length (jm s)) by (unfold ix, cmb; rewrite map_length, combine_length; lia).
  destruct (scale_at_spec ix f (jm s) Lix) as [L1 N1]. set (m1 := scale_at ix f (jm s)) in *.
  assert (P1 : positive m1). { apply positive_nth. intros j Hj. rewrite L1 in Hj. rewrite N1 by assumption. rewrite positive_nth in Pm. pose proof (Pm j Hj). destruct (nth j ix false); apply Rmult_lt_0_compat; lra. }
  assert (NE : m1 <> []). { intros E. rewrite E in L1. cbn in L1. destruct ix; [discriminate|cbn in Lix; lia]. }
  pose proof (vsum_pos m1 P1 NE) as Ps. pose proof (Rinv_0_lt_compat _ Ps) as Pi. cbn [fst snd jm is_array]. split; [reflexivity|]. split; [reflexivity|]. right.
  rewrite vscale_length. split; [congruence|]. split; [|split].
  - apply positive_nth. intros j Hj. rewrite vscale_length in Hj. rewrite nth_vscale'. rewrite positive_nth in P1. apply Rmult_lt_0_compat; auto.
  - rewrite vsum_scale. field. lra.
  - exists f, (/ vsum m1). split; [assumption|]. split; [assumption|]. intros j Hj. rewrite nth_vscale', N1 by congruence. f_equal. f_equal.
    assert (EI : nth_error ix j = Some (ltb (nth j (j_targets i) 0) (nth j (j_dms i) 0))) by (unfold ix; rewrite nth_error_map, CN by assumption; reflexivity).
    rewrite (nth_error_nth _ _ _ EI). unfold ltb. destruct (Rlt_dec (nth j (j_targets i) 0) (nth j (j_dms i) 0)); reflexivity.
Qed.
Lemma c55_joint c n l : forall s, is_array s = true -> length (jm s) = n -> positive (jm s) -> vsum (jm s) = 1 -> 0 < warming c -> Forall (sensible n) l ->
  let s' := jrun c s l in is_array s' = true /\ length (jm s') = n /\ positive (jm s') /\ vsum (jm s') = 1.
Proof.
  induction l as [|i l IH]; intros s HA Lm Pm Sm Pw HF; [cbn; auto|]. inversion HF as [|? ? Hi HF']; subst. cbn zeta. unfold jrun. cbn [fold_left]. fold (jrun c (fst (end_iter c true s (j_dms i) (j_targets i) (j_iter i))) l).
  destruct (joint_step c s i (length (jm s)) HA eq_refl Pm Hi Pw) as (_ & A & [[E _]|(L & P & S & _)]).
  - rewrite E. apply IH; auto.
  - apply IH; auto.
Qed.
Lemma c55_list : exists c m dms targets, positive m /\ positive dms /\ positive targets /\
  let r := end_iter c true (mkJoint m false) dms targets 1 in snd r = Some TypeError /\ jm (fst r) <> m.
Proof.
  exists (mkJconf 1 (1/10) 10 1), [1; 1], [1; 3], [2; 2]. split; [repeat constructor; lra|]. split; [repeat constructor; lra|]. split; [repeat constructor; lra|]. cbv zeta.
  unfold end_iter. cbn. unfold ltb. destruct (Rlt_dec 1 2); [|lra]. cbn. destruct (Rlt_dec (1/10) 1); [|lra]. destruct (Rlt_dec 1 10); [|lra]. destruct (Rlt_dec 2 1); [lra|]. destruct (Rlt_dec 2 3); [|lra]. cbn.
  rewrite quot_some by lra. cbn. split; [reflexivity|]. intros H. injection H as H. lra.
Qed.
Lemma c55_bounds : exists c m dms targets, positive m /\ vsum m = 1 /\ positive dms /\ positive targets /\ Forall (fun x => chimin c < x < chimax c) m /\
  let r := end_iter c true (mkJoint m true) dms targets 1 in snd r = None /\ ~ Forall (fun x => chimin c < x < chimax c) (jm (fst r)).
Proof.
  exists (mkJconf 1 (1/10) (6/10) 1), [1/2; 1/2], [1; 3], [2; 2]. split; [repeat constructor; lra|]. split; [cbn; lra|]. split; [repeat constructor; lra|]. split; [repeat constructor; lra|]. split; [repeat constructor; cbn; lra|]. cbv zeta.
  unfold end_iter. cbn. unfold ltb. destruct (Rlt_dec 1 2); [|lra]. cbn. destruct (Rlt_dec (1/10) (1/2)); [|lra]. destruct (Rlt_dec (1/2) (6/10)); [|lra]. destruct (Rlt_dec 2 1); [lra|]. destruct (Rlt_dec 2 3); [|lra]. cbn.
  rewrite quot_some by lra. cbn. split; [reflexivity|]. intros H. inversion H; subst. inversion H3; subst. cbn in H4.
  match type of H4 with _ /\ ?x < _ => assert (x = 2 / 3) by field; lra end.
Qed.
