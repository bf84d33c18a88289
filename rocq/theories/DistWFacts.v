From Verif Require Import Py Vec SensW SensWFacts DistW SpecDistW.
From Coq Require Import Lra Permutation.
Local Open Scope R_scope.

Lemma dist_sq a : forall b, vsum (map (fun x => x * x) (vsub a b)) = sqdist a b.
Proof. induction a as [|x a IH]; intros [|y b]; cbn; try reflexivity. fold (vsub a b). rewrite IH. reflexivity. Qed.
Lemma sqdist_nonneg a : forall b, 0 <= sqdist a b.
Proof. induction a as [|x a IH]; intros [|y b]; cbn; try lra. pose proof (IH b). pose proof (Rle_0_sqr (x - y)). unfold Rsqr in *. lra. Qed.
Lemma dist_nonneg a b : 0 <= dist a b. Proof. apply sqrt_pos. Qed.
Lemma dist_le a b c r : sqdist a r <= sqdist b c -> dist a r <= dist b c.
Proof. intros H. unfold dist. rewrite !dist_sq. apply sqrt_le_1_alt. assumption. Qed.
Lemma dist_lt a b c r : sqdist a r < sqdist b c -> dist a r < dist b c.
Proof. intros H. unfold dist. rewrite !dist_sq. apply sqrt_lt_1_alt. split; [apply sqdist_nonneg|assumption]. Qed.
Definition total (thr ex : R) (refs : mat) (c : vec) : R := vsum (map (fun r => Rpower (dist c r + thr) (-2 * ex)) refs).
Lemma fold_total thr ex refs c : fold_left (fun acc r => acc + Rpower (dist c r + thr) (-2 * ex)) refs 0 = total thr ex refs c.
Proof.
  unfold total. assert (K : forall acc, fold_left (fun acc r => acc + Rpower (dist c r + thr) (-2 * ex)) refs acc = acc + vsum (map (fun r => Rpower (dist c r + thr) (-2 * ex)) refs)).
  { induction refs as [|r refs IH]; intros acc; cbn; [ring|]. rewrite IH. ring. }
  rewrite K. ring.
Qed.
Lemma total_scipy thr ex refs c : vsum (map (fun r => Rpower (Rpower (dist c r + thr) ex) (-2)) refs) = total thr ex refs c.
Proof. unfold total. f_equal. apply map_ext. intros r. rewrite Rpower_mult. f_equal. ring. Qed.
Lemma total_pos thr ex refs c : refs <> [] -> 0 < total thr ex refs c.
Proof.
  intros H. unfold total. destruct refs as [|r refs]; [congruence|]. clear H. revert r. induction refs as [|q refs IH]; intros r; cbn [map vsum] in *; unfold Rpower at 1; pose proof (exp_pos (-2 * ex * ln (dist c r + thr))); [lra|]. specialize (IH q). lra.
Qed.
Lemma half_power x : 0 < x -> Rpower x (1/2) = sqrt x.
Proof. intros H. rewrite <- Rpower_sqrt by assumption. f_equal. lra. Qed.
Lemma engines_same cells refs thr ex : refs <> [] -> weights_scipy dist cells refs thr ex = weights_numba cells refs thr ex.
Proof.
  intros HR. unfold weights_scipy, weights_numba. f_equal. rewrite !map_map. apply map_ext. intros c. rewrite total_scipy, fold_total. apply half_power, total_pos, HR.
Qed.
Definition raw (thr ex : R) (refs : mat) (cells : mat) : vec := map (fun c => sqrt (total thr ex refs c)) cells.
Lemma numba_raw cells refs thr ex : weights_numba cells refs thr ex = normalize (raw thr ex refs cells).
Proof. unfold weights_numba, raw. f_equal. rewrite map_map. apply map_ext. intros c. rewrite fold_total. reflexivity. Qed.
Lemma raw_pos thr ex refs cells : refs <> [] -> forall x, In x (raw thr ex refs cells) -> 0 < x.
Proof. intros HR x Hx. apply in_map_iff in Hx. destruct Hx as (c & <- & _). apply sqrt_lt_R0, total_pos, HR. Qed.
Lemma normalize_ok w : w <> [] -> (forall x, In x w -> 0 < x) -> 0 < vmax w /\ normalize w = Ok (map (fun x => x / vmax w) w).
Proof.
  intros Hw Hp. destruct (vmax_greatest w Hw) as [Hi _]. pose proof (Hp _ Hi) as P. split; [assumption|]. unfold normalize. destruct w; [congruence|]. destruct (Req_EM_T _ 0) as [E|]; [lra|reflexivity].
Qed.
Lemma boolsel_in active l p : In p (boolsel active l) -> In p l.
Proof. destruct active as [b|]; cbn; [|auto]. intros H. apply in_map_iff in H. destruct H as ((x & y) & <- & H). apply filter_In in H. destruct H as [H _]. apply in_combine_r in H. assumption. Qed.
Lemma points_flat (refs : mat) : Forall (fun p : vec => length p = 1%nat) refs -> map (fun x => [x]) (concat refs) = refs.
Proof. induction 1 as [|r refs Hr _ IH]; [reflexivity|]. destruct r as [|x [|]]; try discriminate. cbn. rewrite IH. reflexivity. Qed.
(** The whole function for sensible input. *)
Lemma weighting_raw dim centers hmin refs active ex thr e : points dim refs -> e <> OtherEngine ->
  distance_weighting dim centers hmin refs active ex thr e None = normalize (raw (match thr with None => 1/2 * hmin | Some t => t end) ex refs (boolsel active centers)).
Proof.
  intros [HN HP] HE. unfold distance_weighting.
  assert (ER : (if Nat.eqb dim 1 then map (fun x => [x]) (concat refs) else refs) = refs) by (destruct (Nat.eqb_spec dim 1) as [->|]; [apply points_flat; assumption|reflexivity]).
  rewrite ER. assert (EF : forallb (fun r => Nat.eqb (length r) dim) refs = true) by (apply forallb_forall; intros r Hr; apply Nat.eqb_eq; rewrite Forall_forall in HP; auto). rewrite EF. cbn [negb].
  destruct e; [apply numba_raw| |congruence]. rewrite engines_same by assumption. apply numba_raw.
Qed.
Lemma c48_engines dim centers hmin refs active ex thr : points dim refs ->
  distance_weighting dim centers hmin refs active ex thr Numba None = distance_weighting dim centers hmin refs active ex thr Scipy None.
Proof. intros HP. rewrite !weighting_raw by (assumption || discriminate). reflexivity. Qed.
Lemma c48_range dim centers hmin refs active ex thr e : points dim refs -> e <> OtherEngine -> boolsel active centers <> [] ->
  exists w, distance_weighting dim centers hmin refs active ex thr e None = Ok w /\ length w = length (boolsel active centers) /\ (forall x, In x w -> 0 < x <= 1) /\ In 1 w.
Proof.
  intros HP HE HN. rewrite weighting_raw by assumption. set (t := match thr with None => 1/2 * hmin | Some t => t end). set (cs := boolsel active centers) in *.
  assert (NE : raw t ex refs cs <> []) by (unfold raw; apply map_nonempty; assumption). pose proof (raw_pos t ex refs cs (proj1 HP)) as PP. destruct (normalize_ok _ NE PP) as [PM ->].
  destruct (vmax_greatest _ NE) as [Hi Hm]. eexists. split; [reflexivity|]. split; [unfold raw; rewrite !map_length; reflexivity|]. split.
  - intros x Hx. apply in_map_iff in Hx. destruct Hx as (y & <- & Hy). pose proof (PP y Hy). pose proof (Hm y Hy). split; [apply Rdiv_lt_0_compat; assumption|]. apply (Rmult_le_reg_r (vmax (raw t ex refs cs))); [assumption|]. unfold Rdiv. rewrite Rmult_assoc, Rinv_l by lra. lra.
  - apply in_map_iff. exists (vmax (raw t ex refs cs)). split; [field; lra|assumption].
Qed.
Lemma power_le a b ex : 0 < a -> a <= b -> 0 <= ex -> Rpower b (-2 * ex) <= Rpower a (-2 * ex).
Proof.
  intros Ha Hab He. unfold Rpower. destruct (Req_dec a b) as [->|]; [lra|]. assert (ln a < ln b) by (apply ln_increasing; lra). assert (E : -2 * ex * ln b <= -2 * ex * ln a) by nra.
  destruct E as [E| ->]; [left; apply exp_increasing; assumption|lra].
Qed.
Lemma power_lt a b ex : 0 < a -> a < b -> 0 < ex -> Rpower b (-2 * ex) < Rpower a (-2 * ex).
Proof. intros Ha Hab He. unfold Rpower. apply exp_increasing. assert (ln a < ln b) by (apply ln_increasing; lra). nra. Qed.
Lemma total_le thr ex refs far near : 0 < thr -> 0 <= ex -> farther refs far near -> total thr ex refs far <= total thr ex refs near.
Proof.
  intros Ht He. unfold farther, total. induction refs as [|r refs IH]; intros H; cbn; [lra|]. pose proof (IH ltac:(intros; apply H; right; assumption)).
  pose proof (dist_nonneg near r). pose proof (dist_le near far r r (H r (or_introl eq_refl))). pose proof (power_le (dist near r + thr) (dist far r + thr) ex ltac:(lra) ltac:(lra) He). lra.
Qed.
Lemma total_lt thr ex refs far near : 0 < thr -> 0 < ex -> strictly_farther refs far near -> total thr ex refs far < total thr ex refs near.
Proof.
  intros Ht He. unfold strictly_farther. induction refs as [|r refs IH]; intros [H (q & Hq & Lq)]; [destruct Hq|]. unfold total in *. cbn [map vsum].
  assert (HF : farther refs far near) by (intros x Hx; apply H; right; assumption). pose proof (total_le thr ex refs far near Ht ltac:(lra) HF) as TL. unfold total in TL.
  pose proof (dist_nonneg near r). pose proof (dist_le near far r r (H r (or_introl eq_refl))). pose proof (power_le (dist near r + thr) (dist far r + thr) ex ltac:(lra) ltac:(lra) ltac:(lra)).
  destruct Hq as [->|Hq].
  - pose proof (dist_lt near far q q Lq). pose proof (power_lt (dist near q + thr) (dist far q + thr) ex ltac:(lra) ltac:(lra) He). lra.
  - pose proof (IH (conj HF (ex_intro _ q (conj Hq Lq)))). lra.
Qed.
Lemma nth_raw thr ex refs cs i : (i < length cs)%nat -> nth i (raw thr ex refs cs) 0 = sqrt (total thr ex refs (nth i cs [])).
Proof. intros H. unfold raw. rewrite (nth_indep _ 0 (sqrt (total thr ex refs []))) by (rewrite map_length; assumption). apply (map_nth (fun c => sqrt (total thr ex refs c))). Qed.
Lemma nth_div w i : (i < length w)%nat -> nth i (map (fun x => x / vmax w) w) 0 = nth i w 0 / vmax w.
Proof. intros H. rewrite (nth_indep _ 0 (0 / vmax w)) by (rewrite map_length; assumption). apply (map_nth (fun x => x / vmax w)). Qed.
Lemma c48_decreasing dim centers hmin refs active ex t e w i j : points dim refs -> e <> OtherEngine -> 0 < t -> 0 <= ex ->
  distance_weighting dim centers hmin refs active ex (Some t) e None = Ok w -> (i < length (boolsel active centers))%nat -> (j < length (boolsel active centers))%nat ->
  (farther refs (nth i (boolsel active centers) []) (nth j (boolsel active centers) []) -> nth i w 0 <= nth j w 0) /\
  (0 < ex -> strictly_farther refs (nth i (boolsel active centers) []) (nth j (boolsel active centers) []) -> nth i w 0 < nth j w 0).
Proof.
  intros HP HE Ht He E Hi Hj. rewrite weighting_raw in E by assumption. set (cs := boolsel active centers) in *.
  assert (NE : raw t ex refs cs <> []) by (unfold raw; apply map_nonempty; intros C; rewrite C in Hi; cbn in Hi; lia). pose proof (raw_pos t ex refs cs (proj1 HP)) as PP. destruct (normalize_ok _ NE PP) as [PM EN]. rewrite EN in E. injection E as <-.
  assert (LR : length (raw t ex refs cs) = length cs) by apply map_length. rewrite !nth_div by (rewrite LR; assumption). pose proof (Rinv_0_lt_compat _ PM) as PI. rewrite !nth_raw by assumption.
  split; [intros HF|intros He' HF]; unfold Rdiv.
  - apply Rmult_le_compat_r; [lra|]. apply sqrt_le_1_alt, total_le; assumption.
  - apply Rmult_lt_compat_r; [lra|]. apply sqrt_lt_1_alt. split; [left; apply total_pos, HP|apply total_lt; assumption].
Qed.
Lemma vsum_perm (l l' : vec) : Permutation l l' -> vsum l = vsum l'.
Proof. induction 1; cbn; lra. Qed.
Lemma c48_order dim centers hmin refs refs' active ex thr e : points dim refs -> e <> OtherEngine -> Permutation refs refs' ->
  distance_weighting dim centers hmin refs active ex thr e None = distance_weighting dim centers hmin refs' active ex thr e None.
Proof.
  intros HP HE HPm. assert (HP' : points dim refs').
  { destruct HP as [H1 H2]. split; [intros ->; apply Permutation_sym, Permutation_nil in HPm; contradiction|]. rewrite Forall_forall in *. intros x Hx. apply H2. eapply Permutation_in; [apply Permutation_sym; eassumption|assumption]. }
  rewrite !weighting_raw by assumption. f_equal. apply map_ext. intros c. f_equal. unfold total. apply vsum_perm, Permutation_map. assumption.
Qed.
Lemma c48_single dim centers hmin r active ex t e w i : length r = dim -> e <> OtherEngine -> 0 < t -> 0 <= ex ->
  distance_weighting dim centers hmin [r] active ex (Some t) e None = Ok w -> (i < length (boolsel active centers))%nat ->
  exists j, (j < length (boolsel active centers))%nat /\
    (forall k, (k < length (boolsel active centers))%nat -> nth k w 0 <= nth j w 0) /\
    nth i w 0 = Rpower ((sqrt (sqdist (nth j (boolsel active centers) []) r) + t) / (sqrt (sqdist (nth i (boolsel active centers) []) r) + t)) ex.
Proof.
  intros Lr HE Ht He E Hi. assert (HP : points dim [r]) by (split; [discriminate|constructor; [assumption|constructor]]). rewrite weighting_raw in E by assumption. set (cs := boolsel active centers) in *.
  assert (NE : raw t ex [r] cs <> []) by (unfold raw; apply map_nonempty; intros C; rewrite C in Hi; cbn in Hi; lia). pose proof (raw_pos t ex [r] cs (proj1 HP)) as PP. destruct (normalize_ok _ NE PP) as [PM EN]. rewrite EN in E. injection E as <-.
  assert (LR : length (raw t ex [r] cs) = length cs) by apply map_length. destruct (vmax_greatest _ NE) as [HIn HM]. destruct (In_nth _ _ 0 HIn) as (j & Hj & Ej). rewrite LR in Hj. exists j. split; [assumption|].
  pose proof (Rinv_0_lt_compat _ PM) as PI. split.
  - intros k Hk. rewrite !nth_div by (rewrite LR; assumption). unfold Rdiv. apply Rmult_le_compat_r; [lra|]. rewrite Ej. apply HM, nth_In. rewrite LR. assumption.
  - rewrite nth_div by (rewrite LR; assumption). rewrite <- Ej, !nth_raw by assumption.
    assert (S1 : forall c, sqrt (total t ex [r] c) = Rpower (dist c r + t) (- ex)).
    { intros c. unfold total. cbn. rewrite Rplus_0_r. pose proof (dist_nonneg c r). rewrite <- Rpower_sqrt by apply exp_pos. rewrite Rpower_mult. f_equal. field. }
    rewrite !S1. unfold dist. rewrite !dist_sq. set (a := sqrt (sqdist (nth i cs []) r)). set (b := sqrt (sqdist (nth j cs []) r)). assert (0 <= a) by apply sqrt_pos. assert (0 <= b) by apply sqrt_pos.
    unfold Rdiv, Rpower. rewrite ln_mult, ln_Rinv by (try apply Rinv_0_lt_compat; lra). rewrite <- exp_Ropp, <- exp_plus. f_equal. ring.
Qed.
Lemma c48_rejects dim centers hmin refs active ex thr e opts : dim <> 1%nat -> ~ Forall (fun p : vec => length p = dim) refs ->
  distance_weighting dim centers hmin refs active ex thr e opts = Err ValueError.
Proof.
  intros HD HN. unfold distance_weighting. destruct (Nat.eqb_spec dim 1); [contradiction|]. destruct (forallb (fun r => Nat.eqb (length r) dim) refs) eqn:E; [|reflexivity].
  exfalso. apply HN. apply Forall_forall. intros p Hp. rewrite forallb_forall in E. apply Nat.eqb_eq, E, Hp.
Qed.
