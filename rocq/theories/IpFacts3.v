From Verif Require Import Py Vec VecDeriv Frechet Joint Richards RichardsFacts RichardsFacts2 RichardsFacts3 LinSimFacts SolveDeriv Dc SpecDc DcFacts DcFacts2 DcFacts3 DcFacts4 Ip SpecIp IpFacts IpFacts2 EmpirFacts Dc1dFacts5.
From Coq Require Import Reals Lra Lia.
Local Open Scope R_scope.

(** ** Data of all receivers, one by one *)
Lemma per_datum_app w1 w2 a1 a2 c1 c2 : length w1 = length a1 -> length a1 = length c1 -> per_datum (w1 ++ w2) (a1 ++ a2) (c1 ++ c2) = per_datum w1 a1 c1 ++ per_datum w2 a2 c2.
Proof. intros H1 H2. unfold per_datum. rewrite (combine_app' a1) by exact H2. rewrite combine_app' by (rewrite combine_length; lia). apply map_app. Qed.
Lemma vmul_app a1 a2 c1 c2 : length a1 = length c1 -> vmul (a1 ++ a2) (c1 ++ c2) = vmul a1 c1 ++ vmul a2 c2.
Proof. revert c1. induction a1 as [|x a1 IH]; intros [|y c1] L; try discriminate; [reflexivity|]. cbn. f_equal. apply IH. cbn in L. lia. Qed.
Lemma per_datum_piece (c : bool) (r : receiver) x y : length x = nD r -> length y = nD r ->
  per_datum (map (fun _ => c) (r_m r)) x y = vmul (if c then map Rinv y else vconst (nD r) 1) x.
Proof.
  unfold nD. revert x y. induction (r_m r) as [|k l IH]; intros [|a x] [|d y] L1 L2; try discriminate; [destruct c; reflexivity|].
  cbn in L1, L2. specialize (IH x y ltac:(lia) ltac:(lia)). unfold per_datum in *. cbn [map combine fst snd]. rewrite IH. destruct c; cbn; f_equal; unfold Rdiv; ring.
Qed.
Lemma per_datum_loop (ch : receiver -> bool) (G1 G2 : source -> receiver -> vec) l :
  (forall src r, In src l -> In r (s_rx src) -> length (G1 src r) = nD r) -> (forall src r, In src l -> In r (s_rx src) -> length (G2 src r) = nD r) ->
  per_datum (loop (fun _ r => map (fun _ => ch r) (r_m r)) l) (loop G1 l) (loop G2 l) =
  vmul (loop (fun src r => if ch r then map Rinv (G2 src r) else vconst (nD r) 1) l) (loop G1 l).
Proof.
  unfold loop. induction l as [|x l IH]; intros H1 H2; [reflexivity|]. cbn [map concat].
  assert (Q : forall rs, incl rs (s_rx x) -> length (concat (map (fun r => map (fun _ : nat => ch r) (r_m r)) rs)) = length (concat (map (G1 x) rs)) /\ length (concat (map (G1 x) rs)) = length (concat (map (G2 x) rs)) /\
     length (concat (map (fun r => if ch r then map Rinv (G2 x r) else vconst (nD r) 1) rs)) = length (concat (map (G1 x) rs)) /\
     per_datum (concat (map (fun r => map (fun _ : nat => ch r) (r_m r)) rs)) (concat (map (G1 x) rs)) (concat (map (G2 x) rs)) = vmul (concat (map (fun r => if ch r then map Rinv (G2 x r) else vconst (nD r) 1) rs)) (concat (map (G1 x) rs))).
  { induction rs as [|r rs IHr]; intros I; [repeat split|]. cbn [map concat]. destruct (IHr ltac:(intros y Hy; apply I; right; exact Hy)) as (Q1 & Q2 & Q3 & Q4).
    assert (Hr : In r (s_rx x)) by (apply I; left; reflexivity). pose proof (H1 x r (or_introl eq_refl) Hr) as L1. pose proof (H2 x r (or_introl eq_refl) Hr) as L2.
    assert (L3 : length (if ch r then map Rinv (G2 x r) else vconst (nD r) 1) = nD r) by (destruct (ch r); [rewrite map_length; exact L2|unfold vconst; apply repeat_length]).
    split; [|split; [|split]]; rewrite ?app_length, ?map_length; rewrite ?L1, ?L2, ?L3; try (first [lia | unfold nD; lia]).
    rewrite per_datum_app, vmul_app by (rewrite ?map_length; first [lia | unfold nD in *; lia]). rewrite Q4. f_equal. apply per_datum_piece; assumption. }
  destruct (Q (s_rx x) (fun _ h => h)) as (Q1 & Q2 & Q3 & Q4). rewrite per_datum_app, vmul_app by assumption. rewrite Q4. f_equal. apply IH; intros; [apply H1|apply H2]; auto; right; assumption.
Qed.
Lemma per_datum_none n x y : length x = n -> length y = n -> per_datum (repeat false n) x y = x.
Proof. revert x y. induction n as [|n IH]; intros [|a x] [|d y] L1 L2; try discriminate; [reflexivity|]. unfold per_datum in *. cbn. f_equal. apply IH; cbn in *; lia. Qed.
Lemma loop_const {A} (c : A) l : loop (fun _ r => map (fun _ => c) (r_m r)) l = repeat c (survey_nD l).
Proof.
  unfold loop, survey_nD. induction l as [|x l IH]; [reflexivity|]. cbn [map concat]. change (list_sum (?a :: ?b)) with (a + list_sum b)%nat. rewrite repeat_app, IH. f_equal. clear IH. induction (s_rx x) as [|r rs IH]; [reflexivity|]. cbn [map concat].
  change (list_sum (?a :: ?b)) with (a + list_sum b)%nat. rewrite repeat_app, IH. f_equal. unfold nD. clear. induction (r_m r); [reflexivity|]. cbn. f_equal. assumption.
Qed.
Lemma loop_ext {A} (G G' : source -> receiver -> list A) l : (forall src r, In src l -> In r (s_rx src) -> G src r = G' src r) -> loop G l = loop G' l.
Proof. intros H. unfold loop. f_equal. apply map_ext_in. intros src Hs. f_equal. apply map_ext_in. auto. Qed.

(** ** The derivative of the lowered property *)
Lemma mv_scaled form prop E v : mv (deta_scaled form prop E) v = map (fun ce => (match form with Nodal => - fst ce | Cell => fst ce end) * snd ce) (combine prop (mv E v)).
Proof. unfold mv, deta_scaled. rewrite map_map. revert E. induction prop as [|x prop IH]; intros [|r E]; try reflexivity. cbn [combine map fst snd]. f_equal; [rewrite dot_vscale_l; reflexivity|apply IH]. Qed.
Lemma lowered_zero form prop eta : length eta = length prop -> (forall x, In x eta -> x = 0) -> lowered form prop eta = prop.
Proof.
  unfold lowered. revert eta. induction prop as [|x prop IH]; intros [|y eta] L Z; try discriminate; [reflexivity|]. cbn. rewrite (Z y) by (left; reflexivity). f_equal.
  - destruct form; field.
  - apply IH; [cbn in L; lia|]. intros; apply Z; right; assumption.
Qed.
Lemma lowered_length form prop eta : length (lowered form prop eta) = Nat.min (length prop) (length eta).
Proof. unfold lowered. rewrite map_length, combine_length. reflexivity. Qed.
Lemma nth_lowered form prop eta i : (i < length prop)%nat -> (i < length eta)%nat -> nth i (lowered form prop eta) 0 = match form with Nodal => nth i prop 0 * (1 - nth i eta 0) | Cell => nth i prop 0 / (1 - nth i eta 0) end.
Proof.
  intros H1 H2. unfold lowered. rewrite (nth_indep _ 0 ((fun ph => match form with Nodal => fst ph * (1 - snd ph) | Cell => fst ph / (1 - snd ph) end) (0, 0))) by (rewrite map_length, combine_length; lia).
  rewrite (map_nth (fun ph => match form with Nodal => fst ph * (1 - snd ph) | Cell => fst ph / (1 - snd ph) end)). revert eta i H1 H2. induction prop as [|x prop IH]; intros [|y eta] [|i] H1 H2; cbn in *; try lia; [reflexivity|]. apply IH; lia.
Qed.
Lemma mv_zero E n : (forall r, In r E -> length r = n) -> forall x, In x (mv E (vzero n)) -> x = 0.
Proof. intros H x Hx. unfold mv in Hx. apply in_map_iff in Hx. destruct Hx as (r & <- & Hr). apply dot_zero_r. Qed.
Lemma lowered_jac form nc p E prop : is_mat nc p E -> length prop = nc -> has_jacobian p nc (fun m => lowered form prop (mv E m)) (vzero p) (mv (deta_scaled form prop E)).
Proof.
  intros HE Lp v Lv. pose proof (proj1 HE) as LE. assert (Le : forall t, length (mv E (vadd (vzero p) (vscale t v))) = nc) by (intros; unfold mv; rewrite map_length; exact LE).
  split; [intros t; rewrite lowered_length, Le; lia|]. split; [rewrite mv_scaled, map_length, combine_length; unfold mv; rewrite map_length; lia|].
  intros i Hi. set (e := nth i (mv E v) 0).
  assert (EN : forall t, nth i (mv E (vadd (vzero p) (vscale t v))) 0 = t * e).
  { intros t. destruct (lin_mv _ _ _ HE) as (_ & L2 & L3). rewrite L2 by ln. rewrite L3 by exact Lv. assert (length (mv E (vzero p)) = nc) by (unfold mv; rewrite map_length; exact LE). assert (length (mv E v) = nc) by (unfold mv; rewrite map_length; exact LE).
    rewrite (nA nc) by (ln). rewrite nth_vscale. assert (Z : nth i (mv E (vzero p)) 0 = 0). { apply (mv_zero E p); [intros r Hr; destruct HE as [_ F]; rewrite Forall_forall in F; auto|]. apply nth_In. lia. } rewrite Z. fold e. ring. }
  assert (ED : nth i (mv (deta_scaled form prop E) v) 0 = (match form with Nodal => - nth i prop 0 | Cell => nth i prop 0 end) * e).
  { rewrite mv_scaled. rewrite (nth_indep _ 0 ((fun ce => (match form with Nodal => - fst ce | Cell => fst ce end) * snd ce) (0, 0))) by (rewrite map_length, combine_length; unfold mv; rewrite map_length; lia).
    rewrite (map_nth (fun ce => (match form with Nodal => - fst ce | Cell => fst ce end) * snd ce)). rewrite combine_nth by (unfold mv; rewrite map_length; lia). reflexivity. }
  rewrite ED. destruct form.
  - apply (dpl_ext (fun t => nth i prop 0 * (1 - t * e))). { intros t. rewrite nth_lowered by (rewrite ?Le; lia). rewrite EN. reflexivity. }
    replace (- nth i prop 0 * e) with (nth i prop 0 * (0 - (1 * e + 0 * 0))) by ring. apply dpl_scal. apply derivable_pt_lim_minus; [apply derivable_pt_lim_const|].
    replace (1 * e + 0 * 0) with (1 * e + 0 * 0) by ring. apply (derivable_pt_lim_mult (fun t => t) (fun _ => e) 0 1 0 (derivable_pt_lim_id 0) (derivable_pt_lim_const e 0)).
  - apply (dpl_ext (fun t => nth i prop 0 / (1 - t * e))). { intros t. rewrite nth_lowered by (rewrite ?Le; lia). rewrite EN. reflexivity. }
    apply (dpl_eq _ _ ((0 * (1 - 0 * e) - nth i prop 0 * (0 - (1 * e + 0 * 0))) / (1 - 0 * e) ^ 2)); [|apply (dpl_div (fun _ => nth i prop 0) (fun t => 1 - t * e) 0 0 (0 - (1 * e + 0 * 0))); [apply derivable_pt_lim_const|apply derivable_pt_lim_minus; [apply derivable_pt_lim_const|apply (derivable_pt_lim_mult (fun t => t) (fun _ => e) 0 1 0 (derivable_pt_lim_id 0) (derivable_pt_lim_const e 0))]|]].
    + field.
    + lra.
Qed.
