From Coq Require Import Reals Lra Lia.
From Verif Require Import Py Vec VecDeriv EmpirFacts Scaling ScalingFacts Vrm SpecVrm VrmFacts.
Local Open Scope R_scope.

Lemma on_ons x : ons x -> on x = true. Proof. intros H. apply ltb_true. exact H. Qed.
Lemma on_off x : off x -> on x = false. Proof. intros H. unfold on, ltb. unfold off in H. destruct (Rlt_dec _ _); [lra|reflexivity]. Qed.
Lemma first_skip lead x l : Forall off lead -> ons x -> first_on (lead ++ x :: l) = Some (length lead).
Proof. induction 1 as [|y lead H F IH]; intros O; cbn; [rewrite on_ons by exact O; reflexivity|]. rewrite on_off by exact H. rewrite IH by exact O. reflexivity. Qed.
Lemma first_none l : Forall off l -> first_on l = None.
Proof. induction 1 as [|y l H F IH]; cbn; [reflexivity|]. rewrite on_off by exact H. rewrite IH. reflexivity. Qed.
Lemma last_none l : Forall off l -> last_on l = None.
Proof. induction 1 as [|y l H F IH]; cbn; [reflexivity|]. rewrite IH, on_off by exact H. reflexivity. Qed.
Lemma last_skip l x rest : ons x -> Forall off rest -> last_on (l ++ x :: rest) = Some (length l).
Proof. intros O F. induction l as [|y l IH]; cbn; [rewrite last_none, on_ons by assumption; reflexivity|]. rewrite IH. reflexivity. Qed.
Lemma window_val {A} (lead : list A) p core rest : window (S (length lead)) (length lead + length core) (lead ++ p :: core ++ rest) = p :: core ++ firstn 1 rest.
Proof.
  unfold window. replace (length lead + length core + 2)%nat with (length (lead ++ p :: core) + 1)%nat by (rewrite app_length; cbn; lia). change (p :: core ++ rest) with ((p :: core) ++ rest). rewrite app_assoc, firstn_app_2, <- app_assoc. rewrite skipn_app, skipn_all, Nat.sub_diag. reflexivity.
Qed.
Lemma core_ends core : core <> [] -> exists a l, core = a :: l /\ hd 0 core = a. Proof. destruct core as [|a l]; [congruence|]. intros _. exists a, l. auto. Qed.
Lemma shape_on lead p core rest : shape lead p core rest -> first_on (lead ++ p :: core ++ rest) = Some (S (length lead)) /\ last_on (lead ++ p :: core ++ rest) = Some (length lead + length core)%nat.
Proof.
  intros (F & P & NE & H & L & FR). split.
  - destruct (core_ends core NE) as (a & l & E & E2). rewrite E2 in H. subst core. change (lead ++ p :: (a :: l) ++ rest) with (lead ++ [p] ++ (a :: l) ++ rest). rewrite app_assoc. cbn [app]. rewrite first_skip; [rewrite app_length; cbn; f_equal; lia| |exact H]. apply Forall_app. split; [exact F|constructor; [exact P|constructor]].
  - pose proof (app_removelast_last 0 NE) as E. rewrite E. replace (lead ++ p :: (removelast core ++ [last core 0]) ++ rest) with ((lead ++ p :: removelast core) ++ last core 0 :: rest) by (rewrite <- !app_assoc; cbn; rewrite <- ?app_assoc; reflexivity). rewrite last_skip by assumption. rewrite !app_length. cbn. f_equal. lia.
Qed.
Lemma maxabs_ub l x : In x l -> Rabs x <= maxabs l.
Proof. induction l as [|y l IH]; [intros []|]. intros [<-|H]; cbn [maxabs fold_right]; [apply Rmax_l|]. eapply Rle_trans; [apply IH, H|apply Rmax_r]. Qed.
Lemma maxabs_in l : l <> [] -> exists x, In x l /\ Rabs x = maxabs l.
Proof.
  induction l as [|y l IH]; [congruence|]. intros _. cbn [maxabs fold_right]. fold (maxabs l). destruct l as [|z l].
  - exists y. split; [left; reflexivity|]. cbn. rewrite Rmax_left; [reflexivity|apply Rabs_pos].
  - destruct (IH ltac:(discriminate)) as (x & Hx & E). unfold Rmax. destruct (Rle_dec _ _); [exists x; split; [right; exact Hx|exact E]|exists y; split; [left; reflexivity|reflexivity]].
Qed.
Lemma peak_window lead p core rest : shape lead p core rest -> peak (p :: core ++ firstn 1 rest) (maxabs (p :: core ++ firstn 1 rest)).
Proof.
  intros (F & P & NE & H & L & FR). split; [|split; [intros x Hx; apply maxabs_ub, Hx|apply maxabs_in; discriminate]].
  destruct (core_ends core NE) as (a & l & E & E2). rewrite E2 in H. eapply Rlt_le_trans; [|apply (maxabs_ub _ a); right; subst core; left; reflexivity]. unfold ons in H. rewrite Rabs_pos_eq; [|pose proof (Rinv_0_lt_compat 10000000000 ltac:(lra)); lra]. pose proof (Rinv_0_lt_compat 10000000000 ltac:(lra)). lra.
Qed.
Lemma no_overlap tw times : tw <> [] -> times <> [] -> later tw times -> overlap tw times = false.
Proof.
  intros N1 N2 H. unfold overlap. destruct tw as [|a tw]; [congruence|]. destruct times as [|t times]; [congruence|]. apply Bool.not_true_iff_false. intros E. apply existsb_exists in E. destruct E as (b & Hb & E). rewrite early_false in E; [discriminate|discriminate|]. apply Forall_forall. intros u Hu. pose proof (proj1 (Forall_forall _ _) H u Hu) as A. exact (proj1 (Forall_forall _ _) A b Hb).
Qed.
Definition term_of (f : ftype) : R -> R -> R -> R -> R := if is_rate f then seg_dh else seg_h.
Lemma piece_val tl tp tc tr lead p core rest f times : shape lead p core rest -> timed tl tc tr lead core rest -> times <> [] -> later (tl ++ tp :: tc ++ tr) times ->
  piece_decay (tl ++ tp :: tc ++ tr) (lead ++ p :: core ++ rest) f times =
  Ok (map (fun t => (if is_b f then mu0 else 1) * seg_sum (term_of f) (tp :: tc ++ firstn 1 tr) (scaled (maxabs (p :: core ++ firstn 1 rest)) (p :: core ++ firstn 1 rest)) t) times).
Proof.
  intros SH (L1 & L2 & L3) NE LT. unfold piece_decay. assert (W : wave_ok (tl ++ tp :: tc ++ tr) (lead ++ p :: core ++ rest) = true) by (apply Nat.eqb_eq; rewrite !app_length; cbn; rewrite !app_length; lia). rewrite W. cbn [negb]. rewrite no_overlap; [|destruct tl; discriminate|exact NE|exact LT]. destruct (shape_on _ _ _ _ SH) as [E1 E2]. rewrite E1, E2. rewrite window_val. rewrite <- L1, <- L2, window_val. cbv zeta. f_equal. unfold term_of, scaled. destruct (is_b f); [rewrite map_map; reflexivity|]. apply map_ext. intros t. ring.
Qed.
Lemma increasing_r a b : increasing (a ++ b) -> increasing b.
Proof. induction a as [|x a IH]; [auto|]. intros H. apply IH. cbn [app increasing] in H. destruct (a ++ b); [exact Logic.I|apply H]. Qed.
Lemma increasing_l a b : increasing (a ++ b) -> increasing a.
Proof. induction a as [|x a IH]; [intros; exact Logic.I|]. intros H. destruct a as [|y a]; [exact Logic.I|]. cbn [app increasing] in *. destruct H as [H1 H2]. split; [exact H1|]. apply IH, H2. Qed.
Lemma window_times (tl : vec) tp tc tr : tl ++ tp :: tc ++ tr = tl ++ (tp :: tc ++ firstn 1 tr) ++ skipn 1 tr.
Proof. change ((tp :: tc ++ firstn 1 tr) ++ skipn 1 tr) with (tp :: (tc ++ firstn 1 tr) ++ skipn 1 tr). rewrite <- app_assoc, firstn_skipn. reflexivity. Qed.
Lemma window_ok tl tp tc tr lead p core rest t : timed tl tc tr lead core rest -> increasing (tl ++ tp :: tc ++ tr) -> after (tl ++ tp :: tc ++ tr) t ->
  increasing (tp :: tc ++ firstn 1 tr) /\ after (tp :: tc ++ firstn 1 tr) t /\ (forall M, length (tp :: tc ++ firstn 1 tr) = length (scaled M (p :: core ++ firstn 1 rest))).
Proof.
  intros (L1 & L2 & L3) I A. rewrite window_times in I, A. split; [apply increasing_r in I; apply increasing_l in I; exact I|]. split; [apply Forall_app in A; destruct A as [_ A]; apply Forall_app in A; apply A|]. intros M. unfold scaled. rewrite map_length. change (tp :: tc ++ firstn 1 tr) with ([tp] ++ tc ++ firstn 1 tr). change (p :: core ++ firstn 1 rest) with ([p] ++ core ++ firstn 1 rest). rewrite !app_length, !firstn_length. cbn [length]. lia.
Qed.
Lemma c91_memory tl tp tc tr lead p core rest times : shape lead p core rest -> timed tl tc tr lead core rest -> increasing (tl ++ tp :: tc ++ tr) -> times <> [] -> later (tl ++ tp :: tc ++ tr) times ->
  exists M l, peak (p :: core ++ firstn 1 rest) M /\ piece_decay (tl ++ tp :: tc ++ tr) (lead ++ p :: core ++ rest) FH times = Ok l /\
    Forall2 (fun t v => memory t (tp :: tc ++ firstn 1 tr) (scaled M (p :: core ++ firstn 1 rest)) v) times l.
Proof.
  intros SH TM I NE LT. exists (maxabs (p :: core ++ firstn 1 rest)). eexists. split; [exact (peak_window _ _ _ _ SH)|]. split; [apply piece_val; assumption|]. cbn [is_b]. change (term_of FH) with seg_h. clear NE. induction times as [|t times IH]; cbn [map]; constructor; [|apply IH; exact (Forall_inv_tail LT)]. rewrite Rmult_1_l. destruct (window_ok tl tp tc tr lead p core rest t TM I (Forall_inv LT)) as (W1 & W2 & W3). apply sum_memory; [apply W3|discriminate|exact W1|exact W2].
Qed.
Lemma last_scaled M g : last (scaled M g) 0 = last g 0 / M.
Proof. unfold scaled. induction g as [|x g IH]; [cbn; unfold Rdiv; ring|]. destruct g as [|y g]; [reflexivity|]. change (last (map (fun x => x / M) (x :: y :: g)) 0) with (last (map (fun x => x / M) (y :: g)) 0). rewrite IH. reflexivity. Qed.
Lemma c91_rates tl tp tc tr lead p core rest : shape lead p core rest -> timed tl tc tr lead core rest -> increasing (tl ++ tp :: tc ++ tr) ->
  exists M eta eta', peak (p :: core ++ firstn 1 rest) M /\
    (forall times, times <> [] -> later (tl ++ tp :: tc ++ tr) times -> piece_decay (tl ++ tp :: tc ++ tr) (lead ++ p :: core ++ rest) FH times = Ok (map eta times) /\ piece_decay (tl ++ tp :: tc ++ tr) (lead ++ p :: core ++ rest) FDH times = Ok (map eta' times)) /\
    forall t, after (tl ++ tp :: tc ++ tr) t -> derivable_pt_lim eta t (eta' t - 2 * (last (p :: core ++ firstn 1 rest) 0 / M / (t - last (tp :: tc ++ firstn 1 tr) 0) - p / M / (t - tp))).
Proof.
  intros SH TM I. set (M := maxabs (p :: core ++ firstn 1 rest)). set (g := scaled M (p :: core ++ firstn 1 rest)). exists M, (seg_sum seg_h (tp :: tc ++ firstn 1 tr) g), (seg_sum seg_dh (tp :: tc ++ firstn 1 tr) g). split; [exact (peak_window _ _ _ _ SH)|]. split.
  - intros times NE LT. split; (rewrite piece_val by assumption; f_equal; apply map_ext; intros t; cbn [is_b]; unfold term_of; cbn [is_rate]; apply Rmult_1_l).
  - intros t A. destruct (window_ok tl tp tc tr lead p core rest t TM I A) as (W1 & W2 & W3). eapply dpl_eq; [|apply sum_deriv; [apply W3|discriminate|exact W1|exact W2]]. unfold g. rewrite last_scaled. reflexivity.
Qed.
Lemma c91_fields tw iw times l : (piece_decay tw iw FH times = Ok l -> piece_decay tw iw FB times = Ok (map (fun x => mu0 * x) l)) /\ (piece_decay tw iw FDH times = Ok l -> piece_decay tw iw FDB times = Ok (map (fun x => mu0 * x) l)).
Proof.
  unfold piece_decay. destruct (negb _); [split; discriminate|]. destruct (overlap _ _); [split; discriminate|]. destruct (first_on iw); [|split; discriminate]. destruct (last_on iw); [|split; discriminate]. destruct (window n n0 iw); [split; discriminate|]. cbn [is_b is_rate]. cbv zeta. split; intros H; assert (E : forall a b : vec, Ok a = Ok b -> a = b) by (intros a b X; congruence); apply E in H; subst l; reflexivity.
Qed.
Lemma c91_tail tl tp tc tr tt lead p core q rest it f times : shape lead p core (q :: rest) -> timed tl tc tr lead core (q :: rest) -> length tt = length it -> Forall off it -> times <> [] -> later (tl ++ tp :: tc ++ tr ++ tt) times ->
  piece_decay (tl ++ tp :: tc ++ tr ++ tt) (lead ++ p :: core ++ (q :: rest) ++ it) f times = piece_decay (tl ++ tp :: tc ++ tr) (lead ++ p :: core ++ q :: rest) f times.
Proof.
  intros SH TM LT F NE LA. destruct SH as (F1 & P & NC & H & L & FR). destruct TM as (L1 & L2 & L3).
  assert (LA' : later (tl ++ tp :: tc ++ tr) times). { eapply Forall_impl; [|exact LA]. intros t A. unfold after in *. replace (tl ++ tp :: tc ++ tr ++ tt) with ((tl ++ tp :: tc ++ tr) ++ tt) in A by (rewrite <- app_assoc; cbn; rewrite <- ?app_assoc; reflexivity). apply Forall_app in A. apply A. }
  rewrite (piece_val tl tp tc (tr ++ tt) lead p core ((q :: rest) ++ it)); [|split; [exact F1|]; split; [exact P|]; split; [exact NC|]; split; [exact H|]; split; [exact L|apply Forall_app; split; assumption]|split; [exact L1|]; split; [exact L2|]; rewrite !app_length; cbn in *; lia|exact NE|exact LA].
  rewrite (piece_val tl tp tc tr lead p core (q :: rest)); [|unfold shape; tauto|unfold timed; tauto|exact NE|exact LA']. destruct tr as [|u tr]; [discriminate|]. reflexivity.
Qed.
Lemma c91_none tw iw f times : length tw = length iw -> tw <> [] -> times <> [] -> later tw times -> Forall off iw -> piece_decay tw iw f times = Err IndexError.
Proof. intros L N1 N2 LT F. unfold piece_decay, wave_ok. rewrite L, Nat.eqb_refl. cbn [negb]. rewrite no_overlap by assumption. rewrite first_none by exact F. reflexivity. Qed.
Lemma skip_last {A} (l : list A) : l <> [] -> exists x, skipn (length l - 1) l = [x].
Proof. intros NE. destruct (exists_last NE) as (l' & x & ->). exists x. rewrite app_length, Nat.add_sub, skipn_app, skipn_all, Nat.sub_diag. reflexivity. Qed.
Lemma c91_start tw core rest f times : length tw = length (core ++ rest) -> core <> [] -> ons (hd 0 core) -> ons (last core 0) -> Forall off rest -> times <> [] -> later tw times ->
  piece_decay tw (core ++ rest) f times = match rest with [] | [_] => Ok (map (fun _ => 0) times) | _ => Err ValueError end.
Proof.
  intros L NE H ON F NT LT. assert (NW : tw <> []) by (destruct core; [congruence|]; intros ->; discriminate). unfold piece_decay, wave_ok. rewrite L, Nat.eqb_refl. cbn [negb]. rewrite no_overlap by assumption.
  assert (E1 : first_on (core ++ rest) = Some 0%nat) by (destruct (core_ends core NE) as (a & l & -> & E2); cbn in *; rewrite on_ons by exact H; reflexivity).
  assert (E2 : last_on (core ++ rest) = Some (length core - 1)%nat). { rewrite (app_removelast_last 0 NE) at 1. rewrite <- app_assoc. cbn [app]. rewrite last_skip by assumption. f_equal. rewrite (app_removelast_last 0 NE) at 2. rewrite app_length. cbn. lia. }
  rewrite E1, E2. assert (LC : (0 < length core)%nat) by (destruct core; [congruence|cbn; lia]). unfold window. replace (length core - 1 + 2)%nat with (length core + 1)%nat by lia.
  assert (Z : (length rest <= 1)%nat -> match skipn (length (core ++ rest) - 1) (firstn (length core + 1) (core ++ rest)) with [] => Err ValueError | _ => let tv := skipn (length tw - 1) (firstn (length core + 1) tw) in let g := map (fun x => x / maxabs (skipn (length (core ++ rest) - 1) (firstn (length core + 1) (core ++ rest)))) (skipn (length (core ++ rest) - 1) (firstn (length core + 1) (core ++ rest))) in let eta := map (seg_sum (if is_rate f then seg_dh else seg_h) tv g) times in Ok (if is_b f then map (fun x => mu0 * x) eta else eta) end = Ok (map (fun _ => 0) times)).
  { intros LR. rewrite (firstn_all2 (core ++ rest)) by (rewrite app_length; lia). rewrite (firstn_all2 tw) by (rewrite L, app_length; lia). destruct (skip_last (core ++ rest)) as (x & ->); [destruct core; [congruence|discriminate]|]. destruct (skip_last tw NW) as (y & ->). cbv zeta. cbn [map]. f_equal.
    assert (S0 : map (seg_sum (if is_rate f then seg_dh else seg_h) [y] [x / maxabs [x]]) times = map (fun _ => 0) times) by (apply map_ext; intros t; reflexivity). rewrite S0. destruct (is_b f); [|reflexivity]. rewrite map_map. apply map_ext. intros t. ring. }
  destruct rest as [|a [|b rest]]; [apply Z; cbn; lia|apply Z; cbn; lia|]. rewrite skipn_all2; [reflexivity|]. rewrite firstn_length, app_length. cbn [length]. lia.
Qed.
