From Coq Require Import Reals Lra Lia.
From Verif Require Import Py Vec VecDeriv RichardsFacts Scaling ScalingFacts MultiTarget SpecMultiTarget.
Local Open Scope R_scope.

Lemma times_ok n a b : (length a = n /\ fits n b) \/ (length b = n /\ fits n a) -> exists t, times a b = Ok t /\ length t = n /\ forall i, (i < n)%nat -> nth i t 0 = entry_of a i * entry_of b i.
Proof.
  intros H. unfold times.
  assert (EQ : length a = length b -> length a = n -> exists t, (if Nat.eqb (length a) (length b) then Ok (vmul a b) else if Nat.eqb (length a) 1 then Ok (vscale (nth 0 a 0) b) else if Nat.eqb (length b) 1 then Ok (vscale (nth 0 b 0) a) else Err ValueError) = Ok t /\ length t = n /\ forall i, (i < n)%nat -> nth i t 0 = entry_of a i * entry_of b i).
  { intros E En. rewrite E, Nat.eqb_refl. exists (vmul a b). split; [reflexivity|]. split; [apply ln_mul; congruence|]. intros i Hi. rewrite (nM n) by congruence. unfold entry_of.
    assert (G : forall v : vec, length v = n -> nth i v 0 = match v with [x] => x | _ => nth i v 0 end) by (intros v Lv; destruct v as [|x [|y v]]; try reflexivity; cbn in Lv; assert (i = O) by lia; subst i; reflexivity).
    rewrite <- (G a En), <- (G b) by congruence. reflexivity. }
  destruct (Nat.eq_dec (length a) (length b)) as [E|NE].
  - apply EQ; [exact E|]. destruct H as [[H _]|[H _]]; congruence.
  - clear EQ. destruct (Nat.eqb_spec (length a) (length b)); [congruence|]. destruct H as [[Ha [Hb|Hb]]|[Hb [Ha|Ha]]]; try congruence.
    + destruct (Nat.eqb_spec (length a) 1); [congruence|]. rewrite Hb, Nat.eqb_refl. destruct b as [|y [|z b]]; try discriminate. eexists. split; [reflexivity|]. split; [rewrite vscale_length; exact Ha|]. intros i Hi. rewrite nth_vscale. cbn [nth entry_of]. unfold entry_of. destruct a as [|x [|x' a]]; cbn [length] in *; try lia; try congruence. ring.
    + rewrite Ha, Nat.eqb_refl. destruct a as [|y [|z a]]; try discriminate. eexists. split; [reflexivity|]. split; [rewrite vscale_length; exact Hb|]. intros i Hi. rewrite nth_vscale. cbn [nth]. unfold entry_of. destruct b as [|x [|x' b]]; cbn [length] in *; try lia; try congruence; ring.
Qed.
Lemma hits_nth dm t i : length dm = length t -> (i < length dm)%nat -> nth i (hits dm t) false = ltb (nth i dm 0) (nth i t 0).
Proof.
  intros L Hi. unfold hits. rewrite (nth_indep _ false ((fun p : R * R => ltb (fst p) (snd p)) (0, 0))) by (rewrite map_length, combine_length; lia). rewrite (map_nth (fun p : R * R => ltb (fst p) (snd p))). rewrite combine_nth by exact L. reflexivity.
Qed.
Lemma hits_all dm t : length dm = length t -> (forallb (fun b => b) (hits dm t) = true <-> forall i, (i < length dm)%nat -> nth i dm 0 < nth i t 0).
Proof.
  intros L. rewrite forallb_forall. assert (LH : length (hits dm t) = length dm) by (unfold hits; rewrite map_length, combine_length; lia). split.
  - intros H i Hi. apply ltb_true. rewrite <- (hits_nth dm t i L Hi). apply H. apply nth_In. lia.
  - intros H b Hb. destruct (In_nth _ _ false Hb) as (i & Hi & <-). rewrite LH in Hi. rewrite (hits_nth dm t i L Hi). apply ltb_true. apply H. exact Hi.
Qed.
Definition static (g : ground) (o : options) (st : mtm) : Prop := k_trig st = match g_pgi g with NoPgi => if g_two g then o_trig o else false | _ => o_trig o end /\ k_w st = o_w o /\ k_theta st = o_theta o /\ k_tol st = o_tol o.
Definition inv (g : ground) (o : options) (w : wish) (st : mtm) : Prop :=
  static g o st /\ k_chi st = s_chi w /\ (k_star st = s_star w \/ (s_star w = None /\ k_star st = Some (g_nD g))) /\
  (match s_over w with Some t => k_dmt st = Some t | None => match k_dmt st with None => True | Some t => times (s_chi w) (star_of g w) = Ok t end end) /\
  k_chiS st = s_chiS w /\ (k_ms st = s_ms w \/ (s_ms w = None /\ k_ms st = Some (INR (g_nP g)))) /\
  (match s_overC w with Some t => k_clt st = Some t | None => match k_clt st with None => True | Some t => t = small_wanted g w end end).
Lemma inv_flags g o w st a b c dm h s : inv g o w st -> inv g o w (with_flags st a b c dm h s).
Proof. intros H. exact H. Qed.
Lemma inv_assign g o w st a : inv g o w st -> inv g o (wish_step w a) (set_to st a).
Proof.
  intros (S & H1 & H2 & H3 & H4 & H5 & H6). destruct a; unfold inv, set_to, wish_step, with_targets, with_small, static, star_of, small_wanted in *;
    cbn [k_chi k_star k_dmt k_trig k_chiS k_ms k_clt k_w k_theta k_tol s_chi s_star s_over s_chiS s_ms s_overC] in *; (split; [exact S|]); repeat (split; [first [exact H1|exact H2|exact H3|exact H4|exact H5|exact Logic.I|reflexivity|left; reflexivity]|]); first [exact H6|exact Logic.I|reflexivity].
Qed.
Lemma star_val g w st : (k_star st = s_star w \/ (s_star w = None /\ k_star st = Some (g_nD g))) -> match k_star st with Some v => v | None => g_nD g end = star_of g w.
Proof. unfold star_of. intros [-> |[E ->]]; [reflexivity|]. rewrite E. reflexivity. Qed.
Lemma inv_target g o w st : inv g o w st -> inv g o w (fst (dm_target g st)) /\ (forall n, sized g w n -> exists t, dm_target g st = (fst (dm_target g st), Ok t) /\ length t = n /\ forall i, (i < n)%nat -> nth i t 0 = wanted g w i).
Proof.
  intros I. pose proof I as (S & H1 & H2 & H3 & H4 & H5 & H6). unfold dm_target. destruct (k_dmt st) as [t|] eqn:E.
  - split; [exact I|]. intros n SZ. exists t. split; [reflexivity|]. unfold sized, wanted in *. destruct (s_over w) as [t'|].
    + assert (t' = t) by congruence. subst t'. auto.
    + destruct (times_ok n _ _ SZ) as (t2 & E2 & L2 & N2). assert (t2 = t) by congruence. subst t2. auto.
  - assert (OV : s_over w = None) by (destruct (s_over w); [discriminate|reflexivity]). rewrite (star_val g w st H2). cbn [with_targets k_chi]. rewrite H1.
    assert (SO : Some (star_of g w) = s_star w \/ (s_star w = None /\ Some (star_of g w) = Some (g_nD g))) by (unfold star_of; destruct (s_star w); auto).
    split.
    + destruct (times (s_chi w) (star_of g w)) as [t|e] eqn:ET; cbn [fst]; unfold inv, with_targets, static; cbn [k_chi k_star k_dmt k_trig k_chiS k_ms k_clt k_w k_theta k_tol]; rewrite OV; (split; [exact S|]); split; [reflexivity| |reflexivity|]; (split; [exact SO|]); (split; [first [exact ET|exact Logic.I]|]); auto.
    + intros n SZ. unfold sized, wanted in *. rewrite OV in *. destruct (times_ok n _ _ SZ) as (t & ET & L & N). rewrite ET. cbn [fst]. exists t. auto.
Qed.
Lemma inv_cl g o w st : inv g o w st -> inv g o w (fst (cl_target g st)) /\ (g_pgi g <> Exact -> exists st', cl_target g st = (st', Ok (small_wanted g w))).
Proof.
  intros I. pose proof I as (S & H1 & H2 & H3 & H4 & H5 & H6). unfold cl_target.
  assert (MS : match k_ms st with Some x => x | None => INR (g_nP g) end = match s_ms w with Some x => x | None => INR (g_nP g) end) by (destruct H5 as [-> |[E ->]]; [reflexivity|rewrite E; reflexivity]).
  assert (G : forall q, match g_pgi g with Exact => q | _ => True end -> True) by auto.
  assert (C : inv g o w (fst (match k_clt st with Some t => (st, Ok t) | None => (with_small st (k_chiS st) (Some (match k_ms st with Some x => x | None => INR (g_nP g) end)) (Some (k_chiS st * match k_ms st with Some x => x | None => INR (g_nP g) end)), Ok (k_chiS st * match k_ms st with Some x => x | None => INR (g_nP g) end)) end)) /\
    exists st', match k_clt st with Some t => (st, Ok t) | None => (with_small st (k_chiS st) (Some (match k_ms st with Some x => x | None => INR (g_nP g) end)) (Some (k_chiS st * match k_ms st with Some x => x | None => INR (g_nP g) end)), Ok (k_chiS st * match k_ms st with Some x => x | None => INR (g_nP g) end)) end = (st', Ok (small_wanted g w))).
  { destruct (k_clt st) as [t|] eqn:E.
    - split; [exact I|]. exists st. do 2 f_equal. unfold small_wanted in *. destruct (s_overC w); congruence.
    - assert (OV : s_overC w = None) by (destruct (s_overC w); [discriminate|reflexivity]). rewrite MS, H4. split.
      + cbn [fst]. unfold inv, with_small, static; cbn [k_chi k_star k_dmt k_trig k_chiS k_ms k_clt k_w k_theta k_tol]. rewrite OV. split; [exact S|]. split; [exact H1|]. split; [exact H2|]. split; [exact H3|]. split; [reflexivity|]. split; [destruct (s_ms w); auto|]. unfold small_wanted. rewrite OV. reflexivity.
      + eexists. unfold small_wanted. rewrite OV. reflexivity. }
  destruct C as [C1 C2]. destruct (g_pgi g); [split; [exact C1|intros _; exact C2]|split; [exact C1|intros _; exact C2]|split; [exact I|congruence]].
Qed.
Lemma inv_end g o w st x : inv g o w st -> inv g o w (fst (end_iter g st x)).
Proof.
  intros I. unfold end_iter. apply (inv_flags g o w st false true true (Some (a_dm x)) (k_hit st) (k_stop st)) in I. apply inv_target in I. destruct I as [I _]. destruct (dm_target g _) as [st1 [t|e]]; cbn [fst] in *; [|exact I].
  set (st2 := with_flags st1 (forallb (fun b => b) (hits (a_dm x) t)) true true (k_dm st1) (Some (hits (a_dm x) t)) (k_stop st1)). assert (I2 : inv g o w st2) by exact I.
  set (small := if (k_trig st2 && has_pgi g)%bool then _ else _). assert (IS : inv g o w (fst small)).
  { unfold small. destruct (k_trig st2 && has_pgi g)%bool; [|exact I2]. apply inv_cl in I2. destruct I2 as [I2 _]. destruct (cl_target g st2) as [st3 [c|e]]; exact I2. }
  destruct small as [st3 [u|e]]; cbn [fst] in *; [|exact IS]. destruct (k_theta st3 && (g_two g || negb (has_pgi g)))%bool; [exact IS|]. cbn [fst]. apply inv_flags. destruct (k_theta st3); exact IS.
Qed.
Lemma inv_run g o h : forall w st, inv g o w st -> inv g o (wishes w h) (fold_left (happen g) h st).
Proof. unfold wishes. induction h as [|e h IH]; intros w st I; [exact I|]. cbn [fold_left]. apply IH. destruct e as [a|x]; cbn [happen]; [apply inv_assign|apply inv_end]; exact I. Qed.
Lemma inv_start g o w x : s_over w = None -> s_overC w = None -> inv g o w (started g o w x).
Proof.
  intros O1 O2. unfold started, initialize, new_mtm, inv, static. rewrite O1, O2. cbn. destruct (g_pgi g); [destruct (g_two g)|..]; cbn; auto 10.
Qed.
Lemma normal_one g st W : normal g st W = 1.
Proof. unfold normal, tilde. destruct (k_w st); reflexivity. Qed.
Lemma bool_iff_and (a b c : bool) : (a && b && c)%bool = true <-> a = true /\ b = true /\ c = true.
Proof. destruct a, b, c; cbn; intuition discriminate. Qed.
Lemma end_ok g o w st x : inv g o w st -> askable g o -> sized g w (length (a_dm x)) ->
  exists st', end_iter g st x = (st', Ok tt) /\ (k_stop st' = true <-> k_stop st = true \/ reached g o w x) /\ (k_DM st' = true <-> fitted g w (a_dm x)) /\ k_dm st' = Some (a_dm x).
Proof.
  intros I [AS AT] SZ. unfold end_iter. set (st0 := with_flags st false true true (Some (a_dm x)) (k_hit st) (k_stop st)). assert (I0 : inv g o w st0) by exact I.
  assert (KS0 : k_stop st0 = k_stop st) by reflexivity. assert (KD0 : k_dm st0 = Some (a_dm x)) by reflexivity. clearbody st0.
  destruct (inv_target g o w st0 I0) as [I1 T]. destruct (T _ SZ) as (t & ET & LT & NT). set (st1 := fst (dm_target g st0)) in *. assert (KS1 : k_stop st1 = k_stop st0 /\ k_dm st1 = k_dm st0) by (unfold st1, dm_target; destruct (k_dmt st0); [split; reflexivity|]; destruct (times _ _); split; reflexivity). destruct KS1 as [KS1 KD1]. rewrite ET. clear ET T I0. clearbody st1.
  assert (FT : forallb (fun b => b) (hits (a_dm x) t) = true <-> fitted g w (a_dm x)). { rewrite hits_all by congruence. unfold fitted. split; intros H i Hi; specialize (H i Hi); rewrite NT in * by exact Hi; exact H. }
  set (dmf := forallb (fun b => b) (hits (a_dm x) t)) in *. set (st2 := with_flags st1 dmf true true (k_dm st1) (Some (hits (a_dm x) t)) (k_stop st1)). assert (I2 : inv g o w st2) by exact I1.
  set (small := if (k_trig st2 && has_pgi g)%bool then _ else _).
  assert (SM : exists st3, small = (st3, Ok tt) /\ inv g o w st3 /\ k_stop st3 = k_stop st /\ k_DM st3 = dmf /\ k_DP st3 = true /\ k_dm st3 = Some (a_dm x) /\ (k_CL st3 = true <-> (o_trig o = true -> g_pgi g <> NoPgi -> a_ms x (o_w o) <= small_wanted g w))).
  { unfold small. pose proof I2 as ((TR & KW & _) & _). destruct (k_trig st2 && has_pgi g)%bool eqn:EB.
    - apply andb_prop in EB. destruct EB as [E1 E2]. assert (NP : g_pgi g <> NoPgi) by (unfold has_pgi in E2; destruct (g_pgi g); congruence). assert (OT : o_trig o = true) by (rewrite E1 in TR; destruct (g_pgi g); [congruence|congruence|congruence]).
      destruct (inv_cl g o w st2 I2) as [I3 C]. destruct (C (AS OT)) as (st3 & E3). rewrite E3 in *. cbn [fst] in I3. eexists. split; [reflexivity|]. split; [exact I3|].
      assert (P3 : k_stop st3 = k_stop st2 /\ k_DM st3 = k_DM st2 /\ k_dm st3 = k_dm st2 /\ k_w st3 = k_w st2). { unfold cl_target in E3. destruct (g_pgi g); [|destruct (k_clt st2); injection E3 as <- _; auto|discriminate]. congruence. }
      destruct P3 as (P1 & P2 & P3 & P4). cbn [with_flags k_stop k_DM k_DP k_CL k_dm]. split; [rewrite P1; cbn; congruence|]. split; [rewrite P2; reflexivity|]. split; [reflexivity|]. split; [rewrite P3; cbn; congruence|].
      unfold phims. rewrite normal_one, P4, KW. unfold Rdiv; rewrite Rinv_1, Rmult_1_r. unfold ltb. destruct (Rlt_dec (small_wanted g w) (a_ms x (o_w o))) as [L|L]; cbn [negb]; (split; [intros H|intros H]).
      + discriminate.
      + exfalso. specialize (H OT NP). lra.
      + intros _ _. lra.
      + reflexivity.
    - exists st2. split; [reflexivity|]. split; [exact I2|]. split; [cbn; congruence|]. split; [reflexivity|]. split; [reflexivity|]. split; [cbn; congruence|]. cbn [with_flags k_CL st2]. split; [|reflexivity]. intros _ OT NP. exfalso. unfold has_pgi in EB. rewrite TR, OT in EB. destruct (g_pgi g); [congruence|discriminate|discriminate]. }
  clearbody small. destruct SM as (st3 & -> & I3 & KS3 & KDM3 & KDP3 & KD3 & KCL3). pose proof I3 as ((_ & _ & TH & TO) & _).
  assert (ETH : (k_theta st3 && (g_two g || negb (has_pgi g)))%bool = false). { rewrite TH. destruct (o_theta o) eqn:EO; [|reflexivity]. destruct (AT eq_refl) as [-> NP]. unfold has_pgi. destruct (g_pgi g); [congruence|reflexivity|reflexivity]. }
  rewrite ETH. set (st4 := if k_theta st3 then _ else st3).
  assert (P4 : k_stop st4 = k_stop st /\ k_DM st4 = dmf /\ k_CL st4 = k_CL st3 /\ k_dm st4 = Some (a_dm x) /\ (k_DP st4 = true <-> (o_theta o = true -> a_theta x <= o_tol o))).
  { unfold st4. rewrite TH. destruct (o_theta o) eqn:EO.
    - cbn [with_flags k_stop k_DM k_CL k_DP k_dm]. repeat (split; [assumption || reflexivity|]). rewrite TO. unfold ltb. destruct (Rlt_dec (o_tol o) (a_theta x)); cbn [negb]; split; intros H; try reflexivity; try discriminate; [specialize (H eq_refl); lra|intros _; lra].
    - repeat (split; [assumption || reflexivity|]). split; [intros _ Q; discriminate|intros _; exact KDP3]. }
  clearbody st4. destruct P4 as (Q1 & Q2 & Q3 & Q4 & Q5). eexists. split; [reflexivity|]. cbn [with_flags k_stop k_DM k_dm]. split; [|split; [rewrite Q2; exact FT|exact Q4]].
  rewrite Q1, orb_true_iff, bool_iff_and, Q2, Q3, FT, KCL3, Q5. unfold reached. reflexivity.
Qed.
Lemma c90_stop g o w h x0 x : s_over w = None -> s_overC w = None -> askable g o -> sized g (wishes w h) (length (a_dm x)) ->
  let st := fold_left (happen g) h (started g o w x0) in
  exists st', end_iter g st x = (st', Ok tt) /\ (k_stop st' = true <-> k_stop st = true \/ reached g o (wishes w h) x) /\ (k_DM st' = true <-> fitted g (wishes w h) (a_dm x)) /\ k_dm st' = Some (a_dm x).
Proof. intros O1 O2 A SZ. cbv zeta. apply (end_ok g o (wishes w h)); [apply inv_run, inv_start; assumption|exact A|exact SZ]. Qed.
