From Coq Require Import Reals Lra Lia.
From Verif Require Import Py Vec VecDeriv RichardsFacts Scaling ScalingFacts MultiTarget SpecMultiTarget MultiTargetFacts MultiTargetFacts2.
Local Open Scope R_scope.

Lemma ltb_t a b : a < b -> ltb a b = true. Proof. apply ltb_true. Qed.
Lemma ltb_f a b : b <= a -> ltb a b = false. Proof. unfold ltb. destruct (Rlt_dec a b); [lra|reflexivity]. Qed.
Lemma c90_truncated g o w x0 x u v c s : askable g o -> o_trig o = false -> o_theta o = false -> s_over w = None -> s_chi w = [c] -> s_star w = Some [s] -> a_dm x = [u; v] -> u < c * s -> c * s <= v ->
  exists st', end_iter g (started g o w x0) x = (st', Ok tt) /\ k_stop st' = true.
Proof.
  intros A OT OH OV EC ES EX H1 H2. destruct g as [nD p two nP], o as [ow ot oh otol], w as [wc ws wo wcS wm wC], x as [dm ms W th]. cbn [o_trig o_theta s_over s_chi s_star a_dm] in *. subst ot oh wo wc ws dm.
  pose proof (ltb_t u (c * s) H1) as E. clear A H1 H2. destruct p; [destruct two|..]; (eexists; split; [cbn -[ltb Rmult]; reflexivity|cbn -[ltb Rmult]; rewrite E; reflexivity]).
Qed.
Lemma c90_exact g o w h x0 x : s_over w = None -> s_overC w = None -> g_pgi g = Exact -> o_trig o = true -> sized g (wishes w h) (length (a_dm x)) -> snd (end_iter g (fold_left (happen g) h (started g o w x0)) x) = Err TypeError.
Proof.
  intros O1 O2 EX OT SZ. pose proof (inv_run g o h _ _ (inv_start g o w x0 O1 O2)) as I. set (st := fold_left _ h _) in *. clearbody st. unfold end_iter.
  set (st0 := with_flags st false true true (Some (a_dm x)) (k_hit st) (k_stop st)). assert (I0 : inv g o (wishes w h) st0) by exact I. clearbody st0. destruct (inv_target g o _ st0 I0) as [I1 T]. destruct (T _ SZ) as (t & ET & LT & NT). set (st1 := fst (dm_target g st0)) in *. rewrite ET. clearbody st1. pose proof I1 as ((TR & _) & _). rewrite EX in TR.
  cbn [with_flags k_trig]. rewrite TR, OT. unfold has_pgi, cl_target. rewrite EX. reflexivity.
Qed.
Lemma c90_theta g o w h x0 x : s_over w = None -> s_overC w = None -> g_pgi g <> Exact -> o_theta o = true -> (g_two g = true \/ g_pgi g = NoPgi) -> sized g (wishes w h) (length (a_dm x)) ->
  snd (end_iter g (fold_left (happen g) h (started g o w x0)) x) = Err AttributeError.
Proof.
  intros O1 O2 NX OT SUM SZ. pose proof (inv_run g o h _ _ (inv_start g o w x0 O1 O2)) as I. set (st := fold_left _ h _) in *. clearbody st. unfold end_iter.
  set (st0 := with_flags st false true true (Some (a_dm x)) (k_hit st) (k_stop st)). assert (I0 : inv g o (wishes w h) st0) by exact I. clearbody st0. destruct (inv_target g o _ st0 I0) as [I1 T]. destruct (T _ SZ) as (t & ET & LT & NT). set (st1 := fst (dm_target g st0)) in *. rewrite ET. clearbody st1.
  set (st2 := with_flags st1 _ true true (k_dm st1) (Some (hits (a_dm x) t)) (k_stop st1)). assert (I2 : inv g o (wishes w h) st2) by exact I1. clearbody st2. set (small := if (k_trig st2 && has_pgi g)%bool then _ else _).
  assert (SM : exists st3, small = (st3, Ok tt) /\ inv g o (wishes w h) st3).
  { unfold small. destruct (k_trig st2 && has_pgi g)%bool; [|exists st2; auto]. destruct (inv_cl g o _ st2 I2) as [I3 C]. destruct (C NX) as (st3 & E3). rewrite E3 in *. eexists. split; [reflexivity|]. exact I3. }
  clearbody small. destruct SM as (st3 & -> & I3). pose proof I3 as ((_ & _ & TH & _) & _). rewrite TH, OT.
  assert (E : (g_two g || negb (has_pgi g))%bool = true) by (unfold has_pgi; destruct SUM as [-> | ->]; [reflexivity|apply orb_true_r]). rewrite E. reflexivity.
Qed.
Lemma c90_order w chi star trig chiS ms theta tol mode beta alpha : s_init (new_mtm w chi star trig chiS ms theta tol) mode beta alpha = Err AttributeError.
Proof. reflexivity. Qed.
(** A tolerance of one: a misfit of 15 for a target of 10 still cools beta. *)
Lemma c90_tolerance : let c := mkSconf 1 (1 / 10) 2 1 10 (1 / 10) 1 false in let st := mkS 1 [15] 1 1 in sane c /\ nth 0 [15] 0 <= (1 + c_tol c) * nth 0 [10] 0 /\ b_beta (step c 1 [15] [10] st) = 1 / 2.
Proof.
  cbv zeta. assert (SA : sane (mkSconf 1 (1 / 10) 2 1 10 (1 / 10) 1 false)) by (unfold sane; cbn; lra). split; [exact SA|]. split; [cbn; lra|].
  destruct (first_mode (mkSconf 1 (1 / 10) 2 1 10 (1 / 10) 1 false) 1 [15] [10] (mkS 1 [15] 1 1)) as (_ & F & _); try reflexivity; [split; [lia|reflexivity]|intros H; specialize (H O ltac:(cbn; lia)); cbn in H; lra|].
  rewrite F; [|split; [|cbn; lra]].
  - destruct (cool_spec (mkSconf 1 (1 / 10) 2 1 10 (1 / 10) 1 false) [15] [10] 1 SA) as (_ & _ & E); [repeat constructor; lra|repeat constructor; lra|lra|]. exact (E eq_refl).
  - intros i Hi _. cbn in Hi. assert (i = O) by lia. subst i. cbn. lra.
Qed.
(** Whatever the weights, the normalization is one. *)
Lemma c90_norm g st x : phims g st x = a_ms x (k_w st).
Proof. unfold phims. rewrite normal_one. field. Qed.
