(** The kernel of layered DC resistivity. *)
From Verif Require Import Py Vec VecDeriv Dc1d SpecDc1d Mt1dFacts4.
From Coq Require Import Lra Lia.
Local Open Scope R_scope.

Lemma cosh_pos x : 0 < cosh x.
Proof. unfold cosh. pose proof (exp_pos x). pose proof (exp_pos (- x)). lra. Qed.
Lemma tanh_eq x : tanh x * cosh x = sinh x.
Proof. unfold tanh. field. pose proof (cosh_pos x). lra. Qed.
Lemma sinh_nonneg x : 0 <= x -> 0 <= sinh x.
Proof. intros H. unfold sinh. assert (exp (- x) <= exp x); [|lra]. destruct (Req_dec x 0) as [->|]; [rewrite Ropp_0; lra|]. left. apply exp_increasing. lra. Qed.
Lemma sinh_lt_cosh x : sinh x < cosh x.
Proof. unfold sinh, cosh. pose proof (exp_pos (- x)). lra. Qed.
Lemma tanh_range x : 0 <= x -> 0 <= tanh x < 1.
Proof.
  intros H. pose proof (cosh_pos x). unfold tanh. split.
  - apply Rmult_le_pos; [apply sinh_nonneg; exact H|left; apply Rinv_0_lt_compat; exact H0].
  - apply Rmult_lt_reg_r with (cosh x); [exact H0|]. unfold Rdiv. rewrite Rmult_assoc, Rinv_l by lra. pose proof (sinh_lt_cosh x). lra.
Qed.
Lemma cosh2 x : cosh x * cosh x - sinh x * sinh x = 1.
Proof.
  unfold cosh, sinh. assert (exp x * exp (- x) = 1) by (rewrite <- exp_plus, Rplus_opp_r; apply exp_0).
  transitivity (exp x * exp (- x)); [field|exact H].
Qed.
Lemma sinh_add a b : sinh (a + b) = sinh a * cosh b + cosh a * sinh b.
Proof. unfold sinh, cosh. rewrite Ropp_plus_distr, !exp_plus. field. Qed.
Lemma cosh_add a b : cosh (a + b) = cosh a * cosh b + sinh a * sinh b.
Proof. unfold sinh, cosh. rewrite Ropp_plus_distr, !exp_plus. field. Qed.

Lemma phi_pos lam ls rb : 0 <= lam -> 0 < rb -> Forall (fun l => 0 < fst l /\ 0 <= snd l) ls -> 0 < phi lam ls rb.
Proof.
  intros Hl Hb. induction 1 as [|[r h] ls [Hr Hh] _ IH]; cbn; [exact Hb|]. cbn in Hr, Hh.
  pose proof (tanh_range (lam * h) ltac:(now apply Rmult_le_pos)) as [T0 T1]. unfold top_, bot_; cbn.
  set (t := phi lam ls rb) in *. set (th := tanh (lam * h)) in *.
  assert (0 <= t * th / r). { unfold Rdiv. apply Rmult_le_pos; [apply Rmult_le_pos; lra|left; now apply Rinv_0_lt_compat]. }
  apply Rdiv_lt_0_compat; [|lra]. pose proof (Rmult_le_pos r th ltac:(lra) T0). lra.
Qed.
Lemma bot_pos lam r h t : 0 <= lam -> 0 < r -> 0 <= h -> 0 < t -> 0 < bot_ lam (r, h) t.
Proof.
  intros. unfold bot_; cbn. pose proof (tanh_range (lam * h) ltac:(now apply Rmult_le_pos)) as [T0 T1].
  assert (0 <= t * tanh (lam * h) / r). { unfold Rdiv. apply Rmult_le_pos; [apply Rmult_le_pos; lra|left; now apply Rinv_0_lt_compat]. } lra.
Qed.
(** In hyperbolic functions. *)
Lemma step_ch lam r h t : 0 <= lam -> 0 < r -> 0 <= h -> 0 < t ->
  0 < cosh (lam * h) + t / r * sinh (lam * h) /\
  top_ lam (r, h) t / bot_ lam (r, h) t = (t * cosh (lam * h) + r * sinh (lam * h)) / (cosh (lam * h) + t / r * sinh (lam * h)).
Proof.
  intros. pose proof (bot_pos lam r h t) as B. specialize (B H H0 H1 H2). unfold top_, bot_ in *; cbn in *.
  pose proof (tanh_eq (lam * h)) as E. pose proof (cosh_pos (lam * h)) as C. rewrite <- E.
  replace (cosh (lam * h) + t / r * (tanh (lam * h) * cosh (lam * h))) with (cosh (lam * h) * (1 + t * tanh (lam * h) / r)) by (field; lra).
  split; [now apply Rmult_lt_0_compat|]. field. repeat split; try lra.
  intro K. assert (E2 : 1 + t * tanh (lam * h) / r = (r + t * tanh (lam * h)) / r) by (field; lra). rewrite E2, K in B. unfold Rdiv in B. lra.
Qed.

(** ** Range *)
Lemma phi_range lam ls rb lo hi : 0 <= lam -> 0 < lo -> lo <= rb <= hi -> Forall (fun l => lo <= fst l <= hi /\ 0 <= snd l) ls ->
  lo <= phi lam ls rb <= hi.
Proof.
  intros Hl H0 Hb. induction 1 as [|[r h] ls [Hr Hh] Hls IH]; [exact Hb|]. cbn in Hr, Hh. cbn [phi].
  set (t := phi lam ls rb) in *.
  pose proof (bot_pos lam r h t Hl ltac:(lra) Hh ltac:(lra)) as B.
  pose proof (tanh_range (lam * h) ltac:(now apply Rmult_le_pos)) as [T0 T1].
  unfold top_, bot_ in *; cbn in *. set (th := tanh (lam * h)) in *.
  assert (A : forall x, 0 < x -> (x <= r /\ x <= t -> x <= (t + r * th) / (1 + t * th / r)) /\ (r <= x /\ t <= x -> (t + r * th) / (1 + t * th / r) <= x)).
  { intros x Hx. set (y := (t + r * th) / (1 + t * th / r)).
    assert (E : (y - x) * (1 + t * th / r) = (t - x) + th * (r - x * (t / r))) by (unfold y; field; split; [lra|]; intro K; assert (1 + t * th / r = (r + t * th) / r) as E by (field; lra); rewrite E, K in B; unfold Rdiv in B; lra).
    assert (Et : 0 < t / r) by (apply Rdiv_lt_0_compat; lra).
    assert (Er : t / r * r = t) by (field; lra).
    split; intros [X1 X2].
    - apply Rnot_lt_le. intro K. assert (K2 : (y - x) * (1 + t * th / r) < 0) by nra. rewrite E in K2.
      (* (t-x) + th (r - x t/r) >= (t-x)(1 - ...) *)
      assert (r - x * (t / r) >= - (t - x)). { assert (x * (t / r) <= t). { rewrite <- Er at 2. rewrite (Rmult_comm (t / r)). apply Rmult_le_compat_r; lra. } lra. }
      nra.
    - apply Rnot_lt_le. intro K. assert (K2 : 0 < (y - x) * (1 + t * th / r)) by (apply Rmult_lt_0_compat; lra). rewrite E in K2.
      assert (r - x * (t / r) <= - (t - x)). { assert (t <= x * (t / r)). { rewrite <- Er at 1. rewrite (Rmult_comm (t / r)). apply Rmult_le_compat_r; lra. } lra. }
      nra. }
  split; apply A; lra.
Qed.
Lemma phi_uniform lam ls rb : 0 <= lam -> 0 < rb -> Forall (fun l => fst l = rb /\ 0 <= snd l) ls -> phi lam ls rb = rb.
Proof.
  intros. assert (rb <= phi lam ls rb <= rb); [|lra]. apply phi_range; try lra. apply Forall_impl with (2 := H1). cbn. intros a [E F]. split; lra.
Qed.

(** ** Splitting *)
Lemma phi_split lam r h1 h2 ls rb : 0 <= lam -> 0 < r -> 0 <= h1 -> 0 <= h2 -> 0 < rb -> Forall (fun l => 0 < fst l /\ 0 <= snd l) ls ->
  phi lam ((r, h1) :: (r, h2) :: ls) rb = phi lam ((r, h1 + h2) :: ls) rb.
Proof.
  intros Hl Hr H1 H2 Hb Hls. assert (Ht := phi_pos lam ls rb Hl Hb Hls).
  pose proof (phi_pos lam ((r, h2) :: ls) rb Hl Hb ltac:(constructor; [cbn; lra|exact Hls])) as Ht2. cbn [phi] in *.
  set (t := phi lam ls rb) in *.
  destruct (step_ch lam r h2 t Hl Hr H2 Ht) as [P2 E2]. rewrite E2 in *. clear E2.
  destruct (step_ch lam r (h1 + h2) t Hl Hr ltac:(lra) Ht) as [P3 E3]. rewrite E3. clear E3.
  destruct (step_ch lam r h1 _ Hl Hr H1 Ht2) as [P1 E1]. rewrite E1. clear E1.
  rewrite Rmult_plus_distr_l, sinh_add, cosh_add in *.
  set (c1 := cosh (lam * h1)) in *. set (s1 := sinh (lam * h1)) in *. set (c2 := cosh (lam * h2)) in *. set (s2 := sinh (lam * h2)) in *.
  assert (N2 : r * c2 + t * s2 <> 0). { intro K. assert (c2 + t / r * s2 = (r * c2 + t * s2) / r) as E by (field; lra). rewrite E, K in P2. unfold Rdiv in P2. lra. }
  assert (N3 : r * (c1 * c2 + s1 * s2) + t * (s1 * c2 + c1 * s2) <> 0).
  { intro K. assert (c1 * c2 + s1 * s2 + t / r * (s1 * c2 + c1 * s2) = (r * (c1 * c2 + s1 * s2) + t * (s1 * c2 + c1 * s2)) / r) as E by (field; lra). rewrite E, K in P3. unfold Rdiv in P3. lra. }
  field. repeat split; try lra; try assumption.
Qed.
Lemma phi_app lam a b rb : phi lam (a ++ b) rb = phi lam a (phi lam b rb).
Proof. induction a as [|l a IH]; [reflexivity|]. cbn. now rewrite IH. Qed.

(** ** Physics *)
Lemma dpl_exp_lin a x : derivable_pt_lim (fun d => exp (a * d)) x (a * exp (a * x)).
Proof.
  eapply dpl_eq; [|apply (dpl_comp (fun s => a * s) exp); [apply dpl_scal; apply dpl_id|apply derivable_pt_lim_exp]]. cbn. ring.
Qed.
Lemma ode1 (u : R -> R) a : (forall d, derivable_pt_lim u d (a * u d)) -> forall d, u d = exp (a * d) * u 0.
Proof.
  intros H d.
  assert (D : forall t, derivable_pt_lim (fun s => exp (- a * s) * u s) t 0).
  { intros t. eapply dpl_eq; [|apply dpl_mult; [apply dpl_exp_lin|apply H]]. cbn. ring. }
  pose proof (const_of_deriv _ D d) as K. cbn beta in K. rewrite Rmult_0_r, exp_0, Rmult_1_l in K. rewrite <- K, <- Rmult_assoc, <- exp_plus.
  replace (a * d + - a * d) with 0 by ring. rewrite exp_0. ring.
Qed.
Section Layer.
  Variables lam rho : R.
  Hypothesis Hl : 0 < lam.
  Hypothesis Hr : 0 < rho.
  Variables u j : R -> R.
  Hypothesis HO : ohm lam rho u j.
  Lemma down d : u d + rho / lam * j d = exp (- lam * d) * (u 0 + rho / lam * j 0).
  Proof.
    apply (ode1 (fun d => u d + rho / lam * j d)). intros x. destruct (HO x) as [A B].
    eapply dpl_eq; [|apply dpl_plus; [exact A|apply dpl_mult; [apply dpl_const|exact B]]]. cbn. field. lra.
  Qed.
  Lemma up d : u d - rho / lam * j d = exp (lam * d) * (u 0 - rho / lam * j 0).
  Proof.
    apply (ode1 (fun d => u d - rho / lam * j d)). intros x. destruct (HO x) as [A B].
    eapply dpl_eq; [|apply dpl_minus; [exact A|apply dpl_mult; [apply dpl_const|exact B]]]. cbn. field. lra.
  Qed.
  Lemma across h : u 0 = cosh (lam * h) * u h + sinh (lam * h) * (rho / lam) * j h /\
                   rho / lam * j 0 = sinh (lam * h) * u h + cosh (lam * h) * (rho / lam) * j h.
  Proof.
    pose proof (down h) as D. pose proof (up h) as U.
    assert (E : exp (lam * h) * exp (- lam * h) = 1) by (rewrite <- exp_plus; replace (lam * h + - lam * h) with 0 by ring; apply exp_0).
    assert (D2 : u 0 + rho / lam * j 0 = exp (lam * h) * (u h + rho / lam * j h)) by (rewrite D, <- Rmult_assoc, E; ring).
    assert (U2 : u 0 - rho / lam * j 0 = exp (- lam * h) * (u h - rho / lam * j h)) by (rewrite U, <- Rmult_assoc, (Rmult_comm (exp (- lam * h))), E; ring).
    unfold cosh, sinh. replace (- (lam * h)) with (- lam * h) by ring. split.
    - transitivity ((u 0 + rho / lam * j 0 + (u 0 - rho / lam * j 0)) / 2); [field; lra|]. rewrite D2, U2. field. lra.
    - transitivity ((u 0 + rho / lam * j 0 - (u 0 - rho / lam * j 0)) / 2); [field; lra|]. rewrite D2, U2. field. lra.
  Qed.
  Lemma bounded_bottom : (exists B, forall d, 0 <= d -> Rabs (u d) <= B /\ Rabs (j d) <= B) -> lam * u 0 = rho * j 0.
  Proof.
    intros (B & HB). set (w := u 0 - rho / lam * j 0).
    assert (K : w = 0).
    { destruct (Req_dec w 0) as [|N]; [assumption|exfalso].
      assert (W : 0 < Rabs w) by (now apply Rabs_pos_lt).
      set (C := B + rho / lam * B).
      assert (HC : forall d, 0 <= d -> exp (lam * d) * Rabs w <= C).
      { intros d Hd. destruct (HB d Hd) as [B1 B2]. pose proof (up d) as U. fold w in U.
        rewrite <- (Rabs_pos_eq (exp (lam * d))) by (left; apply exp_pos). rewrite <- Rabs_mult, <- U.
        eapply Rle_trans; [apply Rabs_triang|]. rewrite Rabs_Ropp, Rabs_mult. unfold C. apply Rplus_le_compat; [exact B1|].
        assert (0 < rho / lam) by (apply Rdiv_lt_0_compat; lra). rewrite (Rabs_pos_eq (rho / lam)) by lra. apply Rmult_le_compat_l; lra. }
      assert (B0 : 0 <= C). { apply Rle_trans with (2 := HC 0 (Rle_refl 0)). rewrite Rmult_0_r, exp_0. lra. }
      specialize (HC (C / Rabs w / lam) ltac:(apply Rmult_le_pos; [apply Rmult_le_pos; [exact B0|left; now apply Rinv_0_lt_compat]|left; now apply Rinv_0_lt_compat])).
      replace (lam * (C / Rabs w / lam)) with (C / Rabs w) in HC by (field; lra).
      set (x := C / Rabs w) in *. assert (EC : C = x * Rabs w) by (unfold x; field; lra).
      assert (X : 0 <= x) by (unfold x; apply Rmult_le_pos; [exact B0|left; now apply Rinv_0_lt_compat]).
      assert (exp x <= x) by (apply Rmult_le_reg_r with (Rabs w); [exact W|lra]).
      pose proof (exp_ineq1_le x). lra. }
    unfold w in K. apply Rmult_eq_reg_l with (/ lam); [|apply Rinv_neq_0_compat; lra]. rewrite <- !Rmult_assoc, Rinv_l by lra. unfold Rdiv in K. lra.
  Qed.
End Layer.
Lemma surface_ratio lam ls rb : 0 < lam -> 0 < rb -> Forall (fun l => 0 < fst l /\ 0 <= snd l) ls ->
  forall u0 j0, surface lam ls rb u0 j0 -> lam * u0 = phi lam ls rb * j0.
Proof.
  intros Hl Hb. induction 1 as [|[r h] ls [Hr Hh] Hls IH]; intros u0 j0; cbn [surface].
  - intros (u & j & HO & <- & <- & HB). cbn. apply (bounded_bottom lam rb Hl Hb u j HO HB).
  - cbn in Hr, Hh. intros (u & j & HO & <- & <- & HS). apply IH in HS. cbn [phi].
    pose proof (phi_pos lam ls rb ltac:(lra) Hb Hls) as Ht. set (t := phi lam ls rb) in *.
    destruct (step_ch lam r h t ltac:(lra) Hr Hh Ht) as [P E]. rewrite E.
    destruct (across lam r Hl Hr u j HO h) as [A B].
    assert (U : u h = t / lam * j h) by (apply Rmult_eq_reg_l with lam; [rewrite HS; field; lra|lra]).
    assert (J : j 0 = (cosh (lam * h) + t / r * sinh (lam * h)) * j h).
    { apply Rmult_eq_reg_l with (r / lam); [rewrite B, U; field; lra|]. assert (0 < r / lam) by (apply Rdiv_lt_0_compat; lra). lra. }
    rewrite J, A, U. transitivity ((t * cosh (lam * h) + r * sinh (lam * h)) * j h); [field; lra|].
    set (D := cosh (lam * h) + t / r * sinh (lam * h)) in *. field. lra.
Qed.
Lemma ohm_sol lam rho a b : 0 < lam -> 0 < rho ->
  ohm lam rho (fun d => a * exp (- lam * d) + b * exp (lam * d)) (fun d => lam / rho * (a * exp (- lam * d) - b * exp (lam * d))).
Proof.
  intros Hl Hr d. split.
  - eapply dpl_eq; [|apply dpl_plus; apply dpl_mult; [apply dpl_const|apply dpl_exp_lin|apply dpl_const|apply dpl_exp_lin]]. cbn. field. lra.
  - eapply dpl_eq; [|apply dpl_mult; [apply dpl_const|apply dpl_minus; apply dpl_mult; [apply dpl_const|apply dpl_exp_lin|apply dpl_const|apply dpl_exp_lin]]]. cbn. field. lra.
Qed.
Lemma surface_exists lam ls rb : 0 < lam -> 0 < rb -> Forall (fun l => 0 < fst l /\ 0 <= snd l) ls ->
  exists u0 j0, j0 <> 0 /\ surface lam ls rb u0 j0.
Proof.
  intros Hl Hb HF. induction HF as [|[r h] ls [Hr Hh] Hls IH].
  - exists 1, (lam / rb). split; [assert (0 < lam / rb) by (apply Rdiv_lt_0_compat; lra); lra|].
    exists (fun d => 1 * exp (- lam * d) + 0 * exp (lam * d)), (fun d => lam / rb * (1 * exp (- lam * d) - 0 * exp (lam * d))).
    split; [apply ohm_sol; assumption|]. rewrite !Rmult_0_r, exp_0. split; [ring|]. split; [ring|].
    exists (1 + lam / rb). intros d Hd. assert (0 < lam / rb) by (apply Rdiv_lt_0_compat; lra).
    assert (E : 0 < exp (- lam * d) <= 1). { split; [apply exp_pos|]. rewrite <- exp_0. destruct (Req_dec d 0) as [->|N]; [rewrite Rmult_0_r; lra|]. left. apply exp_increasing. nra. }
    rewrite !Rmult_0_l, Rplus_0_r, Rminus_0_r, !Rmult_1_l. split; rewrite Rabs_pos_eq; try lra; [|apply Rmult_le_pos; lra].
    apply Rle_trans with (lam / rb * 1); [apply Rmult_le_compat_l; lra|lra].
  - cbn in Hr, Hh. destruct IH as (uh & jh & Nj & HS).
    pose proof (surface_ratio lam ls rb Hl Hb Hls _ _ HS) as Rt.
    pose proof (phi_pos lam ls rb ltac:(lra) Hb Hls) as Ht.
    set (a := exp (lam * h) * (uh + r / lam * jh) / 2). set (b := exp (- lam * h) * (uh - r / lam * jh) / 2).
    assert (E : exp (lam * h) * exp (- lam * h) = 1) by (rewrite <- exp_plus; replace (lam * h + - lam * h) with 0 by ring; apply exp_0).
    set (u := fun d => a * exp (- lam * d) + b * exp (lam * d)). set (j := fun d => lam / r * (a * exp (- lam * d) - b * exp (lam * d))).
    assert (HO : ohm lam r u j) by (apply ohm_sol; assumption).
    assert (Eu : u h = uh). { unfold u, a, b. transitivity ((exp (lam * h) * exp (- lam * h)) * uh); [field; lra|rewrite E; ring]. }
    assert (Ej : j h = jh). { unfold j, a, b. transitivity ((exp (lam * h) * exp (- lam * h)) * jh); [field; lra|rewrite E; ring]. }
    exists (u 0), (j 0). split; [|exists u, j; rewrite Eu, Ej; auto].
    destruct (across lam r Hl Hr u j HO h) as [A B]. rewrite Eu, Ej in *.
    intro K. rewrite K, Rmult_0_r in B.
    destruct (step_ch lam r h _ ltac:(lra) Hr Hh Ht) as [P _].
    assert (U : uh = phi lam ls rb / lam * jh) by (apply Rmult_eq_reg_l with lam; [rewrite Rt; field; lra|lra]).
    rewrite U in B. assert (Z : r / lam * ((cosh (lam * h) + phi lam ls rb / r * sinh (lam * h)) * jh) = 0) by (rewrite B; field; lra).
    apply Rmult_integral in Z. destruct Z as [Z|Z]; [assert (0 < r / lam) by (apply Rdiv_lt_0_compat; lra); lra|].
    apply Rmult_integral in Z. destruct Z; lra.
Qed.
