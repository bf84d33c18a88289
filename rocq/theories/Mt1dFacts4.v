(** The impedances are those of Maxwell's equations. *)
From Verif Require Import Py Vec VecDeriv Cx Mt1d SpecMt1d Mt1dFacts Mt1dFacts2.
From Coq Require Import Lra.
Local Open Scope R_scope.

Lemma cexp_add a b : cexp (a +x b) = cexp a *x cexp b.
Proof.
  apply cx_eq; unfold cexp, xadd, xmul, Re, Im; cbn; rewrite exp_plus, ?cos_plus, ?sin_plus; ring.
Qed.
Lemma cexp_0 : cexp x0 = x1.
Proof. apply cx_eq; unfold cexp, x0, x1, Re, Im; cbn; rewrite exp_0, ?cos_0, ?sin_0; ring. Qed.
Lemma cexp_inv a : cexp a *x cexp (xopp a) = x1.
Proof. rewrite <- cexp_add, <- cexp_0. f_equal. ring. Qed.
Lemma cexp_neq a : cexp a <> x0.
Proof.
  intros E. pose proof (cexp_inv a) as H. rewrite E in H.
  assert (x0 = x1) as K by (rewrite <- H; ring). injection K as K. lra.
Qed.
Lemma const_of_deriv (g : R -> R) : (forall d, derivable_pt_lim g d 0) -> forall d, g d = g 0.
Proof.
  intros H d. set (pr := (fun x => exist _ 0 (H x)) : derivable g).
  assert (constant g) as K.
  { apply (null_derivative_1 g pr). intros x. reflexivity. }
  apply K.
Qed.
Lemma cdl_line a t : cdl (fun s => xscale s a) t a.
Proof.
  split; unfold xscale, Re, Im; cbn.
  - eapply dpl_eq; [|apply dpl_mult; [apply dpl_id|apply dpl_const]]. cbn. ring.
  - eapply dpl_eq; [|apply dpl_mult; [apply dpl_id|apply dpl_const]]. cbn. ring.
Qed.
Lemma ode_exp (u : R -> cx) a : (forall d, cdl u d (a *x u d)) -> forall d, u d = cexp (xscale d a) *x u 0.
Proof.
  intros H d.
  assert (D : forall t, cdl (fun s => cexp (xopp (xscale s a)) *x u s) t x0).
  { intros t. eapply cdl_eq; [|apply cdl_mul; [apply cdl_cexp; apply cdl_opp; apply cdl_line|apply H]]. cbn beta. ring. }
  assert (K : cexp (xopp (xscale d a)) *x u d = u 0).
  { transitivity (cexp (xopp (xscale 0 a)) *x u 0).
    - apply cx_eq; [apply (const_of_deriv (fun s => Re (cexp (xopp (xscale s a)) *x u s)))
                   |apply (const_of_deriv (fun s => Im (cexp (xopp (xscale s a)) *x u s)))]; intros t; apply (D t).
    - assert (xopp (xscale 0 a) = x0) as -> by (apply cx_eq; unfold xopp, xscale, x0, Re, Im; cbn; ring).
      rewrite cexp_0. ring. }
  rewrite <- K. transitivity ((cexp (xscale d a) *x cexp (xopp (xscale d a))) *x u d); [|ring].
  rewrite cexp_inv. ring.
Qed.

Lemma nrm2_mul a b : nrm2 (a *x b) = nrm2 a * nrm2 b.
Proof. unfold nrm2, xmul, Re, Im; cbn. ring. Qed.
Lemma nrm2_cexp a : nrm2 (cexp a) = exp (2 * Re a).
Proof.
  unfold nrm2, cexp, Re, Im; cbn. replace (2 * fst a) with (fst a + fst a) by ring. rewrite exp_plus.
  pose proof (sin2_cos2 (snd a)) as H. unfold Rsqr in H. nra.
Qed.
Lemma nrm2_add a b : nrm2 (a +x b) <= 2 * nrm2 a + 2 * nrm2 b.
Proof.
  unfold nrm2, xadd, Re, Im; cbn.
  pose proof (Rle_0_sqr (fst a - fst b)). pose proof (Rle_0_sqr (snd a - snd b)). unfold Rsqr in *. lra.
Qed.

Section M.
  Variables (w mu : R).
  Hypotheses (Hw : 0 < w) (Hmu : 0 < mu).

  Lemma alpha_sq s : 0 < s -> alpha w mu s *x alpha w mu s = xscale (w * mu) xi *x xr s.
  Proof.
    intros Hs. unfold alpha, csqrtI. assert (P : 0 <= w * mu * s / 2) by (assert (0 < w * mu * s) by (apply Rmult_lt_0_compat; nra); lra).
    pose proof (sqrt_sqrt _ P) as Q. apply cx_eq; unfold xmul, xscale, xi, xr, Re, Im; cbn; lra.
  Qed.
  Lemma alpha_pos' s : 0 < s -> 0 < Re (alpha w mu s).
  Proof. intros Hs. unfold alpha, csqrtI, Re. cbn. apply sqrt_lt_R0. assert (0 < w * mu * s) by (apply Rmult_lt_0_compat; nra). lra. Qed.
  Lemma ratio_def s : 0 < s -> ratio w mu s = alpha w mu s /x xr s.
  Proof. intros Hs. unfold ratio. apply xdivr_div. lra. Qed.

  (** The two waves. *)
  Lemma waves s E H : 0 < s -> maxwell w mu s E H ->
    (forall d, E d +x ratio w mu s *x H d = cexp (xscale d (alpha w mu s)) *x (E 0 +x ratio w mu s *x H 0)) /\
    (forall d, E d -x ratio w mu s *x H d = cexp (xscale d (xopp (alpha w mu s))) *x (E 0 -x ratio w mu s *x H 0)).
  Proof.
    intros Hs HM. pose proof (alpha_sq s Hs) as HA. pose proof (ratio_def s Hs) as HR.
    assert (Hsx : xr s <> x0) by (apply xr_neq; lra).
    assert (HI : xscale (w * mu) xi = alpha w mu s *x ratio w mu s).
    { rewrite HR. transitivity ((xscale (w * mu) xi *x xr s) /x xr s); [field; exact Hsx|]. rewrite <- HA. field. exact Hsx. }
    assert (HS : ratio w mu s *x xr s = alpha w mu s) by (rewrite HR; field; exact Hsx).
    split; intros d.
    - apply (ode_exp (fun d => E d +x ratio w mu s *x H d)). intros x. destruct (HM x) as [D1 D2].
      eapply cdl_eq; [|apply cdl_add; [exact D1|apply cdl_mul; [apply cdl_const|exact D2]]]. cbn beta.
      rewrite HI. transitivity (alpha w mu s *x ratio w mu s *x H x +x (ratio w mu s *x xr s) *x E x); [ring|]. rewrite HS. ring.
    - apply (ode_exp (fun d => E d -x ratio w mu s *x H d)). intros x. destruct (HM x) as [D1 D2].
      eapply cdl_eq; [|apply cdl_sub; [exact D1|apply cdl_mul; [apply cdl_const|exact D2]]]. cbn beta.
      rewrite HI. transitivity (alpha w mu s *x ratio w mu s *x H x -x (ratio w mu s *x xr s) *x E x); [ring|]. rewrite HS. ring.
  Qed.

  Lemma bounded_zero c a B : 0 < Re a -> (forall d, 0 <= d -> nrm2 (cexp (xscale d a) *x c) <= B) -> c = x0.
  Proof.
    intros Ha HB. apply nrm2_0.
    assert (N : 0 <= nrm2 c) by (unfold nrm2; nra).
    destruct (Req_dec (nrm2 c) 0) as [E|E]; [exact E|exfalso].
    assert (Pc : 0 < nrm2 c) by lra.
    assert (HB0 : 0 <= B).
    { specialize (HB 0 ltac:(lra)). eapply Rle_trans; [|exact HB]. unfold nrm2. nra. }
    set (d := (B + 1) / (nrm2 c * (2 * Re a))).
    assert (Hd : 0 < d) by (apply Rdiv_lt_0_compat; [lra|apply Rmult_lt_0_compat; lra]).
    specialize (HB d ltac:(lra)). rewrite nrm2_mul, nrm2_cexp in HB.
    assert (Hx : Re (xscale d a) = d * Re a) by reflexivity. rewrite Hx in HB.
    pose proof (exp_ineq1 (2 * (d * Re a)) ltac:(nra)) as X.
    assert (EE : 2 * (d * Re a) * nrm2 c = B + 1) by (unfold d; field; lra).
    nra.
  Qed.

  Lemma bottom_Z s E0 H0 : 0 < s -> surface w mu [] s E0 H0 -> E0 = xopp (ratio w mu s) *x H0.
  Proof.
    intros Hs (E & H & HM & <- & <- & B & HB). destruct (waves s E H Hs HM) as [U _].
    assert (Z : E 0 +x ratio w mu s *x H 0 = x0).
    { apply (bounded_zero _ (alpha w mu s) (2 * B + 2 * (nrm2 (ratio w mu s) * B))); [now apply alpha_pos'|].
      intros d Hd. rewrite <- U. eapply Rle_trans; [apply nrm2_add|]. rewrite nrm2_mul.
      destruct (HB d Hd) as [B1 B2]. assert (0 <= nrm2 (ratio w mu s)) by (unfold nrm2; nra). nra. }
    transitivity ((E 0 +x ratio w mu s *x H 0) -x ratio w mu s *x H 0); [ring|]. rewrite Z. ring.
  Qed.

  (** tanh in terms of the two exponentials *)
  Lemma tnh_exp s t : 0 < s -> 0 < t ->
    tnh w mu s t = (cexp (xscale t (alpha w mu s)) -x cexp (xscale t (xopp (alpha w mu s))))
                /x (cexp (xscale t (alpha w mu s)) +x cexp (xscale t (xopp (alpha w mu s)))) /\
    cexp (xscale t (alpha w mu s)) +x cexp (xscale t (xopp (alpha w mu s))) <> x0.
  Proof.
    intros Hs Ht. pose proof (tnh_arg w mu Hw Hmu s t Hs Ht) as N. unfold tnh, ctanh.
    set (P := cexp (xscale t (alpha w mu s))). set (M := cexp (xscale t (xopp (alpha w mu s)))).
    assert (PM : P *x M = x1).
    { unfold P, M. rewrite <- (cexp_inv (xscale t (alpha w mu s))). do 2 f_equal.
      apply cx_eq; unfold xscale, xopp, Re, Im; cbn; ring. }
    assert (E2 : cexp (xscale 2 (xscale t (alpha w mu s))) = P *x P).
    { unfold P. rewrite <- cexp_add. f_equal. apply cx_eq; unfold xscale, xadd, Re, Im; cbn; ring. }
    rewrite E2 in *.
    assert (HP : P <> x0) by apply cexp_neq.
    assert (HM : M = x1 /x P) by (rewrite <- PM; field; exact HP).
    split.
    - rewrite HM. field. split; [exact HP|]. exact N.
    - rewrite HM. intros K. apply N. transitivity ((P +x x1 /x P) *x P); [field; exact HP|]. rewrite K. ring.
  Qed.

  Theorem surface_Z ls sb : pos_layers ls -> 0 < sb -> forall E0 H0, surface w mu ls sb E0 H0 -> E0 = Ztop w mu ls sb *x H0.
  Proof.
    intros HL Hb. induction ls as [|[s t] ls IH]; intros E0 H0 HS.
    - now apply bottom_Z.
    - inversion HL as [|? ? [Ps Pt] HL']; subst. cbn in Ps, Pt.
      destruct HS as (E & H & HM & <- & <- & HS). specialize (IH HL' _ _ HS).
      destruct (waves s E H Ps HM) as [U V]. specialize (U t). specialize (V t).
      destruct (tnh_exp s t Ps Pt) as [ET NP].
      destruct (good_step w mu Hw Hmu (s, t) (Ztop w mu ls sb) Ps Pt (good_Z w mu Hw Hmu ls sb HL' Hb)) as [NB _].
      assert (EQ : Ztop w mu ((s, t) :: ls) sb = ratio w mu s *x (top_ w mu (s, t) (Ztop w mu ls sb) /x bot_ w mu (s, t) (Ztop w mu ls sb))) by reflexivity.
      rewrite EQ. unfold top_, bot_ in *. cbn [fst snd] in *.
      set (Zn := Ztop w mu ls sb) in *. rewrite IH in U, V.
      pose proof (ratio_neq w mu Hw Hmu s Ps) as Nr. set (r := ratio w mu s) in *.
      set (P := cexp (xscale t (alpha w mu s))) in *. set (M := cexp (xscale t (xopp (alpha w mu s)))) in *.
      assert (PM : P *x M = x1).
      { unfold P, M. rewrite <- (cexp_inv (xscale t (alpha w mu s))). do 2 f_equal.
        apply cx_eq; unfold xscale, xopp, Re, Im; cbn; ring. }
      rewrite ET in *.
      (* E0 + r H0 = M (Zn + r) Ht,  E0 - r H0 = P (Zn - r) Ht *)
      assert (U' : E 0 +x r *x H 0 = M *x ((Zn +x r) *x H t)).
      { transitivity ((P *x M) *x (E 0 +x r *x H 0)); [rewrite PM; ring|].
        transitivity (M *x (P *x (E 0 +x r *x H 0))); [ring|]. rewrite <- U. ring. }
      assert (V' : E 0 -x r *x H 0 = P *x ((Zn -x r) *x H t)).
      { transitivity ((P *x M) *x (E 0 -x r *x H 0)); [rewrite PM; ring|].
        transitivity (P *x (M *x (E 0 -x r *x H 0))); [ring|]. rewrite <- V. ring. }
      assert (N2 : x1 +x x1 <> x0) by (apply Re_neq; cbn; lra).
      assert (EE : E 0 = (M *x ((Zn +x r) *x H t) +x P *x ((Zn -x r) *x H t)) /x (x1 +x x1)).
      { rewrite <- U', <- V'. field. exact N2. }
      assert (HH : r *x H 0 = (M *x ((Zn +x r) *x H t) -x P *x ((Zn -x r) *x H t)) /x (x1 +x x1)).
      { rewrite <- U', <- V'. field. exact N2. }
      assert (HH' : H 0 = (M *x ((Zn +x r) *x H t) -x P *x ((Zn -x r) *x H t)) /x (x1 +x x1) /x r).
      { rewrite <- HH. field. exact Nr. }
      rewrite EE, HH'.
      assert (NB' : r *x (P +x M) -x Zn *x (P -x M) <> x0).
      { intros K. apply NB. transitivity ((r *x (P +x M) -x Zn *x (P -x M)) /x (r *x (P +x M))).
        - field. split; assumption.
        - rewrite K. field. split; assumption. }
      field. repeat split; try assumption.
  Qed.

  (** Fields with given values at depth [t]. *)
  Lemma fields_from s t Et Ht : 0 < s -> exists E H, maxwell w mu s E H /\ E t = Et /\ H t = Ht.
  Proof.
    intros Hs. pose proof (alpha_sq s Hs) as HA. pose proof (ratio_def s Hs) as HR.
    assert (Hsx : xr s <> x0) by (apply xr_neq; lra).
    pose proof (ratio_neq w mu Hw Hmu s Hs) as Nr.
    assert (HI : xscale (w * mu) xi = alpha w mu s *x ratio w mu s).
    { rewrite HR. transitivity ((xscale (w * mu) xi *x xr s) /x xr s); [field; exact Hsx|]. rewrite <- HA. field. exact Hsx. }
    assert (HS : ratio w mu s *x xr s = alpha w mu s) by (rewrite HR; field; exact Hsx).
    assert (N2 : x1 +x x1 <> x0) by (apply Re_neq; cbn; lra).
    set (a := alpha w mu s) in *. set (r := ratio w mu s) in *.
    set (U := Et +x r *x Ht). set (V := Et -x r *x Ht).
    set (p := fun d => cexp (xscale (d - t) a)). set (q := fun d => cexp (xopp (xscale (d - t) a))).
    assert (Dl : forall d, cdl (fun d => xscale (d - t) a) d a).
    { intros d. split; unfold xscale, Re, Im; cbn.
      - eapply dpl_eq; [|apply dpl_mult; [apply dpl_minus; [apply dpl_id|apply dpl_const]|apply dpl_const]]. cbn. ring.
      - eapply dpl_eq; [|apply dpl_mult; [apply dpl_minus; [apply dpl_id|apply dpl_const]|apply dpl_const]]. cbn. ring. }
    assert (Dp : forall d, cdl p d (p d *x a)) by (intros d; apply cdl_cexp; apply Dl).
    assert (Dq : forall d, cdl q d (q d *x xopp a)) by (intros d; unfold q; apply (cdl_cexp (fun d => xopp (xscale (d - t) a))); apply cdl_opp; apply Dl).
    exists (fun d => x1 /x (x1 +x x1) *x (p d *x U +x q d *x V)), (fun d => x1 /x (x1 +x x1) /x r *x (p d *x U -x q d *x V)).
    assert (Hpt : p t = x1 /\ q t = x1).
    { unfold p, q. assert (xscale (t - t) a = x0) as -> by (apply cx_eq; unfold xscale, x0, Re, Im; cbn; ring).
      assert (xopp x0 = x0) as -> by ring. rewrite cexp_0. auto. }
    destruct Hpt as [Hp Hq].
    split; [|split].
    - intros d. split.
      + eapply cdl_eq; [|apply cdl_mul; [apply cdl_const|apply cdl_add; apply cdl_mul; [apply Dp|apply cdl_const|apply Dq|apply cdl_const]]].
        cbn beta. rewrite HI. field. split; assumption.
      + eapply cdl_eq; [|apply cdl_mul; [apply cdl_const|apply cdl_sub; apply cdl_mul; [apply Dp|apply cdl_const|apply Dq|apply cdl_const]]].
        cbn beta. rewrite <- HS. field. split; assumption.
    - rewrite Hp, Hq. unfold U, V. field. exact N2.
    - rewrite Hp, Hq. unfold U, V. field. split; assumption.
  Qed.

  Lemma surface_exists ls sb : pos_layers ls -> 0 < sb -> exists E0 H0, H0 <> x0 /\ surface w mu ls sb E0 H0.
  Proof.
    intros HL Hb. induction ls as [|[s t] ls IH].
    - pose proof (alpha_pos' sb Hb) as Pa. pose proof (alpha_sq sb Hb) as HA. pose proof (ratio_def sb Hb) as HR.
      assert (Hsx : xr sb <> x0) by (apply xr_neq; lra).
      exists (xopp (ratio w mu sb)), x1. split; [apply Re_neq; cbn; lra|].
      exists (fun d => cexp (xscale d (xopp (alpha w mu sb))) *x xopp (ratio w mu sb)), (fun d => cexp (xscale d (xopp (alpha w mu sb)))).
      assert (Z0 : cexp (xscale 0 (xopp (alpha w mu sb))) = x1).
      { rewrite <- cexp_0. f_equal. apply cx_eq; unfold xscale, x0, Re, Im; cbn; ring. }
      split; [|split; [|split]].
      + intros d. split.
        * eapply cdl_eq; [|apply cdl_mul; [apply cdl_cexp; apply cdl_line|apply cdl_const]]. cbn beta. rewrite HR.
          transitivity ((alpha w mu sb *x alpha w mu sb) /x xr sb *x cexp (xscale d (xopp (alpha w mu sb)))); [field; exact Hsx|].
          rewrite HA. field. exact Hsx.
        * eapply cdl_eq; [|apply cdl_cexp; apply cdl_line]. rewrite HR. field. exact Hsx.
      + rewrite Z0. ring.
      + exact Z0.
      + exists (Rmax 1 (nrm2 (xopp (ratio w mu sb)))). intros d Hd. rewrite nrm2_mul, nrm2_cexp.
        assert (X : exp (2 * Re (xscale d (xopp (alpha w mu sb)))) <= 1).
        { rewrite <- exp_0. assert (Y : 2 * Re (xscale d (xopp (alpha w mu sb))) <= 0) by (unfold xscale, xopp, Re in *; cbn in *; nra).
          destruct Y as [Y|Y]; [left; now apply exp_increasing|right; now rewrite Y]. }
        pose proof (exp_pos (2 * Re (xscale d (xopp (alpha w mu sb))))) as X0.
        assert (0 <= nrm2 (xopp (ratio w mu sb))) by (unfold nrm2; nra).
        pose proof (Rmax_l 1 (nrm2 (xopp (ratio w mu sb)))). pose proof (Rmax_r 1 (nrm2 (xopp (ratio w mu sb)))).
        split; [|lra]. nra.
    - inversion HL as [|? ? [Ps Pt] HL']; subst. cbn in Ps, Pt. destruct (IH HL') as (Et & Ht & HN & HS).
      destruct (fields_from s t Et Ht Ps) as (E & H & HM & A & B).
      exists (E 0), (H 0).
      assert (SF : surface w mu ((s, t) :: ls) sb (E 0) (H 0)).
      { exists E, H. rewrite A, B. auto. }
      split; [|exact SF]. intros H0. apply HN.
      pose proof (surface_Z _ _ HL Hb _ _ SF) as EZ. rewrite H0 in EZ.
      destruct (waves s E H Ps HM) as [U V]. specialize (U t). specialize (V t). rewrite EZ, H0, A, B in U, V.
      pose proof (ratio_neq w mu Hw Hmu s Ps) as Nr.
      assert (N2 : x1 +x x1 <> x0) by (apply Re_neq; cbn; lra).
      transitivity (((Et +x ratio w mu s *x Ht) -x (Et -x ratio w mu s *x Ht)) /x (x1 +x x1) /x ratio w mu s); [field; split; assumption|].
      rewrite U, V. field. split; assumption.
  Qed.

  Lemma surface_det ls ls' sb sb' : pos_layers ls -> 0 < sb -> pos_layers ls' -> 0 < sb' ->
    (forall E H, surface w mu ls sb E H -> surface w mu ls' sb' E H) -> Ztop w mu ls sb = Ztop w mu ls' sb'.
  Proof.
    intros A B C D HI. destruct (surface_exists ls sb A B) as (E & H & N & S).
    pose proof (surface_Z _ _ A B _ _ S) as E1. pose proof (surface_Z _ _ C D _ _ (HI _ _ S)) as E2.
    rewrite E1 in E2. transitivity (Ztop w mu ls sb *x H /x H); [field; exact N|]. rewrite E2. field. exact N.
  Qed.

  Lemma maxwell_shift s t E H : maxwell w mu s E H -> maxwell w mu s (fun d => E (t + d)) (fun d => H (t + d)).
  Proof.
    intros HM d. destruct (HM (t + d)) as [[A B] [C D]].
    assert (G : forall g l, derivable_pt_lim g (t + d) l -> derivable_pt_lim (fun x => g (t + x)) d l).
    { intros g l Hg. eapply dpl_eq; [|apply (dpl_comp (fun x => t + x) g d); [apply dpl_plus; [apply dpl_const|apply dpl_id]|exact Hg]]. ring. }
    split; split.
    - apply (G (fun x => Re (E x))). exact A.
    - apply (G (fun x => Im (E x))). exact B.
    - apply (G (fun x => Re (H x))). exact C.
    - apply (G (fun x => Im (H x))). exact D.
  Qed.
  Lemma surface_app pre ls ls' sb : (forall E H, surface w mu ls sb E H -> surface w mu ls' sb E H) ->
    forall E H, surface w mu (pre ++ ls) sb E H -> surface w mu (pre ++ ls') sb E H.
  Proof.
    intros HI. induction pre as [|[s t] pre IH]; cbn; [exact HI|].
    intros E H (e & h & A & B & C & D). exists e, h. auto.
  Qed.
  Lemma surface_split s t1 t2 ls sb E0 H0 : surface w mu ((s, t1 + t2) :: ls) sb E0 H0 -> surface w mu ((s, t1) :: (s, t2) :: ls) sb E0 H0.
  Proof.
    intros (E & H & HM & A & B & C). exists E, H. split; [exact HM|]. split; [exact A|]. split; [exact B|].
    exists (fun d => E (t1 + d)), (fun d => H (t1 + d)). split; [now apply maxwell_shift|].
    rewrite !Rplus_0_r. auto.
  Qed.
  Lemma surface_bottom t sb E0 H0 : 0 < t -> surface w mu [] sb E0 H0 -> surface w mu [(sb, t)] sb E0 H0.
  Proof.
    intros Ht (E & H & HM & A & B & K & HB). exists E, H. split; [exact HM|]. split; [exact A|]. split; [exact B|].
    exists (fun d => E (t + d)), (fun d => H (t + d)). split; [now apply maxwell_shift|]. rewrite !Rplus_0_r.
    split; [reflexivity|]. split; [reflexivity|]. exists K. intros d Hd. apply HB. lra.
  Qed.
  Lemma Ztop_split pre s t1 t2 ls sb : pos_layers pre -> pos_layers ls -> 0 < s -> 0 < t1 -> 0 < t2 -> 0 < sb ->
    Ztop w mu (pre ++ (s, t1) :: (s, t2) :: ls) sb = Ztop w mu (pre ++ (s, t1 + t2) :: ls) sb.
  Proof.
    intros A B Hs H1 H2 Hb. symmetry. apply surface_det; try assumption.
    - apply Forall_app. split; [exact A|]. constructor; [cbn; lra|exact B].
    - apply Forall_app. split; [exact A|]. constructor; [cbn; lra|]. constructor; [cbn; lra|exact B].
    - apply surface_app. intros E H. apply surface_split.
  Qed.
  Lemma Ztop_bottom pre t sb : pos_layers pre -> 0 < t -> 0 < sb -> Ztop w mu (pre ++ [(sb, t)]) sb = Ztop w mu pre sb.
  Proof.
    intros A Ht Hb. symmetry. apply surface_det; try assumption.
    - apply Forall_app. split; [exact A|]. constructor; [cbn; lra|constructor].
    - intros E H HS. rewrite <- (app_nil_r pre) in HS. revert E H HS. apply surface_app. intros E H. now apply surface_bottom.
  Qed.
  Lemma Ztop_uniform ls sb : pos_layers ls -> Forall (fun l => fst l = sb) ls -> 0 < sb -> Ztop w mu ls sb = xopp (ratio w mu sb).
  Proof.
    intros HL HF Hb. induction ls as [|l ls IH] using rev_ind; [reflexivity|].
    apply Forall_app in HL. destruct HL as [A B]. apply Forall_app in HF. destruct HF as [C D].
    inversion B as [|? ? [Ps Pt] _]; subst. inversion D as [|? ? Es _]; subst. destruct l as [s t]. cbn in *.
    rewrite (Ztop_bottom ls t s A Pt Ps). now apply IH.
  Qed.
End M.
