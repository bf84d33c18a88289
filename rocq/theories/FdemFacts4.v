From Verif Require Import Py Vec VecDeriv Joint Cplx CplxFacts SolveDeriv RichardsFacts RichardsFacts2 RichardsFacts3 DcFacts Fdem SpecFdem FdemFacts FdemFacts2 FdemFacts3.
From Coq Require Import Reals Lra Lia.
Local Open Scope R_scope.

Section DField.
  Context (s : fdem) (SZ : sizes s) (m v : vec) (Lm : length m = f_p s) (Lv : length v = f_p s).
  Context (SF : smooth (f_p s) (f_nc s) (f_face s) m) (SE : smooth (f_p s) (f_nc s) (f_edge s) m).
  Context (src : source) (SO : src_ok s src) (NF : no_zero (Fm s m)) (NE : no_zero (Em s m)).
  Hypothesis DO : isEB s = false -> mapped (f_edge s) = true -> is_dipole src = false.
  Notation nE := (f_nE s). Notation nF := (f_nF s). Notation p := (f_p s).
  Let mt (t : R) : vec := vadd m (vscale t v).
  Definition fdim (x : fname) : nat := if isEB s then match x with Fe | Fj => nE | _ => nF end else match x with Fe | Fj => nF | _ => nE end.
  (** For E-B the derivative of the electric source is that of the primary field *)
  Lemma s_eDeriv_prim : isEB s = true -> s_eDeriv s m src v = copp (cmap (curlT s) (cFd s m (bPrim s src) v)).
  Proof.
    intros B. pose proof (len_bPrim s src SO) as LB. pose proof (len_s_eDeriv s SZ m src v SO) as LD. rewrite B in LB, LD. pose proof (proj2 SO) as SO'.
    unfold s_eDeriv, bPrim in *. rewrite B in *. destruct (s_kind src) as [sm se|q mu0].
    - assert (Z : cFd s m (czero nF) v = czero nF). { apply (c_ext (f_nF s)); [cln|cln|]. intros i Hi. cent' s (f_nF s). split; ring. }
      rewrite Z. rewrite (cmap_zero nF nE) by (apply L_curlT; exact SZ). cext (f_nE s). split; ring.
    - destruct SO' as [Lq _]. assert (Z : cFd s m (creal q) v = creal (Fd s m q v)).
      { unfold cFd, creal, cmap. cbn [fst snd]. rewrite !Fd_eq by (assumption || (rewrite vzero_length; assumption)). f_equal. pose proof (len_dF s SZ m v). rewrite (ln_mul nF) by assumption. rewrite Lq. vext (f_nF s). ring. }
      rewrite Z. rewrite (cmap_real nF nE) by (try apply L_curlT; try apply len_Fd; assumption). pose proof (len_curlT' s SZ _ (len_Fd s SZ m q v Lq)).
      unfold creal, copp, cmap. cbn [fst snd]. rewrite vopp_length. f_equal. vext (length (curlT s (Fd s m q v))). ring.
  Qed.
  (** For H-J the primary field does not meet a derivative of the magnetic property *)
  Lemma Ed_hPrim : isEB s = false -> cEd s m (hPrim s src) v = czero nE.
  Proof.
    intros B. pose proof (len_hPrim s src SO) as LB. rewrite B in LB. specialize (DO B). apply (c_ext (f_nE s)); [cln|cln|]. intros i Hi. cent' s (f_nE s).
    unfold mapped, is_dipole in DO. unfold hPrim, dE in *. destruct (s_kind src) as [sm se|q mu0].
    - rewrite B. rewrite re_zero, im_zero. split; ring.
    - destruct (p_deriv (f_edge s)); [specialize (DO eq_refl); discriminate|]. rewrite nth_zero. split; ring.
  Qed.
  Lemma cFd_add a b : clen nF a -> clen nF b -> cFd s m (cadd a b) v = cadd (cFd s m a v) (cFd s m b v).
  Proof. intros. apply (c_ext (f_nF s)); [cln|cln|]. intros i Hi. cent' s (f_nF s). split; ring. Qed.
  Lemma cFd_sub a b : clen nF a -> clen nF b -> cFd s m (csub a b) v = csub (cFd s m a v) (cFd s m b v).
  Proof. intros. apply (c_ext (f_nF s)); [cln|cln|]. intros i Hi. cent' s (f_nF s). split; ring. Qed.
  Lemma cEd_add a b : clen nE a -> clen nE b -> cEd s m (cadd a b) v = cadd (cEd s m a v) (cEd s m b v).
  Proof. intros. apply (c_ext (f_nE s)); [cln|cln|]. intros i Hi. cent' s (f_nE s). split; ring. Qed.
  Lemma D_field x u u' : x <> FhSec -> (isEB s = false -> x <> FbSec) -> cderiv (dim s) u u' ->
    cderiv (fdim x) (fun t => getfield s (mt t) (mt t) src x (u t)) (cadd (field_du s m src x u') (field_dm s m m src x (u 0) v)).
  Proof.
    intros X1 X2 DU. pose proof (cderiv_len _ _ _ DU) as [Lu Lu']. specialize (Lu 0). unfold mt.
    pose proof (D_s_m s SZ m v Lm Lv SE src SO DO) as DM. pose proof (D_s_e s SZ m v Lm Lv SF SE src SO DO) as DE. pose proof (len_s_m s SZ m src SO) as LM. pose proof (len_s_e s SZ m src SO) as LE. pose proof (len_s_eDeriv s SZ m src v SO) as LD.
    pose proof (len_bPrim s src SO) as LB. pose proof (len_hPrim s src SO) as LH. pose proof s_eDeriv_prim as SP. pose proof Ed_hPrim as EP.
    pose proof (D_F s SZ m v Lm Lv SF) as RF. pose proof (D_E s SZ m v Lm Lv SE) as RE. pose proof (D_EIc s SZ m v Lm Lv SE NE) as REI. pose proof (mt0 s m v Lm Lv) as M0. cbv zeta in *.
    pose proof (omega_ok s src SO) as W.
    unfold getfield, field_du, field_dm, getfield, bSecondary, hSecondary, fdim, dim, isEB in *.
    destruct (f_form s) eqn:K; destruct x; try (exfalso; apply X1; reflexivity); try (exfalso; apply X2; reflexivity); clear X1 X2; cbv zeta in *;
      (eapply cderiv_eq; cycle 1; [ repeat first [ eassumption | eapply RF | eapply RE | eapply REI | eapply (D_curl s SZ) | eapply (D_curlT s SZ) | eapply (D_MfI s SZ) | eapply (D_MeI s SZ)
    | eapply cderiv_add | eapply cderiv_sub | eapply cderiv_opp | eapply cderiv_cI | eapply cderiv_divI | eapply cderiv_const; solve [cln] ] |]);
      cbv beta; repeat rewrite M0; try (specialize (SP eq_refl)); try (specialize (EP eq_refl)).
    all: try (first [ apply (c_ext (f_nE s)); [solve [cln]|solve [cln]|]; intros i Hi; cent' s (f_nE s); split; ring | apply (c_ext (f_nF s)); [solve [cln]|solve [cln]|]; intros i Hi; cent' s (f_nF s); split; ring ]).
    - push s SZ. apply (c_ext (f_nE s)); [solve [cln]|solve [cln]|]. intros i Hi. cent' s (f_nE s). split; ring.
    - rewrite SP. rewrite cFd_add by assumption. push s SZ. apply (c_ext (f_nE s)); [solve [cln]|solve [cln]|]. intros i Hi. cent' s (f_nE s). split; ring.
    - rewrite cEd_add by (solve [cln]). rewrite EP. push s SZ. apply (c_ext (f_nE s)); [solve [cln]|solve [cln]|]. intros i Hi. cent' s (f_nE s). pose proof (NE' s SZ m NE i Hi). rewrite (nth_EI s SZ) by assumption. split; field; split; assumption.
    - push s SZ. apply (c_ext (f_nE s)); [solve [cln]|solve [cln]|]. intros i Hi. cent' s (f_nE s). split; ring.
    - assert (Z : s_eDeriv s m src v = czero nF) by (unfold s_eDeriv, isEB; rewrite K; destruct (s_kind src); reflexivity). rewrite Z. push s SZ. apply (c_ext (f_nF s)); [solve [cln]|solve [cln]|]. intros i Hi. cent' s (f_nF s). split; ring.
  Qed.
End DField.
