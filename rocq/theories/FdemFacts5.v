From Verif Require Import Py Vec VecDeriv Joint Cplx CplxFacts SolveDeriv RichardsFacts RichardsFacts2 RichardsFacts3 DcFacts Fdem SpecFdem FdemFacts FdemFacts2 FdemFacts3 FdemFacts4.
From Coq Require Import Reals Lra Lia.
Local Open Scope R_scope.

(** ** The real part of the bilinear product *)
Section Rdot.
  Context (k : nat).
  Lemma rdot_add_r a b c : clen k a -> clen k b -> clen k c -> rdot a (cadd b c) = rdot a b + rdot a c.
  Proof. intros [? ?] [? ?] [? ?]. unfold rdot. cbn. rewrite !dot_vadd_r by congruence. ring. Qed.
  Lemma rdot_add_l a b c : clen k a -> clen k b -> clen k c -> rdot (cadd a b) c = rdot a c + rdot b c.
  Proof. intros [? ?] [? ?] [? ?]. unfold rdot. cbn. rewrite !dot_vadd_l by congruence. ring. Qed.
  Lemma rdot_opp_r a b : rdot a (copp b) = - rdot a b.
  Proof. unfold rdot. cbn [copp cmap fst snd]. rewrite !dot_vopp_r. ring. Qed.
  Lemma rdot_opp_l a b : rdot (copp a) b = - rdot a b.
  Proof. unfold rdot. cbn [copp cmap fst snd]. rewrite !dot_vopp_l. ring. Qed.
  Lemma csub_add a b : clen k a -> clen k b -> csub a b = cadd a (copp b).
  Proof. intros. cext k. split; ring. Qed.
  Lemma rdot_sub_r a b c : clen k a -> clen k b -> clen k c -> rdot a (csub b c) = rdot a b - rdot a c.
  Proof. intros. rewrite csub_add, rdot_add_r, rdot_opp_r by cln. ring. Qed.
  Lemma rdot_sub_l a b c : clen k a -> clen k b -> clen k c -> rdot (csub a b) c = rdot a c - rdot b c.
  Proof. intros. rewrite csub_add, rdot_add_l, rdot_opp_l by cln. ring. Qed.
  Lemma rdot_comm a b : clen k a -> clen k b -> rdot a b = rdot b a.
  Proof. intros. unfold rdot. rewrite (dot_comm (fst a)), (dot_comm (snd a)). reflexivity. Qed.
  Lemma rdot_zero_l b : rdot (czero k) b = 0. Proof. unfold rdot. cbn. rewrite !dot_zero_l. ring. Qed.
  Lemma rdot_zero_r b : rdot b (czero k) = 0. Proof. unfold rdot. cbn. rewrite !dot_zero_r. ring. Qed.
End Rdot.
Lemma rdot_cI a w b : rdot a (cI w b) = rdot (cI w a) b.
Proof. unfold rdot. cbn [cI fst snd]. rewrite !dot_vscale_r, !dot_vscale_l. ring. Qed.
Lemma rdot_divI a w b : rdot a (cdivI w b) = rdot (cdivI w a) b.
Proof. unfold rdot. cbn [cdivI fst snd]. rewrite !dot_vscale_r, !dot_vscale_l. ring. Qed.
Lemma rdot_diag d a b : rdot a (cmap (vmul d) b) = rdot (cmap (vmul d) a) b.
Proof. unfold rdot. cbn [cmap fst snd]. rewrite <- !dot_vmul. reflexivity. Qed.
Lemma rdot_real a v : clen (length v) a -> rdot a (creal v) = dot (fst a) v.
Proof. intros. unfold rdot. cbn. rewrite dot_zero_r. ring. Qed.

Section Adj.
  Context (s : fdem) (SZ : sizes s).
  Notation nE := (f_nE s). Notation nF := (f_nF s). Notation p := (f_p s).
  Lemma rdot_curl a b : clen nF a -> clen nE b -> rdot a (cmap (curl s) b) = rdot (cmap (curlT s) a) b.
  Proof. intros [? ?] [? ?]. unfold rdot. cbn. rewrite !curl_dot by assumption. reflexivity. Qed.
  Lemma rdot_curlT a b : clen nE a -> clen nF b -> rdot a (cmap (curlT s) b) = rdot (cmap (curl s) a) b.
  Proof. intros. rewrite (rdot_comm nE) by cln. rewrite <- rdot_curl by assumption. apply (rdot_comm nF); cln. Qed.
  Lemma len_bil n T u z : (forall a b, length a = n -> length b = n -> length (T a b) = p) -> clen n u -> clen n z -> clen p (bil T u z).
  Proof. intros H [? ?] [? ?]. split; cbn; [apply ln_sub|apply ln_add]; auto. Qed.
  Lemma bil_adj n T D u z v : (forall a b, length a = n -> length b = n -> length (T a b) = p) ->
    (forall a b, length a = n -> length b = n -> dot b (D a) = dot (T a b) v) -> length v = p -> clen n u -> clen n z ->
    rdot z (cmap D u) = rdot (bil T u z) (creal v).
  Proof.
    intros LT H Lv Lu Lz. rewrite rdot_real by (rewrite Lv; apply (len_bil n); assumption). destruct Lu, Lz. unfold rdot, bil. cbn.
    rewrite dot_vsub_l by (rewrite !LT by assumption; reflexivity). rewrite !H by assumption. reflexivity.
  Qed.
  Section At.
    Context (m : vec) (Lm : length m = p).
    Lemma len_FdT a b : length a = nF -> length b = nF -> length (FdT s m a b) = p.
    Proof. intros. unfold FdT. destruct (p_deriv (f_face s)) eqn:E; [|apply vzero_length]. apply (mtv_length (f_nc s)). apply (PF s SZ m Lm). exact E. Qed.
    Lemma len_EdT a b : length a = nE -> length b = nE -> length (EdT s m a b) = p.
    Proof. intros. unfold EdT. destruct (p_deriv (f_edge s)) eqn:E; [|apply vzero_length]. apply (mtv_length (f_nc s)). apply (PE s SZ m Lm). exact E. Qed.
    Lemma FdT_adj v a b : length v = p -> length a = nF -> length b = nF -> dot b (Fd s m a v) = dot (FdT s m a b) v.
    Proof.
      intros Lv La Lb. unfold Fd, FdT. destruct (p_deriv (f_face s)) as [D|] eqn:E; [|rewrite dot_zero_r, dot_zero_l; reflexivity].
      pose proof (proj2 (PF s SZ m Lm) D E) as HD. pose proof (MBf s SZ) as HB. rewrite <- dot_vmul. rewrite (mv_mtv_adjoint nF (f_nc s)) by (first [assumption | rewrite mv_length; apply HD | ln]).
      rewrite (mv_mtv_adjoint (f_nc s) p) by (try assumption; eapply mtv_length; exact HB). reflexivity.
    Qed.
    Lemma EdT_adj v a b : length v = p -> length a = nE -> length b = nE -> dot b (Ed s m a v) = dot (EdT s m a b) v.
    Proof.
      intros Lv La Lb. unfold Ed, EdT. destruct (p_deriv (f_edge s)) as [D|] eqn:E; [|rewrite dot_zero_r, dot_zero_l; reflexivity].
      pose proof (proj2 (PE s SZ m Lm) D E) as HD. pose proof (MBe s SZ) as HB. rewrite <- dot_vmul. rewrite (mv_mtv_adjoint nE (f_nc s)) by (first [assumption | rewrite mv_length; apply HD | ln]).
      rewrite (mv_mtv_adjoint (f_nc s) p) by (try assumption; eapply mtv_length; exact HB). reflexivity.
    Qed.
    Lemma len_cFdT u z : clen nF u -> clen nF z -> clen p (cFdT s m u z). Proof. apply len_bil. apply len_FdT. Qed.
    Lemma len_cEdT u z : clen nE u -> clen nE z -> clen p (cEdT s m u z). Proof. apply len_bil. apply len_EdT. Qed.
    Lemma len_ei2 u : clen nE u -> clen nE (cmap (fun x => vmul (EI s m) (vmul (EI s m) (vopp x))) u).
    Proof. apply len_cmap. intros. pose proof (len_EI s SZ m). ln. Qed.
    Lemma len_cEIdT u z : clen nE u -> clen nE z -> clen p (cEIdT s m u z). Proof. intros. apply len_cEdT; [apply len_ei2|]; assumption. Qed.
    Lemma rdot_cFd v u z : length v = p -> clen nF u -> clen nF z -> rdot z (cFd s m u v) = rdot (cFdT s m u z) (creal v).
    Proof. intros. apply (bil_adj nF); try assumption; [apply len_FdT|]. intros. apply FdT_adj; assumption. Qed.
    Lemma rdot_cEd v u z : length v = p -> clen nE u -> clen nE z -> rdot z (cEd s m u v) = rdot (cEdT s m u z) (creal v).
    Proof. intros. apply (bil_adj nE); try assumption; [apply len_EdT|]. intros. apply EdT_adj; assumption. Qed.
    Lemma rdot_cEId v u z : length v = p -> clen nE u -> clen nE z -> rdot z (cEId s m u v) = rdot (cEIdT s m u z) (creal v).
    Proof. intros. unfold cEIdT. rewrite <- rdot_cEd by (try apply len_ei2; assumption). reflexivity. Qed.
    (** Complex factors *)
    Lemma bil_lin n T (c : cvec -> cvec) u z : (forall a, length a = n -> lin_map n p (T a)) -> clen n u -> clen n z ->
      (forall w, bil T u (cI w z) = cI w (bil T u z)) /\ (forall w, bil T u (cdivI w z) = cdivI w (bil T u z)).
    Proof.
      intros L [U1 U2] [Z1 Z2]. destruct (L _ U1) as (A1 & _ & A3). destruct (L _ U2) as (B1 & _ & B3).
      pose proof (A1 _ Z1); pose proof (A1 _ Z2); pose proof (B1 _ Z1); pose proof (B1 _ Z2).
      split; intros w; unfold bil, cI, cdivI; cbn [fst snd]; rewrite !A3, !B3 by assumption; f_equal; vext (f_p s); ring.
    Qed.
    Lemma L_FdT a : length a = nF -> lin_map nF p (FdT s m a).
    Proof.
      intros La. unfold FdT. destruct (p_deriv (f_face s)) as [D|] eqn:E.
      - apply (lin_comp nF (f_nc s) p); [|apply lin_mtv; apply (PF s SZ m Lm); exact E]. apply (lin_comp nF nF (f_nc s)); [apply lin_vmul; exact La|apply lin_mtv; apply MBf; exact SZ].
      - split; [intros; apply vzero_length|]. split; intros; vext (f_p s); ring.
    Qed.
    Lemma L_EdT a : length a = nE -> lin_map nE p (EdT s m a).
    Proof.
      intros La. unfold EdT. destruct (p_deriv (f_edge s)) as [D|] eqn:E.
      - apply (lin_comp nE (f_nc s) p); [|apply lin_mtv; apply (PE s SZ m Lm); exact E]. apply (lin_comp nE nE (f_nc s)); [apply lin_vmul; exact La|apply lin_mtv; apply MBe; exact SZ].
      - split; [intros; apply vzero_length|]. split; intros; vext (f_p s); ring.
    Qed.
    Lemma cFdT_cI u w z : clen nF u -> clen nF z -> cFdT s m u (cI w z) = cI w (cFdT s m u z).
    Proof. intros. apply (bil_lin nF); try assumption; [exact (fun x => x)|apply L_FdT]. Qed.
    Lemma cFdT_divI u w z : clen nF u -> clen nF z -> cFdT s m u (cdivI w z) = cdivI w (cFdT s m u z).
    Proof. intros. apply (bil_lin nF); try assumption; [exact (fun x => x)|apply L_FdT]. Qed.
    Lemma cEdT_cI u w z : clen nE u -> clen nE z -> cEdT s m u (cI w z) = cI w (cEdT s m u z).
    Proof. intros. apply (bil_lin nE); try assumption; [exact (fun x => x)|apply L_EdT]. Qed.
    Lemma cEIdT_cI u w z : clen nE u -> clen nE z -> cEIdT s m u (cI w z) = cI w (cEIdT s m u z).
    Proof. intros. apply cEdT_cI; [apply len_ei2|]; assumption. Qed.
    Lemma cEIdT_divI u w z : clen nE u -> clen nE z -> cEIdT s m u (cdivI w z) = cdivI w (cEIdT s m u z).
    Proof. intros. apply (bil_lin nE); try assumption; [exact (fun x => x)|apply L_EdT|apply len_ei2; assumption]. Qed.
    Context (src : source) (SO : src_ok s src).
    Lemma len_s_eDerivT z : clen (if isEB s then nE else nF) z -> clen p (s_eDerivT s m src z).
    Proof.
      intros Lz. unfold s_eDerivT. pose proof (proj2 SO) as SO'. destruct (s_kind src) as [|q mu0]; [apply len_zero|]. destruct (isEB s); [|apply len_zero]. destruct SO' as [Lq _].
      destruct Lz. split; cbn; apply ln_opp; apply len_FdT; try assumption; apply len_curl'; assumption.
    Qed.
    Lemma s_eDerivT_cI w z : clen (if isEB s then nE else nF) z -> s_eDerivT s m src (cI w z) = cI w (s_eDerivT s m src z).
    Proof.
      intros Lz. unfold s_eDerivT. pose proof (proj2 SO) as SO'. destruct (s_kind src) as [|q mu0]; [cext (f_p s); split; ring|]. destruct (isEB s); [|cext (f_p s); split; ring]. destruct SO' as [Lq _].
      assert (L : lin_map nE p (fun x => vopp (FdT s m q (curl s x)))).
      { apply (lin_comp nE p p _ vopp); [apply (lin_comp nE nF p); [apply L_curl; exact SZ|apply L_FdT; exact Lq]|]. split; [intros; ln|split; intros; vext (f_p s); ring]. }
      apply (cmap_cI nE p); assumption.
    Qed.
    Lemma rdot_s_eDeriv v z : length v = p -> clen (if isEB s then nE else nF) z -> rdot z (s_eDeriv s m src v) = rdot (s_eDerivT s m src z) (creal v).
    Proof.
      intros Lv Lz. pose proof (len_s_eDerivT z Lz) as LT. unfold s_eDerivT, s_eDeriv in *. pose proof (proj2 SO) as SO'. destruct (s_kind src) as [|q mu0]; [rewrite rdot_zero_l, rdot_zero_r; reflexivity|].
      destruct (isEB s); [|rewrite rdot_zero_l, rdot_zero_r; reflexivity]. destruct SO' as [Lq _]. destruct Lz as [Z1 Z2]. rewrite (rdot_real _ v) by (rewrite Lv; exact LT).
      rewrite rdot_real. 2:{ rewrite vopp_length. rewrite len_curlT'; [split; assumption|exact SZ|apply len_Fd; assumption]. }
      cbn [cmap fst snd]. rewrite dot_vopp_r, dot_vopp_l. f_equal. rewrite <- FdT_adj by (try assumption; apply len_curl'; assumption).
      rewrite dot_comm. rewrite <- curl_dot by (try assumption; apply len_Fd; assumption). apply dot_comm.
    Qed.
  End At.
End Adj.
#[export] Hint Resolve len_cFdT len_cEdT len_cEIdT : cln.

Section Adj2.
  Context (s : fdem) (SZ : sizes s) (m v : vec) (Lm : length m = f_p s) (Lv : length v = f_p s).
  Context (src : source) (SO : src_ok s src).
  Notation nE := (f_nE s). Notation nF := (f_nF s). Notation p := (f_p s).
  Lemma len_rv : clen p (creal v). Proof. apply len_real. exact Lv. Qed.
  Ltac mv1 := first [ rewrite (rdot_add_r nE) by (solve [cln]) | rewrite (rdot_add_r nF) by (solve [cln]) | rewrite (rdot_sub_r nE) by (solve [cln]) | rewrite (rdot_sub_r nF) by (solve [cln])
    | rewrite (rdot_add_l nE) by (solve [cln]) | rewrite (rdot_add_l nF) by (solve [cln]) | rewrite (rdot_add_l p) by (solve [cln]) | rewrite (rdot_sub_l nE) by (solve [cln]) | rewrite (rdot_sub_l nF) by (solve [cln]) | rewrite (rdot_sub_l p) by (solve [cln])
    | rewrite rdot_opp_r | rewrite rdot_opp_l | rewrite rdot_diag | rewrite (rdot_curl s SZ) by (solve [cln]) | rewrite (rdot_curlT s SZ) by (solve [cln]) | rewrite rdot_cI | rewrite rdot_divI
    | rewrite (rdot_cFd s SZ m Lm) by (solve [cln]) | rewrite (rdot_cEd s SZ m Lm) by (solve [cln]) | rewrite (rdot_cEId s SZ m Lm) by (solve [cln])
    | rewrite (cFdT_cI s SZ m Lm) by (solve [cln]) | rewrite (cFdT_divI s SZ m Lm) by (solve [cln]) | rewrite (cEdT_cI s SZ m Lm) by (solve [cln]) | rewrite (cEIdT_cI s SZ m Lm) by (solve [cln]) | rewrite (cEIdT_divI s SZ m Lm) by (solve [cln]) ].
  Ltac mvs := repeat (first [ mv1 | progress (push s SZ) ]).
  Lemma field_du_adj x z y : x <> FhSec -> (isEB s = false -> x <> FbSec) -> clen (fdim s x) z -> clen (dim s) y -> rdot z (field_du s m src x y) = rdot (field_duT s m src x z) y.
  Proof.
    intros X1 X2 Lz Ly. unfold field_du, field_duT, fdim, dim, isEB in *. cbv zeta.
    destruct (f_form s) eqn:K; destruct x; try (exfalso; apply X1; reflexivity); try (exfalso; apply X2; reflexivity); cbn [negb] in *; mvs; ring.
  Qed.
  Lemma len_field_duT x z : x <> FhSec -> (isEB s = false -> x <> FbSec) -> clen (fdim s x) z -> clen (dim s) (field_duT s m src x z).
  Proof.
    intros X1 X2 Lz. unfold field_duT, fdim, dim, isEB in *. cbv zeta.
    destruct (f_form s) eqn:K; destruct x; try (exfalso; apply X1; reflexivity); try (exfalso; apply X2; reflexivity); cln.
  Qed.
  Lemma len_field x u : x <> FhSec -> (isEB s = false -> x <> FbSec) -> clen (dim s) u -> clen (fdim s x) (getfield s m m src x u).
  Proof.
    intros X1 X2 Lu. pose proof (len_s_m s SZ m src SO) as LM. pose proof (len_s_e s SZ m src SO) as LE. pose proof (len_bPrim s src SO) as LB. pose proof (len_hPrim s src SO) as LH.
    unfold getfield, bSecondary, hSecondary, fdim, dim, isEB in *. cbv zeta.
    destruct (f_form s) eqn:K; destruct x; try (exfalso; apply X1; reflexivity); try (exfalso; apply X2; reflexivity); cln.
  Qed.
  Lemma field_dm_adj x z u : x <> FhSec -> (isEB s = false -> x <> FbSec) -> clen (fdim s x) z -> clen (dim s) u ->
    rdot z (field_dm s m m src x u v) = rdot (field_dmT s m m src x u z) (creal v).
  Proof.
    intros X1 X2 Lz Lu. pose proof (len_s_m s SZ m src SO) as LM. pose proof (len_s_e s SZ m src SO) as LE. pose proof (len_s_eDeriv s SZ m src v SO) as LD.
    pose proof (len_field Fb u ltac:(discriminate) ltac:(discriminate) Lu) as LFb. pose proof (len_field Fh u ltac:(discriminate) ltac:(discriminate) Lu) as LFh.
    pose proof (rdot_s_eDeriv s SZ m Lm src SO v) as RS. pose proof (fun z => len_s_eDerivT s SZ m Lm src SO z) as LT. pose proof len_rv as LV.
    set (fb := getfield s m m src Fb u) in *. set (fh := getfield s m m src Fh u) in *.
    unfold field_dm, field_dmT, fdim, dim, isEB in *. cbv zeta. fold fb fh. clearbody fb fh.
    destruct (f_form s) eqn:K; destruct x; try (exfalso; apply X1; reflexivity); try (exfalso; apply X2; reflexivity); rewrite ?rdot_zero_l, ?rdot_zero_r; try reflexivity;
      repeat first [ rewrite RS by (solve [cln]) | mv1 | progress (push s SZ) | rewrite (rdot_sub_l p) by (first [solve [cln] | apply LT; cln ]) | rewrite (rdot_add_l p) by (first [solve [cln] | apply LT; cln ]) ]; try ring.
    all: rewrite <- !rdot_divI; repeat first [rewrite rdot_opp_l | rewrite (rdot_add_l p) by (solve [cln])]; ring.
  Qed.
  Lemma len_field_dmT x z u : x <> FhSec -> (isEB s = false -> x <> FbSec) -> clen (fdim s x) z -> clen (dim s) u -> clen p (field_dmT s m m src x u z).
  Proof.
    intros X1 X2 Lz Lu. pose proof (len_s_m s SZ m src SO) as LM. pose proof (len_s_e s SZ m src SO) as LE.
    pose proof (len_field Fb u ltac:(discriminate) ltac:(discriminate) Lu) as LFb. pose proof (len_field Fh u ltac:(discriminate) ltac:(discriminate) Lu) as LFh. pose proof (fun z => len_s_eDerivT s SZ m Lm src SO z) as LT.
    set (fb := getfield s m m src Fb u) in *. set (fh := getfield s m m src Fh u) in *.
    unfold field_dmT, fdim, dim, isEB in *. cbv zeta. fold fb fh. clearbody fb fh.
    destruct (f_form s) eqn:K; destruct x; try (exfalso; apply X1; reflexivity); try (exfalso; apply X2; reflexivity); cln; auto 20 with cln.
  Qed.
  (** The system *)
  Lemma ADeriv_adj u x : clen (dim s) u -> clen (dim s) x -> rdot x (getADeriv s (s_freq src) m u v) = rdot (getADerivT s (s_freq src) m u x) (creal v).
  Proof.
    intros Lu Lx. pose proof len_rv as LV. unfold getADeriv, getADerivT, dim in *. cbv zeta. destruct (f_form s) eqn:K; mvs; try ring.
  Qed.
  Lemma len_ADerivT u x : clen (dim s) u -> clen (dim s) x -> clen p (getADerivT s (s_freq src) m u x).
  Proof. intros Lu Lx. unfold getADerivT, dim in *. cbv zeta. destruct (f_form s) eqn:K; cln. Qed.
  Definition qvalT (x : cvec) : cvec := val (czero 0) (getRHSDerivT s 1 m src x).
  Lemma stacked1 : stacked s 1 = false. Proof. unfold stacked; destruct (f_form s); cbn; rewrite ?Bool.andb_false_r; reflexivity. Qed.
  Lemma qvalT_ok k x : stacked s k = false -> getRHSDerivT s k m src x = Ok (qvalT x).
  Proof. intros H. unfold qvalT, getRHSDerivT. rewrite H, stacked1. reflexivity. Qed.
  Lemma q_adj x : clen (dim s) x -> rdot x (qval s m v src) = rdot (qvalT x) (creal v).
  Proof.
    intros Lx. pose proof (len_s_m s SZ m src SO) as LM. pose proof (len_s_e s SZ m src SO) as LE. pose proof (len_s_eDeriv s SZ m src v SO) as LD.
    pose proof (rdot_s_eDeriv s SZ m Lm src SO v) as RS. pose proof (fun z => len_s_eDerivT s SZ m Lm src SO z) as LT. pose proof (fun w z => s_eDerivT_cI s SZ m Lm src SO w z) as CT. pose proof len_rv as LV.
    assert (H0 : f_form s = FormH -> forall v, s_eDeriv s m src v = czero nF) by (intros E v0; unfold s_eDeriv, isEB; rewrite E; destruct (s_kind src); reflexivity).
    unfold qval, qvalT, getRHSDeriv, getRHSDerivT, dim, isEB in *. rewrite stacked1. cbn [val]. cbv zeta. destruct (f_form s) eqn:K.
    1,2,3: repeat first [ rewrite RS by (solve [cln]) | mv1 | rewrite CT by (solve [cln]) | progress (push s SZ) | rewrite (rdot_sub_l p) by (first [solve [cln] | apply len_cI; apply LT; cln | apply LT; cln ]) | rewrite (rdot_add_l p) by (first [solve [cln] | apply LT; cln ]) ]; try ring.
    rewrite H0 by reflexivity. rewrite (cmap_zero nF nF) by (apply lin_vmul; cln). rewrite (cmap_zero nF nE) by (apply L_curlT; exact SZ). mvs. rewrite rdot_zero_r. ring.
  Qed.
  Lemma len_qvalT x : clen (dim s) x -> clen p (qvalT x).
  Proof.
    intros Lx. pose proof (len_s_m s SZ m src SO) as LM. pose proof (len_s_e s SZ m src SO) as LE. pose proof (fun z => len_s_eDerivT s SZ m Lm src SO z) as LT.
    unfold qvalT, getRHSDerivT, dim, isEB in *. rewrite stacked1. cbn [val]. cbv zeta. destruct (f_form s) eqn:K; auto 20 with cln.
  Qed.
  Lemma A_symm fr : csymmetric (dim s) (getA s fr m).
  Proof.
    intros a b La Lb. rewrite !A_apply by assumption. unfold dim in *. destruct (f_form s) eqn:K; mvs; reflexivity || ring.
  Qed.
  Lemma solve_symm fr a b : csolves (dim s) (f_solve s) (getA s fr m) -> clen (dim s) a -> clen (dim s) b -> rdot a (f_solve s (getA s fr m) b) = rdot (f_solve s (getA s fr m) a) b.
  Proof.
    intros S La Lb. destruct (S a La) as [Ea _]. destruct (S b Lb) as [Eb _]. rewrite <- Ea at 1. rewrite <- (A_symm fr) by (apply len_solve; assumption). rewrite Eb. reflexivity.
  Qed.
End Adj2.
