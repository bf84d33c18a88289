From Verif Require Import Py Vec VecDeriv Joint Cplx CplxFacts SolveDeriv RichardsFacts RichardsFacts2 RichardsFacts3 DcFacts Fdem SpecFdem FdemFacts FdemFacts2 FdemFacts3 FdemFacts4 FdemFacts5 FdemFacts6 FdemFacts7.
From Verif Require JointFacts LinSimFacts DcFacts4 DcFacts5.
From Coq Require Import Reals Lra Lia Permutation.
Local Open Scope R_scope.

Lemma one_group srcs src : NoDup (map s_freq srcs) -> In src srcs -> length (with_freq (s_freq src) srcs) = 1%nat.
Proof.
  induction srcs as [|x l IH]; intros N I; [destruct I|]. cbn in N. inversion N; subst. unfold with_freq. cbn [filter]. destruct I as [->|I].
  - destruct (Req_EM_T (s_freq src) (s_freq src)) as [_|K]; [|exfalso; apply K; reflexivity]. cbn [length]. f_equal.
    assert (E : forall y, In y l -> s_freq y <> s_freq src) by (intros y Iy E; apply H1; rewrite <- E; apply in_map; exact Iy). clear - E. induction l as [|y l IH]; [reflexivity|]. cbn [filter].
    destruct (Req_EM_T (s_freq y) (s_freq src)) as [K|_]; [exfalso; apply (E y); [left; reflexivity|exact K]|]. apply IH. intros z Hz. apply E. right. exact Hz.
  - destruct (Req_EM_T (s_freq x) (s_freq src)) as [K|_]; [exfalso; apply H1; rewrite K; apply in_map; exact I|]. apply IH; assumption.
Qed.
Lemma diff_stacked s srcs : diff_ok s srcs -> forall fr src, In src srcs -> s_freq src = fr -> stacked s (length (with_freq fr srcs)) = false.
Proof.
  intros (_ & H & _) fr src I <-. unfold stacked, mapped in *. destruct (f_form s); try reflexivity.
  - destruct (p_deriv (f_face s)); [|reflexivity]. rewrite one_group by (auto). reflexivity.
  - destruct (p_deriv (f_edge s)); [|reflexivity]. rewrite one_group by (auto). reflexivity.
Qed.
Definition pgood (s : fdem) (srcs : list source) (m : vec) := length m = f_p s /\ (forall src, In src srcs -> csolves (dim s) (f_solve s) (getA s (s_freq src) m)).

Section Final.
  Context (s : fdem) (srcs : list source) (SU : setup_ok s srcs).
  Lemma dpred_fin m : length m = f_p s -> snd (dpred s (init srcs) m None) = Ok (loop (rxv s m) srcs).
  Proof. intros L. rewrite dpred_val by exact L. apply dpred_eq. exact SU. Qed.
  Lemma Jvec_fin m v : length m = f_p s -> diff_ok s srcs -> snd (Jvec s (init srcs) m v None) = Ok (loop (jrx s m v) srcs).
  Proof. intros L D. rewrite Jvec_val by exact L. apply Jvec_eq'; [exact SU|apply D|apply diff_stacked; exact D]. Qed.
  Lemma c66_jacobian m : diff_ok s srcs -> regular s srcs m ->
    (exists d, snd (dpred s (init srcs) m None) = Ok d /\ length d = data_size srcs) /\ (forall v, length v = f_p s -> exists j, snd (Jvec s (init srcs) m v None) = Ok j) /\
    has_jacobian (f_p s) (data_size srcs) (fun m' => val [] (snd (dpred s (init srcs) m' None))) m (fun v => val [] (snd (Jvec s (init srcs) m v None))).
  Proof.
    intros D RG. pose proof RG as (SF & SE & NR & SV). pose proof SV as (Lm & NF & NE & CS). pose proof (SZ s srcs SU) as Z.
    assert (LD : forall m', length m' = f_p s -> length (loop (rxv s m') srcs) = data_size srcs).
    { intros m' Lm'. apply loop_len. intros src r I J. unfold rxv. rewrite mv_length. apply (P_mat s r (rx_good s srcs SU src r I J)). }
    split; [eexists; split; [apply dpred_fin; exact Lm|apply LD; exact Lm]|]. split; [intros v Lv; eexists; apply Jvec_fin; assumption|].
    eapply DcFacts4.has_jacobian_ext with (F := fun m' => loop (rxv s m') srcs) (J := fun v => loop (jrx s m v) srcs); [|exact Lm| |].
    2:{ intros x Lx. rewrite dpred_fin by exact Lx. reflexivity. }
    2:{ intros v Lv. rewrite Jvec_fin by assumption. reflexivity. }
    intros v Lv. apply loop_vderiv. intros src r I J. pose proof (rx_good s srcs SU src r I J) as R. pose proof (src_good s srcs SU src I) as SO. destruct (field_ok s r R) as [X1 X2].
    assert (DO : isEB s = false -> mapped (f_edge s) = true -> is_dipole src = false). { intros E1 E2. destruct D as (_ & _ & D). specialize (D E1 E2). rewrite Forall_forall in D. apply D. exact I. }
    pose proof (D_sol s Z m v Lm Lv SF SE src SO NF NE DO srcs I NR SV) as DS. cbv beta in DS.
    pose proof (D_field s Z m v Lm Lv SF SE src SO NE DO (r_field r) _ _ X1 X2 DS) as DF.
    assert (E0 : vadd m (vscale 0 v) = m) by (apply (mt0 s m v Lm Lv)).
    cbv beta in DF. rewrite E0 in DF. unfold jrx, rxv. eapply vderiv_mv; [apply (P_mat s r R)|]. unfold du, rhs. destruct DF as [D1 D2]. unfold pt. destruct (r_comp r); assumption.
  Qed.
  Lemma c66_adjoint m v w : diff_ok s srcs -> length m = f_p s -> length v = f_p s -> length w = data_size srcs -> (forall src, In src srcs -> csolves (dim s) (f_solve s) (getA s (s_freq src) m)) ->
    exists j a, snd (Jvec s (init srcs) m v None) = Ok j /\ snd (Jtvec s (init srcs) m w None) = Ok a /\ length j = data_size srcs /\ length a = f_p s /\ dot w j = dot a v.
  Proof.
    intros D Lm Lv Lw CS. pose proof (diff_stacked s srcs D) as ST. pose proof (proj1 D) as FW. destruct (Jtvec_eq' s srcs SU m Lm FW ST v w Lv Lw CS) as (a & E & La & H).
    exists (loop (jrx s m v) srcs), a. split; [apply Jvec_fin; assumption|]. split; [rewrite Jtvec_val by exact Lm; exact E|]. split; [|split; assumption].
    apply loop_len. intros src r I J. apply (len_jrx s). apply (rx_good s srcs SU src r I J).
  Qed.
  Lemma c66_getJ m : diff_ok s srcs -> length m = f_p s -> (forall src, In src srcs -> csolves (dim s) (f_solve s) (getA s (s_freq src) m)) ->
    exists J, snd (getJ s (init srcs) m None) = Ok J /\ is_mat (data_size srcs) (f_p s) J /\
      (forall v, length v = f_p s -> snd (Jvec s (init srcs) m v None) = Ok (mv J v)) /\
      (forall w, length w = data_size srcs -> snd (Jtvec s (init srcs) m w None) = Ok (mtv (f_p s) J w)).
  Proof.
    intros D Lm CS. pose proof (diff_stacked s srcs D) as ST. pose proof (proj1 D) as FW. pose proof (J_mat s srcs SU m Lm CS) as M.
    exists (loop (rows s m) srcs). split; [rewrite getJ_val by exact Lm; apply (J_eq' s srcs SU m FW ST)|]. split; [exact M|]. split.
    - intros v Lv. rewrite Jvec_fin by assumption. f_equal. symmetry. apply (mv_loop s srcs SU m Lm v Lv CS).
    - intros w Lw. rewrite Jtvec_val by exact Lm. destruct (Jtvec_eq' s srcs SU m Lm FW ST (vzero (f_p s)) w (vzero_length _) Lw CS) as (a & E & La & _). rewrite E. f_equal.
      apply dot_ext; [rewrite La; symmetry; eapply mtv_length; exact M|]. intros v Lv. rewrite La in Lv. destruct (Jtvec_eq' s srcs SU m Lm FW ST v w Lv Lw CS) as (a' & E' & _ & H). rewrite E in E'. inversion E'; subst a'.
      rewrite <- H. rewrite <- (mv_mtv_adjoint (data_size srcs) (f_p s)) by assumption. rewrite (mv_loop s srcs SU m Lm v Lv CS). reflexivity.
  Qed.
  Lemma c66_jtj m W : diff_ok s srcs -> length m = f_p s -> (forall src, In src srcs -> csolves (dim s) (f_solve s) (getA s (s_freq src) m)) -> length W = data_size srcs ->
    exists J g, snd (getJ s (init srcs) m None) = Ok J /\ snd (getJtJdiag s (init srcs) m (Some W) None) = Ok g /\ length g = f_p s /\
      forall j, (j < f_p s)%nat -> nth j g 0 = vsum (map (fun i => (nth i W 0 * nth j (nth i J []) 0) ^ 2) (seq 0 (length J))).
  Proof.
    intros D Lm CS LW. destruct (c66_getJ m D Lm CS) as (J & EJ & HJ & _ & _). exists J.
    assert (E2 : exists st1, set_model s (init srcs) m = (st1, Ok tt) /\ st_gtg st1 = None /\ snd (getJ s st1 m None) = Ok J).
    { destruct (set_model_ok s srcs (init srcs) m (proj1 (init_inv s srcs)) Lm) as (st1 & E1 & I1 & _). exists st1. split; [exact E1|]. split.
      - revert E1. unfold set_model. rewrite Lm, Nat.eqb_refl. cbn [init st_model]. intros E1. inversion E1. reflexivity.
      - assert (I2 : Inv s srcs st1 None) by (split; [exact I1|intros ? ? ?; discriminate]). pose proof (proj1 (proj2 (getJ_ok s srcs st1 None m false I2))) as H1. pose proof (proj1 (proj2 (getJ_ok s srcs (init srcs) None m false (init_inv s srcs)))) as H2.
        unfold pick in H1, H2. rewrite H1, <- H2. exact EJ. }
    destruct E2 as (st1 & E1 & G1 & E2). unfold getJtJdiag. rewrite E1, G1.
    destruct (getJ s st1 m None) as [st r] eqn:E. cbn [snd] in E2. subst r. cbv zeta. cbn [snd]. eexists. split; [exact EJ|]. split; [reflexivity|]. destruct HJ as [LJ FJ].
    assert (FR : Forall (fun r => length r = f_p s) (map (fun wr => vscale (fst wr) (vmul (snd wr) (snd wr))) (combine (map (fun x => x ^ 2) W) J))).
    { apply Forall_forall. intros x Hx. apply in_map_iff in Hx. destruct Hx as ([c row] & <- & Hi). apply in_combine_r in Hi. rewrite Forall_forall in FJ. pose proof (FJ _ Hi). cbn [fst snd]. ln. }
    destruct (DcFacts4.sum_rows (f_p s) _ (vzero (f_p s)) (vzero_length _) FR) as [L1 H1]. split; [exact L1|]. intros j Hj. rewrite H1 by exact Hj. rewrite nth_zero, Rplus_0_l. rewrite (DcFacts4.jtj_sum (f_p s)) by (auto; rewrite map_length; congruence).
    f_equal. apply map_ext_in. intros i Hi. apply in_seq in Hi. rewrite (map_nth_lt (fun x => x ^ 2)) by lia. ring.
  Qed.
  (** Maxwell's equations *)
  Lemma fields_fin m : length m = f_p s -> snd (fields s (init srcs) m) = Ok (fieldsP s srcs m).
  Proof. intros L. destruct (fields_ok s srcs (init srcs) m) as (st & E & _); [apply (init_inv s srcs)|exact L|]. rewrite E. reflexivity. Qed.
  Lemma c66_maxwell m : solvable s srcs m ->
    exists f, snd (fields s (init srcs) m) = Ok f /\ forall src, In src srcs -> exists u, lookup s (make_survey srcs) f src = Ok u /\
      let x := getfield s m m src (if isEB s then Fe else Fj) u in let y := getfield s m m src (if isEB s then FbSec else FhSec) u in
      faraday_ampere s m src x y /\
      forall x' y', clen (if isEB s then f_nE s else f_nF s) x' -> clen (if isEB s then f_nF s else f_nE s) y' -> faraday_ampere s m src x' y' -> x' = x /\ y' = y.
  Proof.
    intros SV. pose proof SV as (Lm & _). exists (fieldsP s srcs m). split; [apply fields_fin; exact Lm|]. intros src I. exists (sol s m src). split; [apply (lookup_ok s srcs SU); exact I|].
    pose proof (SZ s srcs SU) as Z. pose proof (src_good s srcs SU src I) as SO. cbv zeta.
    assert (E : getfield s m m src (if isEB s then FbSec else FhSec) (sol s m src) = second s m src (sol s m src)) by (unfold second, getfield, isEB; destruct (f_form s); reflexivity). rewrite E. change (getfield s m m src (if isEB s then Fe else Fj) (sol s m src)) with (first s m src (sol s m src)).
    split; [eapply sol_maxwell; eassumption|]. intros x' y' Lx Ly H. destruct (maxwell_unique s Z srcs m src x' y' SV I SO Lx Ly H). split; congruence.
  Qed.
  (** A dipole in the E-B formulations, in terms of the total fields: no magnetic current, and the
      curl of the primary field in the background *)
  Lemma c66_dipole m src p mu0 : solvable s srcs m -> isEB s = true -> In src srcs -> s_kind src = Dipole p mu0 ->
    exists f u, snd (fields s (init srcs) m) = Ok f /\ lookup s (make_survey srcs) f src = Ok u /\
      let e := getfield s m m src Fe u in let b := getfield s m m src Fb u in
      cadd (cmap (curl s) e) (cI (omega (s_freq src)) b) = czero (f_nF s) /\
      csub (cmap (curlT s) (cmap (vmul (Fm s m)) b)) (cmap (vmul (Em s m)) e) = creal (curlT s (vmul (mv (f_Bf s) (vconst (f_nc s) (/ mu0))) p)).
  Proof.
    intros SV EB I K. pose proof SV as (Lm & _). exists (fieldsP s srcs m), (sol s m src). split; [apply fields_fin; exact Lm|]. split; [apply (lookup_ok s srcs SU); exact I|].
    pose proof (SZ s srcs SU) as Z. pose proof (src_good s srcs SU src I) as SO. pose proof (sol_maxwell s Z srcs m src SV I SO) as H. cbv zeta.
    pose proof (len_sol s Z m src SO) as Ls. pose proof SV as (_ & NF & NE & _). pose proof (len_first s Z m src SO (sol s m src) Ls) as L1. pose proof (len_second s Z m src SO (sol s m src) Ls) as L2.
    rewrite (field_spec s Z m src SO NE Fe) by (try assumption; congruence). rewrite (field_spec s Z m src SO NE Fb) by (try assumption; congruence). unfold spec_field. rewrite EB in *. unfold faraday_ampere in H. rewrite EB in H. cbv zeta in H.
    set (a := first s m src (sol s m src)) in *. set (b := second s m src (sol s m src)) in *. clearbody a b. destruct H as [H1 H2].
    pose proof SO as [_ SK]. rewrite K, EB in SK. destruct SK as [Lp _]. unfold s_m, s_e, bPrim in *. rewrite K in *. rewrite EB in *. split.
    - apply (c_ext (f_nF s)); [solve [cln]|solve [cln]|]. intros i Hi. pose proof (cre_eq i _ _ H1) as R. pose proof (cim_eq i _ _ H1) as I1. revert R I1. cent (f_nF s). intros R I1. split; lra.
    - pose proof (PF s Z m Lm) as [LPF _]. pose proof (MBf s Z) as MB.
      assert (E : curlT s (vmul (Fm s m) p) = vadd (curlT s (vmul (mv (f_Bf s) (vsub (p_val (f_face s) m) (vconst (f_nc s) (/ mu0)))) p)) (curlT s (vmul (mv (f_Bf s) (vconst (f_nc s) (/ mu0))) p))).
      { set (c := vconst (f_nc s) (/ mu0)). assert (Lc : length c = f_nc s) by (unfold c; rewrite vconst_length; reflexivity).
        assert (L3 : length (vmul (mv (f_Bf s) (vsub (p_val (f_face s) m) c)) p) = f_nF s) by (rewrite vmul_length; [rewrite mv_length; apply MB|rewrite mv_length; destruct MB; congruence]).
        assert (L4 : length (vmul (mv (f_Bf s) c) p) = f_nF s) by (rewrite vmul_length; [rewrite mv_length; apply MB|rewrite mv_length; destruct MB; congruence]).
        rewrite <- (proj1 (proj2 (L_curlT s Z))) by assumption. f_equal. unfold Fm. pose proof (lin_mv _ _ _ MB) as LB. rewrite (lin_sub (f_nc s) (f_nF s)) by assumption.
        pose proof (proj1 LB _ LPF) as Y1. pose proof (proj1 LB _ Lc) as Y2. set (y1 := mv (f_Bf s) (p_val (f_face s) m)) in *. set (y2 := mv (f_Bf s) c) in *. clearbody y1 y2. clear - Y1 Y2 Lp. vext (f_nF s). ring. }
      push s Z. rewrite (cmap_real (f_nF s) (f_nF s) (vmul (Fm s m)) (lin_vmul (f_nF s) (Fm s m) (len_Fm' s Z m))) by assumption. rewrite (cmap_real (f_nF s) (f_nE s) (curlT s) (L_curlT s Z)) by cln. rewrite E.
      set (y1 := curlT s (vmul (mv (f_Bf s) (vsub _ _)) p)) in *. set (y2 := curlT s (vmul (mv (f_Bf s) (vconst _ _)) p)) in *.
      assert (Y1 : length y1 = f_nE s) by (apply (proj1 (L_curlT s Z)); rewrite vmul_length; rewrite mv_length; destruct MB; congruence). assert (Y2 : length y2 = f_nE s) by (apply (proj1 (L_curlT s Z)); rewrite vmul_length; rewrite mv_length; destruct MB; congruence). clearbody y1 y2.
      apply (c_ext (f_nE s)); [solve [cln]|solve [cln]|]. intros i Hi. pose proof (cre_eq i _ _ H2) as R. pose proof (cim_eq i _ _ H2) as I1. revert R I1. cent (f_nE s). rewrite (nth_vadd y1 y2) by congruence; rewrite nO. intros R I1. split; lra.
  Qed.
End Final.

(** The E and B (and the J and H) formulations give the same data. *)
Lemma c66_same s k solve srcs m : setup_ok s srcs -> setup_ok (with_form s k solve) srcs -> isEB (with_form s k solve) = isEB s -> solvable s srcs m -> solvable (with_form s k solve) srcs m ->
  snd (dpred (with_form s k solve) (init srcs) m None) = snd (dpred s (init srcs) m None).
Proof.
  intros SU SU' EB SV SV'. pose proof SV as (Lm & _ & NE & _). rewrite (dpred_fin s srcs SU m Lm), (dpred_fin (with_form s k solve) srcs SU' m Lm). f_equal. unfold loop. f_equal. apply map_ext_in. intros src I. f_equal. apply map_ext_in. intros r J.
  set (s' := with_form s k solve) in *. pose proof (SZ s srcs SU) as Z. pose proof (SZ s' srcs SU') as Z'. pose proof (src_good s srcs SU src I) as SO. pose proof (src_good s' srcs SU' src I) as SO'. pose proof (rx_good s srcs SU src r I J) as R. destruct (field_ok s r R) as [X1 X2].
  unfold rxv. assert (EP : P s' r = P s r) by (unfold P, edge, gloc; rewrite EB; reflexivity). rewrite EP. f_equal. f_equal.
  rewrite (field_spec s Z m src SO NE) by (try assumption; apply len_sol; assumption). rewrite (field_spec s' Z' m src SO' NE) by (try assumption; try (rewrite EB; assumption); apply len_sol; assumption).
  pose proof (sol_maxwell s' Z' srcs m src SV' I SO') as H. pose proof (len_first s' Z' m src SO' _ (len_sol s' Z' m src SO')) as L1. pose proof (len_second s' Z' m src SO' _ (len_sol s' Z' m src SO')) as L2.
  set (a := first s' m src (sol s' m src)) in *. set (b := second s' m src (sol s' m src)) in *. clearbody a b.
  assert (EM : s_m s' m src = s_m s m src) by (unfold s_m; rewrite EB; reflexivity). assert (ES : s_e s' m src = s_e s m src) by (unfold s_e; rewrite EB; reflexivity).
  assert (H' : faraday_ampere s m src a b) by (revert H; unfold faraday_ampere; rewrite EB, EM, ES; exact (fun x => x)). rewrite EB in L1, L2.
  destruct (maxwell_unique s Z srcs m src a b SV I SO L1 L2 H') as [-> ->]. unfold spec_field, bPrim, hPrim. rewrite EB. reflexivity.
Qed.
