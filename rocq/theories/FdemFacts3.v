From Verif Require Import Py Vec VecDeriv Joint Cplx CplxFacts SolveDeriv RichardsFacts RichardsFacts2 RichardsFacts3 DcFacts Fdem SpecFdem FdemFacts FdemFacts2.
From Verif Require Richards JointFacts.
From Coq Require Import Reals Lra Lia.
Local Open Scope R_scope.

(** ** Pairs of vectors as vectors of twice the length *)
Definition flat (z : cvec) : vec := fst z ++ snd z.
Definition unflat (n : nat) (v : vec) : cvec := (firstn n v, skipn n v).
Lemma flat_unflat n v : flat (unflat n v) = v. Proof. apply firstn_skipn. Qed.
Lemma unflat_flat n z : clen n z -> unflat n (flat z) = z.
Proof. destruct z as [a b]. intros [A B]. cbn in A, B. unfold unflat, flat. cbn [fst snd]. rewrite <- A. rewrite firstn_app, skipn_app, Nat.sub_diag, firstn_all, skipn_all. cbn. rewrite app_nil_r. reflexivity. Qed.
Lemma len_flat n z : clen n z -> length (flat z) = (n + n)%nat. Proof. intros [A B]. unfold flat. rewrite app_length. lia. Qed.
Lemma len_unflat n v : length v = (n + n)%nat -> clen n (unflat n v). Proof. intros. split; cbn; [rewrite firstn_length|rewrite skipn_length]; lia. Qed.
Definition cscale (c : R) : cvec -> cvec := cmap (vscale c).
Lemma firstn_vadd n a b : firstn n (vadd a b) = vadd (firstn n a) (firstn n b).
Proof. revert a b. induction n; intros [|x a] [|y b]; cbn; try reflexivity. f_equal. apply IHn. Qed.
Lemma skipn_vadd n a b : length a = length b -> skipn n (vadd a b) = vadd (skipn n a) (skipn n b).
Proof. revert a b. induction n; intros [|x a] [|y b] L; cbn in *; try reflexivity; try discriminate. apply IHn. lia. Qed.
Lemma unflat_add n a b : length a = length b -> unflat n (vadd a b) = cadd (unflat n a) (unflat n b).
Proof. intros. unfold unflat, cadd. cbn. rewrite firstn_vadd, skipn_vadd by assumption. reflexivity. Qed.
Lemma unflat_scale n c a : unflat n (vscale c a) = cscale c (unflat n a).
Proof. unfold unflat, cscale, cmap, vscale. cbn. rewrite firstn_map, skipn_map. reflexivity. Qed.
Lemma flat_add n a b : clen n a -> clen n b -> flat (cadd a b) = vadd (flat a) (flat b).
Proof. intros [A1 A2] [B1 B2]. unfold flat, cadd. cbn [fst snd]. clear A2 B2. destruct a as [a a'], b as [b b']. cbn in *. subst n. revert b B1. induction a; intros [|y b] L; cbn in *; try discriminate; [reflexivity|]. f_equal. apply IHa. lia. Qed.
Lemma flat_scale c a : flat (cscale c a) = vscale c (flat a).
Proof. unfold flat, cscale, cmap, vscale. cbn. rewrite map_app. reflexivity. Qed.
Definition clin (n k : nat) (f : cvec -> cvec) : Prop :=
  (forall a, clen n a -> clen k (f a)) /\ (forall a b, clen n a -> clen n b -> f (cadd a b) = cadd (f a) (f b)) /\ (forall c a, clen n a -> f (cscale c a) = cscale c (f a)).
Lemma clin_flat n k f : clin n k f -> lin_map (n + n) (k + k) (fun v => flat (f (unflat n v))).
Proof.
  intros (L & A & C). split; [|split].
  - intros. apply len_flat. apply L. apply len_unflat. assumption.
  - intros a b La Lb. rewrite unflat_add by congruence. rewrite A by (apply len_unflat; assumption). apply (flat_add k); apply L; apply len_unflat; assumption.
  - intros c a La. rewrite unflat_scale, C by (apply len_unflat; assumption). apply flat_scale.
Qed.
Lemma len_scale k c a : clen k a -> clen k (cscale c a). Proof. intros [? ?]. split; cbn; ln. Qed.
Lemma cderiv_flat n f f' : cderiv n f f' -> vderiv (n + n) (fun t => flat (f t)) 0 (flat f').
Proof. intros [A B]. apply JointFacts.vderiv_app; assumption. Qed.
Lemma flat_cderiv n f f' : (forall t, clen n (f t)) -> clen n f' -> vderiv (n + n) (fun t => flat (f t)) 0 (flat f') -> cderiv n f f'.
Proof.
  intros L L' (_ & _ & D). split; (split; [intros t; apply L|]; split; [apply L'|]).
  - intros i Hi. specialize (D i ltac:(lia)). cbv beta in D. unfold flat in D. rewrite app_nth1 in D by (destruct L'; lia).
    eapply dpl_ext; [|exact D]. intros t. cbv beta. destruct (L t). rewrite app_nth1 by lia. reflexivity.
  - intros i Hi. specialize (D (n + i)%nat ltac:(lia)). cbv beta in D. unfold flat in D. destruct L' as [L1 L2]. rewrite app_nth2 in D by lia. replace (n + i - length (fst f'))%nat with i in D by lia.
    eapply dpl_ext; [|exact D]. intros t. cbv beta. destruct (L t). rewrite app_nth2 by lia. f_equal. lia.
Qed.

(** The solution of a complex system whose matrix and right-hand side change *)
Section CSolve.
  Context (n : nat) (A : R -> cvec -> cvec) (A' S : cvec -> cvec) (u q : R -> cvec) (q' : cvec).
  Hypothesis LA : forall t, clin n n (A t).
  Hypothesis DA : forall y, clen n y -> cderiv n (fun t => A t y) (A' y).
  Hypothesis LS : clin n n S.
  Hypothesis HS : forall y, clen n y -> S (A 0 y) = y.
  Hypothesis Lu : forall t, clen n (u t).
  Hypothesis Dq : cderiv n q q'.
  Context (e : R) (He : 0 < e) (Hu : forall t, Rabs t < e -> A t (u t) = q t).
  Lemma csolve_deriv : cderiv n u (S (cadd (copp (A' (u 0))) q')).
  Proof.
    assert (LA' : clen n (A' (u 0))) by (apply (cderiv_len n _ _ (DA (u 0) (Lu 0)))).
    assert (Lq' : clen n q') by (apply (cderiv_len n _ _ Dq)).
    assert (Lc : clen n (cadd (copp (A' (u 0))) q')) by cln.
    apply flat_cderiv; [exact Lu|apply LS; exact Lc|].
    pose proof (solve_deriv_rhs (n + n) (fun t v => flat (A t (unflat n v))) (fun v => flat (A' (unflat n v))) (fun v => flat (S (unflat n v)))
      (fun t => flat (u t)) (fun t => flat (q t)) (flat q')) as D. cbv beta in D. eapply vderiv_eq; [|eapply D; clear D].
    - rewrite unflat_flat by apply Lu. f_equal. f_equal.
      assert (E : vadd (vopp (flat (A' (u 0)))) (flat q') = flat (cadd (copp (A' (u 0))) q')).
      { rewrite (flat_add n) by cln. f_equal. unfold flat, copp, cmap, vopp. cbn. rewrite map_app. reflexivity. }
      rewrite E. apply unflat_flat. exact Lc.
    - intros t. apply clin_flat. apply LA.
    - intros y Ly. apply cderiv_flat. apply DA. apply len_unflat. exact Ly.
    - apply clin_flat. exact LS.
    - intros y Ly. assert (Y : clen n (unflat n y)) by (apply len_unflat; exact Ly). rewrite unflat_flat by (apply LA; exact Y). rewrite HS by exact Y. apply flat_unflat.
    - intros t. apply len_flat. apply Lu.
    - apply cderiv_flat. exact Dq.
    - exact He.
    - intros t Ht. rewrite unflat_flat by apply Lu. rewrite Hu by exact Ht. reflexivity.
  Qed.
End CSolve.
Lemma csolves_lin n solve A : clin n n (cact A) -> (forall b, clen n b -> clen n (solve A b)) -> csolves n solve A -> clin n n (solve A).
Proof.
  intros (LA & AA & CA) L S. split; [exact L|]. split.
  - intros a b La Lb. symmetry. apply S; [cln|apply len_add; auto|]. rewrite AA by auto. rewrite (proj1 (S a La)), (proj1 (S b Lb)). reflexivity.
  - intros c a La. symmetry. apply S; [apply len_scale; auto|apply len_scale; auto|]. rewrite CA by auto. rewrite (proj1 (S a La)). reflexivity.
Qed.
Lemma csolves_left n solve A y : (forall b, clen n b -> clen n (cact A b)) -> csolves n solve A -> clen n y -> solve A (cact A y) = y.
Proof. intros LA S L. symmetry. apply (S (cact A y)); auto. Qed.

Section Sys.
  Context (s : fdem) (SZ : sizes s).
  Notation nE := (f_nE s). Notation nF := (f_nF s). Notation p := (f_p s).
  Lemma wf_A fr m : wfm (dim s) (dim s) (re_mx (getA s fr m)) /\ wfm (dim s) (dim s) (im_mx (getA s fr m)).
  Proof.
    pose proof (len_Fm' s SZ m) as LF. pose proof (len_Em' s SZ m) as LE. pose proof (len_EI s SZ m) as LI. pose proof (MC s SZ) as M.
    assert (L1 : length (vconst nF 1) = nF) by apply vconst_length. unfold dim, getA, MxC. destruct (f_form s); cbn [re_mx im_mx wfm]; split.
    1, 7: exists nF; split; [split; [reflexivity|exact M]|]; exists nF; split; [split; [exact LF|reflexivity]|split; [reflexivity|exact M]].
    1, 6: split; [exact LE|reflexivity].
    1, 3: exists nF; split; [split; [exact LF|reflexivity]|]; exists nE; split; [split; [reflexivity|exact M]|]; exists nE; split; [split; [exact LI|reflexivity]|]; exists nF; split; [split; [reflexivity|exact M]|split; [exact LF|reflexivity]].
    1, 2: exists nF; split; [split; [exact LF|reflexivity]|split; [exact L1|reflexivity]].
  Qed.
  Lemma cact_clin fr m : clin (dim s) (dim s) (cact (getA s fr m)).
  Proof.
    destruct (wf_A fr m) as [W1 W2]. destruct (lin_act _ _ _ W1) as [(R1 & R2 & R3) _]. destruct (lin_act _ _ _ W2) as [(I1 & I2 & I3) _]. unfold cact. split; [|split].
    - intros a [La La']. split; cbn; [apply ln_sub|apply ln_add]; auto.
    - intros [a a'] [b b'] [La La'] [Lb Lb']. cbn [fst snd] in *. unfold cadd. cbn [fst snd]. rewrite !R2, !I2 by assumption.
      pose proof (R1 a La); pose proof (R1 a' La'); pose proof (R1 b Lb); pose proof (R1 b' Lb'); pose proof (I1 a La); pose proof (I1 a' La'); pose proof (I1 b Lb); pose proof (I1 b' Lb').
      f_equal; vext (dim s); ring.
    - intros c [a a'] [La La']. cbn [fst snd] in *. unfold cscale, cmap. cbn [fst snd]. rewrite !R3, !I3 by assumption. pose proof (R1 a La); pose proof (R1 a' La'); pose proof (I1 a La); pose proof (I1 a' La'). f_equal; vext (dim s); ring.
  Qed.
End Sys.

Section Deriv.
  Context (s : fdem) (SZ : sizes s) (m v : vec) (Lm : length m = f_p s) (Lv : length v = f_p s).
  Context (SF : smooth (f_p s) (f_nc s) (f_face s) m) (SE : smooth (f_p s) (f_nc s) (f_edge s) m).
  Context (src : source) (SO : src_ok s src) (NF : no_zero (Fm s m)) (NE : no_zero (Em s m)).
  Hypothesis DO : isEB s = false -> mapped (f_edge s) = true -> is_dipole src = false.
  Notation nE := (f_nE s). Notation nF := (f_nF s). Notation p := (f_p s).
  Let mt (t : R) : vec := vadd m (vscale t v).
  Lemma len_mt t : length (mt t) = p. Proof. unfold mt. ln. Qed.
  Lemma mt0 : mt 0 = m. Proof. unfold mt. vext (f_p s). ring. Qed.
  Lemma D_prop q M r (Q : prop_sizes p (f_nc s) q) : smooth p (f_nc s) q m -> is_mat r (f_nc s) M ->
    vderiv r (fun t => mv M (p_val q (mt t))) 0 (match p_deriv q with None => vzero r | Some D => mv M (mv (D m) v) end).
  Proof.
    intros SQ HM. unfold smooth in SQ. destruct (p_deriv q) as [D|].
    - apply (vderiv_lin (f_nc s) r (mv M)); [apply lin_mv; exact HM|]. apply SQ. exact Lv.
    - apply (vderiv_ext r (fun _ => mv M (p_val q m))); [intros t; rewrite (SQ (mt t)) by apply len_mt; reflexivity|]. apply vderiv_const. rewrite mv_length. apply HM.
  Qed.
  Lemma D_Fm : vderiv nF (fun t => Fm s (mt t)) 0 (dF s m v). Proof. apply D_prop; [apply PF; exact SZ|exact SF|apply MBf; exact SZ]. Qed.
  Lemma D_Em : vderiv nE (fun t => Em s (mt t)) 0 (dE s m v). Proof. apply D_prop; [apply PE; exact SZ|exact SE|apply MBe; exact SZ]. Qed.
  Lemma D_EI : vderiv nE (fun t => EI s (mt t)) 0 (vopp (vmul (vmul (EI s m) (EI s m)) (dE s m v))).
  Proof.
    unfold EI at 1. eapply vderiv_eq; [|apply vderiv_inv; [exact D_Em|]].
    - cbv beta. rewrite mt0. pose proof (len_Em' s SZ m). pose proof (len_EI s SZ m). pose proof (len_dE s SZ m v). vext (f_nE s). rewrite nth_EI by (exact SZ || assumption). unfold Richards.sq. pose proof (NE' s SZ m NE i Hi). field. assumption.
    - intros i Hi. cbv beta. rewrite mt0. apply NE'; assumption.
  Qed.
  Lemma D_F z z' : cderiv nF z z' -> cderiv nF (fun t => cmap (vmul (Fm s (mt t))) (z t)) (cadd (cmap (vmul (Fm s m)) z') (cFd s m (z 0) v)).
  Proof.
    intros D. pose proof (cderiv_len _ _ _ D) as [L L']. specialize (L 0). eapply cderiv_eq; [|apply cderiv_diag; [exact D_Fm|exact D]]. cbv beta. rewrite mt0. f_equal.
    unfold cFd, cmap. destruct L as [L1 L2]. rewrite !Fd_eq by assumption. reflexivity.
  Qed.
  Lemma D_E z z' : cderiv nE z z' -> cderiv nE (fun t => cmap (vmul (Em s (mt t))) (z t)) (cadd (cmap (vmul (Em s m)) z') (cEd s m (z 0) v)).
  Proof.
    intros D. pose proof (cderiv_len _ _ _ D) as [L L']. specialize (L 0). eapply cderiv_eq; [|apply cderiv_diag; [exact D_Em|exact D]]. cbv beta. rewrite mt0. f_equal.
    unfold cEd, cmap. destruct L as [L1 L2]. rewrite !Ed_eq by assumption. reflexivity.
  Qed.
  Lemma D_EIc z z' : cderiv nE z z' -> cderiv nE (fun t => cmap (vmul (EI s (mt t))) (z t)) (cadd (cmap (vmul (EI s m)) z') (cEId s m (z 0) v)).
  Proof.
    intros D. pose proof (cderiv_len _ _ _ D) as [L L']. specialize (L 0). eapply cderiv_eq; [|apply cderiv_diag; [exact D_EI|exact D]]. cbv beta. rewrite mt0. f_equal.
    unfold cEId, EId, cmap. destruct L as [L1 L2]. pose proof (len_EI s SZ m). pose proof (len_dE s SZ m v). rewrite !Ed_eq by ln. f_equal; vext (f_nE s); ring.
  Qed.
  Lemma D_s_m : cderiv (if isEB s then nF else nE) (fun t => s_m s (mt t) src) (czero (if isEB s then nF else nE)).
  Proof.
    apply (cderiv_ext _ (fun _ => s_m s m src)); [|apply cderiv_const; apply len_s_m; assumption]. intros t. unfold s_m. destruct (s_kind src) eqn:K; [reflexivity|].
    destruct (isEB s) eqn:B; [reflexivity|]. do 3 f_equal. unfold Em. f_equal. specialize (DO eq_refl). unfold mapped, is_dipole in DO. rewrite K in DO. unfold smooth in SE.
    destruct (p_deriv (f_edge s)); [specialize (DO eq_refl); discriminate|]. symmetry. apply SE. apply len_mt.
  Qed.
  Lemma D_s_e : cderiv (if isEB s then nE else nF) (fun t => s_e s (mt t) src) (s_eDeriv s m src v).
  Proof.
    pose proof (len_s_e s SZ m src SO) as LL. unfold s_eDeriv. unfold s_e in *. pose proof (proj2 SO) as SO'. destruct (s_kind src) as [sm se|q mu0] eqn:K.
    - apply cderiv_const. exact LL.
    - destruct SO' as [Lq _]. destruct (isEB s) eqn:B.
      + apply cderiv_real. apply (vderiv_lin nE nE vopp); [split; [intros; ln|split; intros; vext (f_nE s); ring]|]. apply (vderiv_lin nF nE (curlT s)); [apply L_curlT; exact SZ|].
        rewrite Fd_eq by assumption. rewrite vmul_comm'. apply (vderiv_ext _ (fun t => vmul q (mv (f_Bf s) (vsub (p_val (f_face s) (mt t)) (vconst (f_nc s) (/ mu0)))))); [intros; apply vmul_comm'|]. rewrite vmul_comm'.
        apply (vderiv_lin nF nF (vmul q)); [apply lin_vmul; exact Lq|].
        pose proof (MBf s SZ) as HM. set (c := vconst (f_nc s) (/ mu0)). assert (Lc : length c = f_nc s) by apply vconst_length.
        apply (vderiv_ext _ (fun t => vsub (Fm s (mt t)) (mv (f_Bf s) c))).
        { intros t. symmetry. unfold Fm; apply (lin_sub (f_nc s) nF (mv (f_Bf s))); [apply lin_mv; exact HM| |exact Lc]. apply (PF s SZ). apply len_mt. }
        eapply vderiv_eq; [|apply vderiv_sub; [exact D_Fm|apply vderiv_const; rewrite mv_length; apply HM]]. pose proof (len_dF s SZ m v). vext (f_nF s). ring.
      + eapply cderiv_ext; [|apply cderiv_const; exact LL]. intros t. cbv beta. specialize (DO eq_refl). unfold mapped, is_dipole in DO. rewrite K in DO. unfold smooth in SE.
        destruct (p_deriv (f_edge s)); [specialize (DO eq_refl); discriminate|]. rewrite (SE (mt t)) by apply len_mt. reflexivity.
  Qed.
  Lemma D_c k z : clen k z -> cderiv k (fun _ => z) (czero k). Proof. apply cderiv_const. Qed.
  Lemma D_curl z z' : cderiv nE z z' -> cderiv nF (fun t => cmap (curl s) (z t)) (cmap (curl s) z'). Proof. apply cderiv_lin. apply L_curl. exact SZ. Qed.
  Lemma D_curlT z z' : cderiv nF z z' -> cderiv nE (fun t => cmap (curlT s) (z t)) (cmap (curlT s) z'). Proof. apply cderiv_lin. apply L_curlT. exact SZ. Qed.
  Lemma D_MfI z z' : cderiv nF z z' -> cderiv nF (fun t => cmap (vmul (f_MfI s)) (z t)) (cmap (vmul (f_MfI s)) z'). Proof. apply cderiv_lin. apply lin_vmul. apply len_MfI. exact SZ. Qed.
  Lemma D_MeI z z' : cderiv nE z z' -> cderiv nE (fun t => cmap (vmul (f_MeI s)) (z t)) (cmap (vmul (f_MeI s)) z'). Proof. apply cderiv_lin. apply lin_vmul. apply len_MeI. exact SZ. Qed.
  Lemma zero_curl : cmap (curl s) (czero nE) = czero nF. Proof. apply (cmap_zero nE nF). apply L_curl. exact SZ. Qed.
  Lemma zero_curlT : cmap (curlT s) (czero nF) = czero nE. Proof. apply (cmap_zero nF nE). apply L_curlT. exact SZ. Qed.
  Ltac dz := repeat first [ eassumption | eapply D_F | eapply D_E | eapply D_EIc | eapply D_curl | eapply D_curlT | eapply D_MfI | eapply D_MeI
    | eapply cderiv_add | eapply cderiv_sub | eapply cderiv_opp | eapply cderiv_cI | eapply cderiv_divI | eapply cderiv_const; solve [cln] ].
  Definition inner (y : cvec) : cvec := cadd (cmap (curl s) (cmap (vmul (EI s m)) (cmap (curlT s) (cmap (vmul (Fm s m)) y)))) (cI (omega (s_freq src)) y).
  Definition fullA (y : cvec) : cvec :=
    match f_form s with
    | FormE | FormH => getADeriv s (s_freq src) m y v
    | _ => cadd (getADeriv s (s_freq src) m y v) (cFd s m (inner y) v)
    end.
  Lemma zeroF : cmap (vmul (Fm s m)) (czero nF) = czero nF. Proof. apply (cmap_zero nF nF). apply lin_vmul. apply len_Fm'. exact SZ. Qed.
  Lemma zeroE : cmap (vmul (EI s m)) (czero nE) = czero nE. Proof. apply (cmap_zero nE nE). apply lin_vmul. apply len_EI. exact SZ. Qed.
  Ltac zz := repeat first [ rewrite mt0 | rewrite zeroF | rewrite zeroE | rewrite zero_curl | rewrite zero_curlT ].
  Lemma D_A y : clen (dim s) y -> cderiv (dim s) (fun t => cact (getA s (s_freq src) (mt t)) y) (fullA y).
  Proof.
    intros Ly. eapply cderiv_ext; [intros t; symmetry; apply A_apply; assumption|]. unfold fullA, getADeriv, inner. unfold dim in *. destruct (f_form s); (eapply cderiv_eq; cycle 1; [dz|]); cbv beta zeta; zz; push s SZ; zz.
    - cext (f_nE s). split; ring.
    - cext (f_nF s). split; ring.
    - cext (f_nF s). split; ring.
    - cext (f_nE s). split; ring.
  Qed.
  (** The derivative of the right-hand side when it can be computed *)
  Definition qval : cvec := val (czero 0) (getRHSDeriv s 1 m src v).
  Lemma qval_ok k : stacked s k = false -> getRHSDeriv s k m src v = Ok qval.
  Proof. intros H. unfold qval, getRHSDeriv. rewrite H. assert (H1 : stacked s 1 = false) by (unfold stacked; destruct (f_form s); cbn; rewrite ?Bool.andb_false_r; reflexivity). rewrite H1. reflexivity. Qed.
  Definition innerq : cvec :=
    match f_form s with
    | FormB => cadd (s_m s m src) (cmap (curl s) (cmap (vmul (EI s m)) (s_e s m src)))
    | FormJ => csub (cmap (curl s) (cmap (vmul (EI s m)) (s_m s m src))) (cI (omega (s_freq src)) (s_e s m src))
    | _ => czero 0
    end.
  Definition fullq : cvec := match f_form s with FormE | FormH => qval | _ => cadd qval (cFd s m innerq v) end.
  Lemma D_RHS : cderiv (dim s) (fun t => getRHS s (mt t) src) fullq.
  Proof.
    pose proof D_s_m as DM. pose proof D_s_e as DE. pose proof (len_s_m s SZ m src SO) as LM. pose proof (len_s_e s SZ m src SO) as LE. pose proof (len_s_eDeriv s SZ m src v SO) as LD.
    unfold fullq, innerq. assert (Q : getRHSDeriv s 1 m src v = Ok qval) by (apply qval_ok; unfold stacked; destruct (f_form s); cbn; rewrite ?Bool.andb_false_r; reflexivity).
    revert Q. unfold getRHSDeriv. assert (H1 : stacked s 1 = false) by (unfold stacked; destruct (f_form s); cbn; rewrite ?Bool.andb_false_r; reflexivity). rewrite H1. clear H1. intros Q. injection Q as <-.
    unfold getRHS, dim, isEB in *. destruct (f_form s); (eapply cderiv_eq; cycle 1; [dz|]); cbv beta zeta; zz; push s SZ; zz.
    - cext (f_nE s). split; ring.
    - cext (f_nF s). split; ring.
    - cext (f_nF s). split; ring.
    - cext (f_nE s). split; ring.
  Qed.
  Lemma len_fullA y : clen (dim s) y -> clen (dim s) (fullA y). Proof. intros. apply (cderiv_len _ _ _ (D_A y H)). Qed.
  (** The solution *)
  Context (srcs : list source) (IN : In src srcs) (NR : SpecDc.near (f_p s) m (solvable s srcs)) (SV : solvable s srcs m).
  Lemma near_path : exists e, 0 < e /\ forall t, Rabs t < e -> solvable s srcs (mt t).
  Proof.
    destruct NR as (e & He & H). set (B := fold_right Rmax 1 (map Rabs v)). assert (HB : 1 <= B) by (unfold B; clear; induction (map Rabs v); cbn; [lra|pose proof (Rmax_r a (fold_right Rmax 1 l)); lra]).
    exists (e / B). split; [apply Rdiv_lt_0_compat; lra|]. intros t Ht. apply H; [apply len_mt|]. intros i Hi. unfold mt. nths (f_p s). replace (nth i m 0 + t * nth i v 0 - nth i m 0) with (t * nth i v 0) by ring. rewrite Rabs_mult.
    assert (Hv : Rabs (nth i v 0) <= B).
    { unfold B. rewrite <- Lv in Hi. clear - Hi. revert i Hi. induction v as [|x l IH]; intros i Hi; cbn in Hi; [lia|]. cbn. destruct i; [apply Rmax_l|]. eapply Rle_trans; [apply IH; lia|apply Rmax_r]. }
    apply Rle_lt_trans with (Rabs t * B); [apply Rmult_le_compat_l; [apply Rabs_pos|exact Hv]|].
    apply Rlt_le_trans with (e / B * B); [apply Rmult_lt_compat_r; lra|]. right. field. lra.
  Qed.
  Lemma D_sol : cderiv (dim s) (fun t => sol s (mt t) src)
    (f_solve s (getA s (s_freq src) m) (cadd (copp (getADeriv s (s_freq src) m (sol s m src) v)) qval)).
  Proof.
    destruct near_path as (e & He & Hn). pose proof SV as (_ & _ & _ & HS). pose proof (len_sol s SZ m src SO) as Ls.
    assert (LA : forall t, clin (dim s) (dim s) (cact (getA s (s_freq src) (mt t)))) by (intros; apply cact_clin; exact SZ).
    eapply cderiv_eq; [|apply (csolve_deriv (dim s) (fun t => cact (getA s (s_freq src) (mt t))) fullA (f_solve s (getA s (s_freq src) m)) (fun t => sol s (mt t) src) (fun t => getRHS s (mt t) src) fullq) with (e := e)].
    - cbv beta. rewrite mt0. f_equal. pose proof (sol_ok s SZ srcs m src SV IN SO) as E. rewrite A_apply in E by assumption. unfold getRHS in E.
      pose proof (len_s_m s SZ m src SO) as LM. pose proof (len_s_e s SZ m src SO) as LE. pose proof (len_fullA _ Ls) as LfA. pose proof (proj2 (cderiv_len _ _ _ D_RHS)) as Lfq.
      unfold fullA, fullq, inner, innerq, dim, isEB in *. destruct (f_form s) eqn:K; try reflexivity.
      + assert (LQ : clen nF qval). { unfold qval, getRHSDeriv, stacked. rewrite K. cbn [val]. pose proof (len_s_eDeriv s SZ m src v SO) as LD. unfold isEB in LD. rewrite K in LD. cln. }
        assert (LG : clen nF (getADeriv s (s_freq src) m (sol s m src) v)). { unfold getADeriv. rewrite K. cln. }
        apply F_cancel in E; [| | |solve[cln]|solve [cln]]; try assumption. rewrite E. cext (f_nF s). split; ring.
      + assert (LQ : clen nF qval). { unfold qval, getRHSDeriv, stacked. rewrite K. rewrite Bool.andb_false_r. cbn [val]. pose proof (len_s_eDeriv s SZ m src v SO) as LD. unfold isEB in LD. rewrite K in LD. cln. }
        assert (LG : clen nF (getADeriv s (s_freq src) m (sol s m src) v)). { unfold getADeriv. rewrite K. cln. }
        apply F_cancel in E; [| | |solve[cln]|solve [cln]]; try assumption. rewrite E. cext (f_nF s). split; ring.
    - exact LA.
    - apply D_A.
    - apply csolves_lin; [apply cact_clin; exact SZ|intros; apply len_solve; assumption|apply (HS src IN)].
    - intros y Ly. cbv beta. rewrite mt0. apply (csolves_left (dim s)); [intros; apply len_act; assumption|apply (HS src IN)|exact Ly].
    - intros t. apply len_sol; assumption.
    - apply D_RHS.
    - exact He.
    - intros t Ht. apply (sol_ok s SZ srcs); [apply Hn; exact Ht|exact IN|exact SO].
  Qed.
End Deriv.
