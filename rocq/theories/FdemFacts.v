From Verif Require Import Py Vec VecDeriv Joint Cplx CplxFacts SolveDeriv RichardsFacts RichardsFacts2 RichardsFacts3 DcFacts Fdem SpecFdem.
From Verif Require MapsFacts.
From Coq Require Import Reals Lra Lia.
Local Open Scope R_scope.

Lemma vmul_zero_r n a : length a = n -> vmul a (vzero n) = vzero n.
Proof. intros. vext n. ring. Qed.
Lemma omega_pos f : 0 < f -> 0 < omega f.
Proof. intros. unfold omega. pose proof PI_RGT_0. apply Rmult_lt_0_compat; lra. Qed.

Section Facts.
  Context (s : fdem) (SZ : sizes s).
  Notation nE := (f_nE s). Notation nF := (f_nF s). Notation p := (f_p s).
  Lemma MC : is_mat nF nE (f_C s). Proof. apply SZ. Qed.
  Lemma MBf : is_mat nF (f_nc s) (f_Bf s). Proof. apply SZ. Qed.
  Lemma MBe : is_mat nE (f_nc s) (f_Be s). Proof. apply SZ. Qed.
  Lemma PF : prop_sizes p (f_nc s) (f_face s). Proof. apply SZ. Qed.
  Lemma PE : prop_sizes p (f_nc s) (f_edge s). Proof. apply SZ. Qed.
  Lemma len_MfI : length (f_MfI s) = nF. Proof. apply SZ. Qed.
  Lemma len_MeI : length (f_MeI s) = nE. Proof. apply SZ. Qed.
  Lemma len_solve A b : clen (dim s) b -> clen (dim s) (f_solve s A b). Proof. apply SZ. Qed.
  Lemma L_curl : lin_map nE nF (curl s). Proof. apply lin_mv. exact MC. Qed.
  Lemma L_curlT : lin_map nF nE (curlT s). Proof. apply lin_mtv. exact MC. Qed.
  Lemma len_curl a : clen nE a -> clen nF (cmap (curl s) a). Proof. apply (len_lin nE nF). exact L_curl. Qed.
  Lemma len_curlT a : clen nF a -> clen nE (cmap (curlT s) a). Proof. apply (len_lin nF nE). exact L_curlT. Qed.
  Lemma len_curl' a : length a = nE -> length (curl s a) = nF. Proof. apply L_curl. Qed.
  Lemma len_curlT' a : length a = nF -> length (curlT s a) = nE. Proof. apply L_curlT. Qed.
  Lemma curl_dot a b : length a = nE -> length b = nF -> dot b (curl s a) = dot (curlT s b) a.
  Proof. intros. unfold curl, curlT. symmetry. rewrite (mv_mtv_adjoint nF nE) by (exact MC || assumption). reflexivity. Qed.
  Lemma len_Fm' m : length (Fm s m) = nF. Proof. unfold Fm. rewrite mv_length. apply MBf. Qed.
  Lemma len_Em' m : length (Em s m) = nE. Proof. unfold Em. rewrite mv_length. apply MBe. Qed.
  Lemma len_EI m : length (EI s m) = nE. Proof. unfold EI. rewrite map_length. apply len_Em'. Qed.
  Lemma nth_EI m i : (i < nE)%nat -> nth i (EI s m) 0 = / nth i (Em s m) 0.
  Proof. intros. unfold EI. rewrite (nth_indep _ 0 (/ 0)) by (rewrite map_length, len_Em'; assumption). apply map_nth. Qed.
  (** Derivatives of the inner products *)
  Definition dF (m v : vec) : vec := match p_deriv (f_face s) with None => vzero nF | Some D => mv (f_Bf s) (mv (D m) v) end.
  Definition dE (m v : vec) : vec := match p_deriv (f_edge s) with None => vzero nE | Some D => mv (f_Be s) (mv (D m) v) end.
  Lemma len_dF m v : length (dF m v) = nF.
  Proof. unfold dF. destruct (p_deriv _); [rewrite mv_length; apply MBf|apply vzero_length]. Qed.
  Lemma len_dE m v : length (dE m v) = nE.
  Proof. unfold dE. destruct (p_deriv _); [rewrite mv_length; apply MBe|apply vzero_length]. Qed.
  Lemma Fd_eq m u v : length u = nF -> Fd s m u v = vmul u (dF m v).
  Proof. intros. unfold Fd, dF. destruct (p_deriv _); [reflexivity|]. rewrite vmul_zero_r by assumption. reflexivity. Qed.
  Lemma Ed_eq m u v : length u = nE -> Ed s m u v = vmul u (dE m v).
  Proof. intros. unfold Ed, dE. destruct (p_deriv _); [reflexivity|]. rewrite vmul_zero_r by assumption. reflexivity. Qed.
  Lemma len_Fd m u v : length u = nF -> length (Fd s m u v) = nF.
  Proof. intros. rewrite Fd_eq by assumption. apply ln_mul; [assumption|apply len_dF]. Qed.
  Lemma len_Ed m u v : length u = nE -> length (Ed s m u v) = nE.
  Proof. intros. rewrite Ed_eq by assumption. apply ln_mul; [assumption|apply len_dE]. Qed.
  Lemma len_EId m u v : length u = nE -> length (EId s m u v) = nE.
  Proof. intros. unfold EId. apply len_Ed. pose proof (len_EI m). ln. Qed.
  Lemma len_cFd m u v : clen nF u -> clen nF (cFd s m u v).
  Proof. apply len_cmap. intros; apply len_Fd; assumption. Qed.
  Lemma len_cEd m u v : clen nE u -> clen nE (cEd s m u v).
  Proof. apply len_cmap. intros; apply len_Ed; assumption. Qed.
  Lemma len_cEId m u v : clen nE u -> clen nE (cEId s m u v).
  Proof. apply len_cmap. intros; apply len_EId; assumption. Qed.
  Lemma re_cFd i m u v : (i < nF)%nat -> clen nF u -> cre i (cFd s m u v) = nth i (dF m v) 0 * cre i u.
  Proof. intros Hi [L _]. unfold cre, cFd. cbn. rewrite Fd_eq by exact L. rewrite (nM nF) by (assumption || apply len_dF). ring. Qed.
  Lemma im_cFd i m u v : (i < nF)%nat -> clen nF u -> cim i (cFd s m u v) = nth i (dF m v) 0 * cim i u.
  Proof. intros Hi [_ L]. unfold cim, cFd. cbn. rewrite Fd_eq by exact L. rewrite (nM nF) by (assumption || apply len_dF). ring. Qed.
  Lemma re_cEd i m u v : (i < nE)%nat -> clen nE u -> cre i (cEd s m u v) = nth i (dE m v) 0 * cre i u.
  Proof. intros Hi [L _]. unfold cre, cEd. cbn. rewrite Ed_eq by exact L. rewrite (nM nE) by (assumption || apply len_dE). ring. Qed.
  Lemma im_cEd i m u v : (i < nE)%nat -> clen nE u -> cim i (cEd s m u v) = nth i (dE m v) 0 * cim i u.
  Proof. intros Hi [_ L]. unfold cim, cEd. cbn. rewrite Ed_eq by exact L. rewrite (nM nE) by (assumption || apply len_dE). ring. Qed.
  Lemma nth_EId i m u v : (i < nE)%nat -> length u = nE -> nth i (EId s m u v) 0 = - (nth i (EI s m) 0 * nth i (EI s m) 0 * nth i (dE m v) 0) * nth i u 0.
  Proof. intros Hi L. unfold EId. pose proof (len_EI m). pose proof (len_dE m v). rewrite Ed_eq by ln. nths (f_nE s). ring. Qed.
  Lemma re_cEId i m u v : (i < nE)%nat -> clen nE u -> cre i (cEId s m u v) = - (nth i (EI s m) 0 * nth i (EI s m) 0 * nth i (dE m v) 0) * cre i u.
  Proof. intros Hi [L _]. apply nth_EId; assumption. Qed.
  Lemma im_cEId i m u v : (i < nE)%nat -> clen nE u -> cim i (cEId s m u v) = - (nth i (EI s m) 0 * nth i (EI s m) 0 * nth i (dE m v) 0) * cim i u.
  Proof. intros Hi [_ L]. apply nth_EId; assumption. Qed.

  (** Source terms *)
  Lemma len_s_m m src : src_ok s src -> clen (if isEB s then nF else nE) (s_m s m src).
  Proof.
    intros [_ H]. unfold s_m. pose proof (len_Em' m). destruct (s_kind src) as [sm se|q mu0].
    - destruct (isEB s); apply H.
    - destruct H as [H _]. apply len_cI. apply len_real. destruct (isEB s); [exact H|]. ln.
  Qed.
  Lemma len_s_e m src : src_ok s src -> clen (if isEB s then nE else nF) (s_e s m src).
  Proof.
    intros [_ H]. unfold s_e. destruct (s_kind src) as [sm se|q mu0].
    - destruct (isEB s); apply H.
    - destruct H as [H _]. destruct (isEB s).
      + apply len_real. apply ln_opp. apply len_curlT'. apply ln_mul; [rewrite mv_length; apply MBf|exact H].
      + destruct (forallb _ _); [apply len_zero|]. apply len_real. apply ln_opp. apply len_curl'. apply ln_mul; [rewrite map_length, mv_length; apply MBe|apply ln_scale; exact H].
  Qed.
  Lemma len_s_eDeriv m src v : src_ok s src -> clen (if isEB s then nE else nF) (s_eDeriv s m src v).
  Proof.
    intros [_ H]. unfold s_eDeriv. destruct (s_kind src) as [sm se|q mu0]; [apply len_zero|]. destruct H as [H _]. destruct (isEB s); [|apply len_zero].
    apply len_real. apply ln_opp. apply len_curlT'. apply len_Fd. exact H.
  Qed.
  Lemma len_bPrim src : src_ok s src -> clen (if isEB s then nF else nE) (bPrim s src).
  Proof. intros [_ H]. unfold bPrim. destruct (s_kind src) as [sm se|q mu0]; [apply len_zero|]. destruct H as [H _]. apply len_real. destruct (isEB s); [exact H|apply ln_scale; exact H]. Qed.
  Lemma len_hPrim src : src_ok s src -> clen (if isEB s then nF else nE) (hPrim s src).
  Proof. intros [_ H]. unfold hPrim. destruct (s_kind src) as [sm se|q mu0]; [apply len_zero|]. destruct H as [H _]. apply len_real. destruct (isEB s); [apply ln_scale; exact H|exact H]. Qed.
  Lemma omega_ok src : src_ok s src -> omega (s_freq src) <> 0.
  Proof. intros [H _]. pose proof (omega_pos _ H). lra. Qed.

  (** The system *)
  Lemma vsub_scale k w a b : length a = k -> length b = k -> vsub a (vscale w b) = vadd a (vscale (- w) b).
  Proof. intros. vext k. ring. Qed.
  Lemma vscale_ones k w b : length b = k -> vscale w (vmul (vconst k 1) b) = vscale w b.
  Proof. intros <-. rewrite MapsFacts.vmul_one. reflexivity. Qed.
  Lemma A_apply fr m u : clen (dim s) u -> cact (getA s fr m) u =
    match f_form s with
    | FormE | FormH => cadd (cmap (curlT s) (cmap (vmul (Fm s m)) (cmap (curl s) u))) (cI (omega fr) (cmap (vmul (Em s m)) u))
    | _ => cmap (vmul (Fm s m)) (cadd (cmap (curl s) (cmap (vmul (EI s m)) (cmap (curlT s) (cmap (vmul (Fm s m)) u)))) (cI (omega fr) u))
    end.
  Proof.
    intros [L1 L2]. unfold dim in *. unfold getA, cact, MxC. pose proof (len_Fm' m). pose proof (len_Em' m). pose proof (len_EI m).
    destruct (f_form s); cbn [re_mx im_mx act negb]; unfold cadd, cI, cmap; cbn [fst snd]; fold (curl s (fst u)); fold (curl s (snd u));
      change (mtv nE (f_C s)) with (curlT s); change (mv (f_C s)) with (curl s).
    1, 4: (rewrite (vsub_scale nE); [reflexivity| |ln]; apply len_curlT'; apply ln_mul; [assumption|]; apply len_curl'; assumption).
    all: assert (G : forall a, length a = nF -> length (curl s (vmul (EI s m) (curlT s (vmul (Fm s m) a)))) = nF) by (intros; apply len_curl'; apply ln_mul; [assumption|]; apply len_curlT'; ln).
    all: pose proof (G _ L1); pose proof (G _ L2); rewrite !vscale_ones by assumption; f_equal; vext (f_nF s); ring.
  Qed.
  Lemma len_act fr m u : clen (dim s) u -> clen (dim s) (cact (getA s fr m) u).
  Proof.
    intros L. rewrite A_apply by exact L. unfold dim in *. pose proof (len_Fm' m). pose proof (len_Em' m). pose proof (len_EI m).
    destruct (f_form s); auto 20 using len_curl, len_curlT with cln.
  Qed.
End Facts.
#[export] Hint Resolve len_MfI len_MeI len_curl len_curlT len_curl' len_curlT' len_Fm' len_Em' len_EI len_dF len_dE len_cFd len_cEd len_cEId : cln.

(** Entries of the operators of one simulation [s] *)
Ltac cent' s k := repeat first [ progress cent k
  | rewrite (re_cFd s) by (first [assumption | solve [cln]]) | rewrite (im_cFd s) by (first [assumption | solve [cln]])
  | rewrite (re_cEd s) by (first [assumption | solve [cln]]) | rewrite (im_cEd s) by (first [assumption | solve [cln]])
  | rewrite (re_cEId s) by (first [assumption | solve [cln]]) | rewrite (im_cEId s) by (first [assumption | solve [cln]]) ].
(** Move sums out of a linear operator *)
Ltac push1 s n k f L :=
  first [ rewrite (cmap_add n k f L) by (solve [cln]) | rewrite (cmap_sub n k f L) by (solve [cln]) | rewrite (cmap_opp n k f L) by (solve [cln])
        | rewrite (cmap_cI n k f L) by (solve [cln]) | rewrite (cmap_divI n k f L) by (solve [cln]) ].
Ltac push s SZ := repeat first [ push1 s (f_nE s) (f_nF s) (curl s) (L_curl s SZ) | push1 s (f_nF s) (f_nE s) (curlT s) (L_curlT s SZ)
  | match goal with |- context [cmap (vmul (Fm s ?m))] => push1 s (f_nF s) (f_nF s) (vmul (Fm s m)) (lin_vmul (f_nF s) (Fm s m) (len_Fm' s SZ m)) end
  | match goal with |- context [cmap (vmul (Em s ?m))] => push1 s (f_nE s) (f_nE s) (vmul (Em s m)) (lin_vmul (f_nE s) (Em s m) (len_Em' s SZ m)) end
  | match goal with |- context [cmap (vmul (EI s ?m))] => push1 s (f_nE s) (f_nE s) (vmul (EI s m)) (lin_vmul (f_nE s) (EI s m) (len_EI s SZ m)) end
  | match goal with |- context [cmap (vmul (f_MfI s))] => push1 s (f_nF s) (f_nF s) (vmul (f_MfI s)) (lin_vmul (f_nF s) (f_MfI s) (len_MfI s SZ)) end
  | match goal with |- context [cmap (vmul (f_MeI s))] => push1 s (f_nE s) (f_nE s) (vmul (f_MeI s)) (lin_vmul (f_nE s) (f_MeI s) (len_MeI s SZ)) end ].
Lemma cre_eq i a b : a = b -> cre i a = cre i b. Proof. intros ->. reflexivity. Qed.
Lemma cim_eq i a b : a = b -> cim i a = cim i b. Proof. intros ->. reflexivity. Qed.
