From Verif Require Import Py Vec VecDeriv Joint CplxFacts SolveDeriv RichardsFacts RichardsFacts2 RichardsFacts3 DcFacts Tdem SpecTdem.
From Coq Require Import Reals Lra Lia.
Local Open Scope R_scope.

Lemma vmul_ones n v : length v = n -> vmul (vconst n 1) v = v.
Proof. intros. assert (length (vconst n 1) = n) by apply repeat_length. vext n. unfold vconst. rewrite (nth_indep _ 0 1) by (rewrite repeat_length; assumption). rewrite nth_repeat. ring. Qed.
Lemma solves_left n S A (W : forall a, length a = n -> length (act false A a) = n) : solves n S A -> forall y, length y = n -> S A (act false A y) = y.
Proof. intros H y Ly. destruct (H (act false A y) (W y Ly)) as (_ & _ & U). symmetry. apply U; auto. Qed.
Lemma solves_lin n S A : lin_map n n (act false A) -> solves n S A -> lin_map n n (S A).
Proof.
  intros (L & Ad & Sc) H. split; [|split].
  - intros a La. apply (H a La).
  - intros a b La Lb. destruct (H a La) as (L1 & E1 & _). destruct (H b Lb) as (L2 & E2 & _). symmetry.
    apply (H (vadd a b)); [ln|ln|]. rewrite Ad by assumption. congruence.
  - intros c a La. destruct (H a La) as (L1 & E1 & _). symmetry. apply (H (vscale c a)); [ln|ln|]. rewrite Sc by assumption. congruence.
Qed.

Section Facts.
  Context (s : td) (SZ : sizes s).
  Notation nE := (t_nE s). Notation nF := (t_nF s). Notation p := (t_p s).
  Lemma MC : is_mat nF nE (t_C s). Proof. apply SZ. Qed.
  Lemma MB : is_mat (nS s) (t_nc s) (t_B s). Proof. apply SZ. Qed.
  Lemma MG : is_mat (nS s) (t_nn s) (t_G s). Proof. apply SZ. Qed.
  Lemma MD m : length m = p -> is_mat (t_nc s) p (t_deriv s m). Proof. intros. apply SZ. assumption. Qed.
  Lemma L_curl : lin_map nE nF (curl s). Proof. apply lin_mv. exact MC. Qed.
  Lemma L_curlT : lin_map nF nE (curlT s). Proof. apply lin_mtv. exact MC. Qed.
  Lemma L_grad : lin_map (t_nn s) (nS s) (grad s). Proof. apply lin_mv. exact MG. Qed.
  Lemma L_gradT : lin_map (nS s) (t_nn s) (gradT s). Proof. apply lin_mtv. exact MG. Qed.
  Lemma len_curl a : length (curl s a) = nF. Proof. unfold curl. rewrite mv_length. apply MC. Qed.
  Lemma len_curlT a : length (curlT s a) = nE. Proof. unfold curlT. eapply mtv_length. apply MC. Qed.
  Lemma len_grad a : length (grad s a) = nS s. Proof. unfold grad. rewrite mv_length. apply MG. Qed.
  Lemma len_gradT a : length (gradT s a) = t_nn s. Proof. unfold gradT. eapply mtv_length. apply MG. Qed.
  Lemma len_Sg m : length (Sg s m) = nS s. Proof. unfold Sg. rewrite mv_length. apply MB. Qed.
  Lemma len_SI m : length (SI s m) = nS s. Proof. unfold SI. rewrite map_length. apply len_Sg. Qed.
  Lemma len_Mu : length (t_Mu s) = nO s. Proof. apply SZ. Qed.
  Lemma len_MuI : length (MuI s) = nO s. Proof. unfold MuI. rewrite map_length. apply len_Mu. Qed.
  Lemma len_MfI : length (t_MfI s) = nF. Proof. apply SZ. Qed.
  Lemma len_MeI : length (t_MeI s) = nE. Proof. apply SZ. Qed.
  Lemma nth_SI m i : (i < nS s)%nat -> nth i (SI s m) 0 = / nth i (Sg s m) 0.
  Proof. intros. unfold SI. rewrite (nth_indep _ 0 (/ 0)) by (rewrite map_length, len_Sg; assumption). apply map_nth. Qed.
  Lemma nth_MuI i : (i < nO s)%nat -> nth i (MuI s) 0 = / nth i (t_Mu s) 0.
  Proof. intros. unfold MuI. rewrite (nth_indep _ 0 (/ 0)) by (rewrite map_length, len_Mu; assumption). apply map_nth. Qed.
  Lemma NM i : (i < nO s)%nat -> nth i (t_Mu s) 0 <> 0.
  Proof. intros. apply SZ. rewrite len_Mu. assumption. Qed.
  Lemma NS' m i : no_zero (Sg s m) -> (i < nS s)%nat -> nth i (Sg s m) 0 <> 0.
  Proof. intros N H. apply N. rewrite len_Sg. assumption. Qed.
  Definition dS (m v : vec) : vec := mv (t_B s) (mv (t_deriv s m) v).
  Lemma len_dS m v : length (dS m v) = nS s. Proof. unfold dS. rewrite mv_length. apply MB. Qed.
  Lemma Sd_eq m u v : Sd s m u v = vmul u (dS m v). Proof. reflexivity. Qed.
  Lemma len_Sd m u v : length u = nS s -> length (Sd s m u v) = nS s. Proof. intros. rewrite Sd_eq. apply ln_mul; [assumption|apply len_dS]. Qed.
  Lemma len_SId m u v : length u = nS s -> length (SId s m u v) = nS s.
  Proof. intros. unfold SId. apply len_Sd. pose proof (len_SI m). ln. Qed.
  Lemma len_SdT m u w : length m = p -> length (SdT s m u w) = p. Proof. intros. unfold SdT. eapply mtv_length. apply MD. assumption. Qed.
  Lemma len_SIdT m u w : length m = p -> length (SIdT s m u w) = p. Proof. intros. apply len_SdT. assumption. Qed.
  Lemma len_s_vec src : src_ok s src -> length (s_vec s src) = nS s.
  Proof. intros [H _]. unfold s_vec. destruct (s_kind src); [|apply H]. unfold nS. destruct (isEB s); [apply len_curlT|apply len_curl]. Qed.
  Lemma len_s_e src t : src_ok s src -> length (s_e s src t) = nS s. Proof. intros. unfold s_e. rewrite vscale_length. apply len_s_vec. assumption. Qed.
  Lemma len_solve A b n : length b = n -> length (t_solve s A b) = n. Proof. intros <-. apply SZ. Qed.
  Lemma len_phi m q : length (phi s m q) = t_nn s. Proof. apply len_solve. apply len_gradT. Qed.
  Lemma curl_dot a b : length a = nE -> length b = nF -> dot b (curl s a) = dot (curlT s b) a.
  Proof. intros. apply (mv_mtv_adjoint nF nE); [exact MC|assumption..]. Qed.
  Lemma grad_dot a b : length a = t_nn s -> length b = nS s -> dot b (grad s a) = dot (gradT s b) a.
  Proof. intros. apply (mv_mtv_adjoint (nS s) (t_nn s)); [exact MG|assumption..]. Qed.
  Lemma Sd_dot m u v w : length m = p -> length u = nS s -> length v = p -> length w = nS s -> dot w (Sd s m u v) = dot (SdT s m u w) v.
  Proof.
    intros Lm Lu Lv Lw. unfold Sd, SdT. rewrite <- (mv_mtv_adjoint (t_nc s) p) by (try (apply MD; assumption); try assumption; eapply mtv_length; apply MB).
    rewrite <- (mv_mtv_adjoint (nS s) (t_nc s)) by (try apply MB; try (rewrite mv_length; apply MD; assumption); ln).
    symmetry. apply dot_vmul.
  Qed.
  Lemma SId_dot m u v w : length m = p -> length u = nS s -> length v = p -> length w = nS s -> dot w (SId s m u v) = dot (SIdT s m u w) v.
  Proof. intros. apply Sd_dot; try assumption. pose proof (len_SI m). ln. Qed.
  Lemma vmul_dot n d a b : length d = n -> length a = n -> length b = n -> dot a (vmul d b) = dot (vmul d a) b.
  Proof. intros. symmetry. apply dot_vmul. Qed.

  (** Steps *)
  Lemma step_pos k : (k < nT s)%nat -> 0 < step s k.
  Proof. intros H. destruct SZ as (_ & _ & _ & _ & _ & _ & _ & _ & _ & _ & F & _). rewrite Forall_forall in F. apply F. apply nth_In. exact H. Qed.
  Lemma in_pos dt : In dt (t_steps s) -> 0 < dt.
  Proof. destruct SZ as (_ & _ & _ & _ & _ & _ & _ & _ & _ & _ & F & _). rewrite Forall_forall in F. apply F. Qed.

  (** Matrices *)
  Definition A_act (dt : R) (m u : vec) : vec :=
    match t_form s with
    | FormB => vmul (t_Mu s) (vadd (vscale (1 / dt) u) (curl s (vmul (SI s m) (curlT s (vmul (t_Mu s) u)))))
    | FormE => vadd (curlT s (vmul (t_Mu s) (curl s u))) (vscale (1 / dt) (vmul (Sg s m) u))
    | FormH => vadd (curlT s (vmul (Sg s m) (curl s u))) (vscale (1 / dt) (vmul (t_Mu s) u))
    | FormJ => vmul (Sg s m) (vadd (curl s (vmul (MuI s) (curlT s (vmul (Sg s m) u)))) (vscale (1 / dt) u))
    end.
  Definition Asub_act (dt : R) (m u : vec) : vec :=
    match t_form s with
    | FormB => vmul (t_Mu s) (vscale (-1 / dt) u)
    | FormE => vscale (-1 / dt) (vmul (Sg s m) u)
    | FormH => vscale (-1 / dt) (vmul (t_Mu s) u)
    | FormJ => vmul (Sg s m) (vscale (-1 / dt) u)
    end.
  Lemma A_apply dt m u : length u = dim s -> act false (getA s dt m) u = A_act dt m u.
  Proof.
    intros Lu. unfold getA, A_act, dim in *. destruct (t_form s); cbn [act negb MxC]; unfold curl, curlT; try reflexivity; rewrite vmul_ones by assumption; reflexivity.
  Qed.
  Lemma A_applyT dt m u : length u = dim s -> act true (getA s dt m) u = 
    match t_form s with
    | FormB => vadd (vscale (1 / dt) (vmul (t_Mu s) u)) (vmul (t_Mu s) (curl s (vmul (SI s m) (curlT s (vmul (t_Mu s) u)))))
    | FormE => vadd (curlT s (vmul (t_Mu s) (curl s u))) (vscale (1 / dt) (vmul (Sg s m) u))
    | FormH => vadd (curlT s (vmul (Sg s m) (curl s u))) (vscale (1 / dt) (vmul (t_Mu s) u))
    | FormJ => vadd (vmul (Sg s m) (curl s (vmul (MuI s) (curlT s (vmul (Sg s m) u))))) (vscale (1 / dt) (vmul (Sg s m) u))
    end.
  Proof.
    intros Lu. pose proof len_Mu. pose proof (len_Sg m). unfold getA, dim, nO, nS, isEB in *. destruct (t_form s); cbn [act negb MxC]; unfold curl, curlT; try reflexivity; rewrite vmul_ones by ln; reflexivity.
  Qed.
  Lemma Asub_apply t dt m u : length u = dim s -> act t (getAsub s dt m) u = Asub_act dt m u.
  Proof.
    intros Lu. pose proof len_Mu. pose proof (len_Sg m). unfold getAsub, Asub_act, dim, nO, nS, isEB in *. destruct (t_form s); cbn [act negb]; try reflexivity.
    - assert (length (vconst nF 1) = nF) by apply repeat_length. destruct t; cbn [negb]; rewrite vmul_ones by ln; [|reflexivity]. vext (t_nF s). ring.
    - destruct t; cbn [negb]; rewrite vmul_ones by ln; [|reflexivity]. vext (t_nF s). ring.
  Qed.
  Definition Asub_lin_n := dim s.
  Lemma len_A dt m u : length u = dim s -> length (A_act dt m u) = dim s.
  Proof.
    intros Lu. pose proof len_Mu. pose proof (len_Sg m). pose proof len_curl. pose proof len_curlT. unfold A_act, dim, nO, nS, isEB in *. destruct (t_form s); ln.
  Qed.
  Lemma len_Asub dt m u : length u = dim s -> length (Asub_act dt m u) = dim s.
  Proof. intros Lu. pose proof len_Mu. pose proof (len_Sg m). unfold Asub_act, dim, nO, nS, isEB in *. destruct (t_form s); ln. Qed.
  Lemma len_rhs k m src : src_ok s src -> length (getRHS s k m src) = dim s.
  Proof.
    intros SO. pose proof len_Mu. pose proof (len_Sg m). pose proof len_curl. pose proof len_curlT. pose proof (fun t => len_s_e src t SO) as LE. unfold getRHS, dim, nO, nS, isEB in *.
    destruct (t_form s); cbv zeta; ln.
  Qed.
  Lemma wf_A dt m : wfm (dim s) (dim s) (getA s dt m).
  Proof.
    pose proof MC. pose proof len_Mu. pose proof (len_Sg m). pose proof (len_SI m). pose proof len_MuI. assert (length (vconst nF 1) = nF) by apply repeat_length.
    unfold getA, dim, nO, nS, isEB, MxC in *. destruct (t_form s); cbn [wfm].
    - exists nF. repeat split; try assumption. exists nE. split; [split; [reflexivity|assumption]|]. exists nE. split; [split; [assumption|reflexivity]|]. exists nF. repeat split; assumption || apply H.
    - repeat split; try assumption. exists nF. split; [split; [reflexivity|assumption]|]. exists nF. repeat split; assumption || apply H.
    - repeat split; try assumption. exists nF. split; [split; [reflexivity|assumption]|]. exists nF. repeat split; assumption || apply H.
    - exists nF. repeat split; try assumption. exists nE. split; [split; [reflexivity|assumption]|]. exists nE. split; [split; [assumption|reflexivity]|]. exists nF. repeat split; assumption || apply H.
  Qed.
  Lemma wf_Adc m : wfm (t_nn s) (t_nn s) (getAdc s m).
  Proof.
    pose proof MG. pose proof (len_Sg m). pose proof (len_SI m). assert (0 < t_nn s)%nat by apply SZ. unfold getAdc. destruct (isEB s); cbn [wfm].
    - split; [|split; [|reflexivity]; cbn; rewrite vzero_length; lia]. exists (nS s). split; [split; [reflexivity|assumption]|]. exists (nS s). repeat split; assumption || apply H.
    - exists (nS s). split; [split; [reflexivity|assumption]|]. exists (nS s). repeat split; assumption || apply H.
  Qed.
End Facts.
