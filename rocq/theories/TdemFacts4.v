From Verif Require Import Py Vec VecDeriv Joint CplxFacts SolveDeriv RichardsFacts RichardsFacts2 RichardsFacts3 DcFacts Tdem SpecTdem TdemFacts TdemFacts2 TdemFacts3.
From Verif Require Richards.
From Coq Require Import Reals Lra Lia.
Local Open Scope R_scope.

Fixpoint psens (s : td) (m v : vec) (src : source) (k : nat) (us : list vec) (du : vec) (dts : list R) : list vec :=
  match dts, us with
  | dt :: dts', u :: us' =>
      let jrhs := vsub (vsub (getRHSDeriv s (S k) m src v) (getAsubDeriv s dt m u v)) (getADeriv s dt m (hd [] us') v) in
      let du' := t_solve s (getA s dt m) (vsub jrhs (act false (getAsub s dt m) du)) in
      du' :: psens s m v src (S k) us' du' dts'
  | _, _ => []
  end.
Lemma sens_pure s m v src dts : forall k prev us du, (match prev with Some (d, A) => A = getA s d m | None => True end) ->
  sens s m v src k prev us du dts = psens s m v src k us du dts.
Proof.
  induction dts as [|dt dts IH]; intros k prev us du H; [destruct us; reflexivity|]. destruct us as [|u us]; [reflexivity|]. cbn [sens psens].
  set (A := match prev with Some _ => _ | None => _ end). assert (E : A = getA s dt m).
  { subst A. destruct prev as [[d A]|]; [|reflexivity]. subst A. destruct (Req_EM_T dt d) as [->|]; reflexivity. }
  rewrite E. cbv zeta. f_equal. apply IH. reflexivity.
Qed.

Section Deriv.
  Context (s : td) (SZ : sizes s) (m v : vec) (Lm : length m = t_p s) (Lv : length v = t_p s).
  Context (HJ : has_jacobian (t_p s) (t_nc s) (t_val s) m (mv (t_deriv s m))) (NR : SpecDc.near (t_p s) m (solvable s)).
  Context (src : source) (SO : src_ok s src).
  Definition mt (t : R) : vec := vadd m (vscale t v).
  Lemma len_mt t : length (mt t) = t_p s. Proof. unfold mt. ln. Qed.
  Lemma mt0 : mt 0 = m. Proof. unfold mt. vext (t_p s). ring. Qed.
  Lemma near_path : exists e, 0 < e /\ forall t, Rabs t < e -> solvable s (mt t).
  Proof.
    destruct NR as (e & He & H). set (B := fold_right Rmax 1 (map Rabs v)). assert (HB : 1 <= B) by (unfold B; clear; induction (map Rabs v); cbn; [lra|pose proof (Rmax_r a (fold_right Rmax 1 l)); lra]).
    exists (e / B). split; [apply Rdiv_lt_0_compat; lra|]. intros t Ht. apply H; [apply len_mt|]. intros i Hi. unfold mt. nths (t_p s). replace (nth i m 0 + t * nth i v 0 - nth i m 0) with (t * nth i v 0) by ring. rewrite Rabs_mult.
    assert (Hv : Rabs (nth i v 0) <= B).
    { unfold B. rewrite <- Lv in Hi. clear - Hi. revert i Hi. induction v as [|x l IH]; intros i Hi; cbn in Hi; [lia|]. cbn. destruct i; [apply Rmax_l|]. eapply Rle_trans; [apply IH; lia|apply Rmax_r]. }
    apply Rle_lt_trans with (Rabs t * B); [apply Rmult_le_compat_l; [apply Rabs_pos|exact Hv]|].
    apply Rlt_le_trans with (e / B * B); [apply Rmult_lt_compat_r; lra|]. right. field. lra.
  Qed.
  Lemma SV : solvable s m. Proof. destruct near_path as (e & He & H). rewrite <- mt0. apply H. rewrite Rabs_R0. exact He. Qed.
  Lemma NZ : no_zero (Sg s m). Proof. apply SV. Qed.
  Lemma D_Sg : vderiv (nS s) (fun t => Sg s (mt t)) 0 (dS s m v).
  Proof. unfold Sg, dS. apply (vderiv_lin (t_nc s) (nS s) (mv (t_B s))); [apply lin_mv; apply MB; exact SZ|]. apply HJ. exact Lv. Qed.
  Lemma D_SI : vderiv (nS s) (fun t => SI s (mt t)) 0 (vopp (vmul (vmul (SI s m) (SI s m)) (dS s m v))).
  Proof.
    unfold SI at 1. eapply vderiv_eq; [|apply vderiv_inv; [exact D_Sg|]].
    - cbv beta. rewrite mt0. pose proof (len_Sg s SZ m). pose proof (len_SI s SZ m). pose proof (len_dS s SZ m v). vext (nS s). rewrite (nth_SI s SZ) by assumption. unfold Richards.sq. pose proof (NS' s SZ m i NZ Hi). field. assumption.
    - intros i Hi. cbv beta. rewrite mt0. apply NS'; [exact SZ|exact NZ|exact Hi].
  Qed.
  Lemma D_S z z' : vderiv (nS s) z 0 z' -> vderiv (nS s) (fun t => vmul (Sg s (mt t)) (z t)) 0 (vadd (Sd s m (z 0) v) (vmul (Sg s m) z')).
  Proof.
    intros D. eapply vderiv_eq; [|apply vderiv_mul; [exact D_Sg|exact D]]. cbv beta. rewrite mt0. rewrite (Sd_eq s). destruct D as (L & L' & _). pose proof (L 0). pose proof (len_dS s SZ m v). pose proof (len_Sg s SZ m). vext (nS s). ring.
  Qed.
  Lemma D_I z z' : vderiv (nS s) z 0 z' -> vderiv (nS s) (fun t => vmul (SI s (mt t)) (z t)) 0 (vadd (SId s m (z 0) v) (vmul (SI s m) z')).
  Proof.
    intros D. eapply vderiv_eq; [|apply vderiv_mul; [exact D_SI|exact D]]. cbv beta. rewrite mt0. unfold SId. rewrite (Sd_eq s). destruct D as (L & L' & _). pose proof (L 0). pose proof (len_dS s SZ m v). pose proof (len_SI s SZ m). vext (nS s). ring.
  Qed.
  Lemma D_curl z z' : vderiv (t_nE s) z 0 z' -> vderiv (t_nF s) (fun t => curl s (z t)) 0 (curl s z'). Proof. apply vderiv_lin. apply L_curl. exact SZ. Qed.
  Lemma D_curlT z z' : vderiv (t_nF s) z 0 z' -> vderiv (t_nE s) (fun t => curlT s (z t)) 0 (curlT s z'). Proof. apply vderiv_lin. apply L_curlT. exact SZ. Qed.
  Lemma D_grad z z' : vderiv (t_nn s) z 0 z' -> vderiv (nS s) (fun t => grad s (z t)) 0 (grad s z'). Proof. apply vderiv_lin. apply L_grad. exact SZ. Qed.
  Lemma D_gradT z z' : vderiv (nS s) z 0 z' -> vderiv (t_nn s) (fun t => gradT s (z t)) 0 (gradT s z'). Proof. apply vderiv_lin. apply L_gradT. exact SZ. Qed.
  Lemma D_diag n d z z' : length d = n -> vderiv n z 0 z' -> vderiv n (fun t => vmul d (z t)) 0 (vmul d z'). Proof. intros. apply (vderiv_lin n n (vmul d)); [apply lin_vmul; assumption|assumption]. Qed.
  Lemma D_opp n z z' : vderiv n z 0 z' -> vderiv n (fun t => vopp (z t)) 0 (vopp z').
  Proof. intros D. apply (vderiv_ext n (fun t => vscale (-1) (z t))); [intros; symmetry; apply vopp_scale|]. rewrite vopp_scale. apply vderiv_scale. exact D. Qed.

  (** ** One step *)
  Definition inJ (dt : R) (y : vec) : vec := vadd (curl s (vmul (MuI s) (curlT s (vmul (Sg s m) y)))) (vscale (1 / dt) y).
  Definition dA (dt : R) (y : vec) : vec :=
    match t_form s with
    | FormJ => vadd (Sd s m (inJ dt y) v) (vmul (Sg s m) (curl s (vmul (MuI s) (curlT s (Sd s m y v)))))
    | _ => getADeriv s dt m y v
    end.
  Lemma Sd_zero u : length u = nS s -> vadd (Sd s m u v) (vmul (Sg s m) (vzero (nS s))) = Sd s m u v.
  Proof. intros. pose proof (len_Sd s SZ m u v H). pose proof (len_Sg s SZ m). vext (nS s). ring. Qed.
  Lemma SId_zero u : length u = nS s -> vadd (SId s m u v) (vmul (SI s m) (vzero (nS s))) = SId s m u v.
  Proof. intros. pose proof (len_SId s SZ m u v H). pose proof (len_SI s SZ m). vext (nS s). ring. Qed.
  Lemma z_curl : curl s (vzero (t_nE s)) = vzero (t_nF s). Proof. apply (lin_zero _ _ _ (L_curl s SZ)). Qed.
  Lemma z_curlT : curlT s (vzero (t_nF s)) = vzero (t_nE s). Proof. apply (lin_zero _ _ _ (L_curlT s SZ)). Qed.
  Lemma z_mul n d : length d = n -> vmul d (vzero n) = vzero n. Proof. intros. vext n. ring. Qed.
  Lemma z_scale n c : vscale c (vzero n) = vzero n. Proof. vext n. ring. Qed.
  Lemma z_add n a : length a = n -> vadd a (vzero n) = a. Proof. intros. vext n. ring. Qed.
  Lemma z_addl n a : length a = n -> vadd (vzero n) a = a. Proof. intros. vext n. ring. Qed.
  Lemma D_A dt y : length y = dim s -> vderiv (dim s) (fun t => A_act s dt (mt t) y) 0 (dA dt y).
  Proof.
    intros Ly. pose proof D_S as DS. pose proof D_I as DI. pose proof Sd_zero as ZS. pose proof SId_zero as ZI. pose proof z_curl as ZC. pose proof z_curlT as ZT.
    unfold A_act, dA, getADeriv, inJ. destruct (t_form s) eqn:K; lens s SZ K.
    - eapply vderiv_eq; [|apply D_diag; [ln|]; apply vderiv_add; [apply vderiv_const; ln|]; apply D_curl; apply (DI (fun _ => curlT s (vmul (t_Mu s) y))); apply vderiv_const; ln].
      cbv beta. rewrite ZI by ln. rewrite z_addl by ln. reflexivity.
    - eapply vderiv_eq; [|apply vderiv_add; [apply vderiv_const; ln|]; apply vderiv_scale; apply (DS (fun _ => y)); apply vderiv_const; ln].
      cbv beta. rewrite ZS by ln. rewrite z_addl by ln. reflexivity.
    - eapply vderiv_eq; [|apply vderiv_add; [|apply vderiv_const; ln]; apply D_curlT; apply (DS (fun _ => curl s y)); apply vderiv_const; ln].
      cbv beta. rewrite ZS by ln. rewrite z_add by ln. reflexivity.
    - eapply vderiv_eq; [|apply (DS (fun t => vadd (curl s (vmul (MuI s) (curlT s (vmul (Sg s (mt t)) y)))) (vscale (1 / dt) y))); apply vderiv_add; [|apply vderiv_const; ln];
        apply D_curl; apply D_diag; [ln|]; apply D_curlT; apply (DS (fun _ => y)); apply vderiv_const; ln].
      cbv beta. rewrite mt0. rewrite ZS by ln. rewrite z_add by ln. reflexivity.
  Qed.
  (** the source terms do not depend on the model *)
  Definition rate (k : nat) : vec :=
    let k := if Nat.eqb k (nT s) then (k - 1)%nat else k in
    let prev := if Nat.eqb k 0 then nT s else (k - 1)%nat in
    vscale (-1 / step s k) (vsub (s_e s src (time s k)) (s_e s src (time s prev))).
  Lemma len_rate k : length (rate k) = nS s.
  Proof. unfold rate. cbv zeta. pose proof (fun t => len_s_e s SZ src t SO). ln. Qed.
  Lemma rhs_J (K : t_form s = FormJ) k m' : getRHS s k m' src = vmul (Sg s m') (rate k). Proof. unfold getRHS. rewrite K. reflexivity. Qed.
  Definition dq (dt : R) (k : nat) (u0 du : vec) : vec :=
    match t_form s with
    | FormB => vsub (vmul (t_Mu s) (curl s (SId s m (s_e s src (time s k)) v))) (vmul (t_Mu s) (vscale (-1 / dt) du))
    | FormE => vsub (vzero (dim s)) (vscale (-1 / dt) (vadd (Sd s m u0 v) (vmul (Sg s m) du)))
    | FormH => vsub (curlT s (Sd s m (s_e s src (time s k)) v)) (vscale (-1 / dt) (vmul (t_Mu s) du))
    | FormJ => vsub (Sd s m (rate k) v) (vadd (Sd s m (vscale (-1 / dt) u0) v) (vmul (Sg s m) (vscale (-1 / dt) du)))
    end.
  Lemma D_q dt k u du : vderiv (dim s) u 0 du -> vderiv (dim s) (fun t => vsub (getRHS s k (mt t) src) (Asub_act s dt (mt t) (u t))) 0 (dq dt k (u 0) du).
  Proof.
    intros D. pose proof D as (Lu & Ldu & _). pose proof D_S as DS. pose proof D_I as DI. pose proof Sd_zero as ZS. pose proof SId_zero as ZI. pose proof (fun t => len_s_e s SZ src t SO) as LE. pose proof rhs_J as RJ. pose proof (len_rate k) as LR.
    unfold dq. destruct (t_form s) eqn:K.
    - unfold getRHS, Asub_act. lens s SZ K. apply vderiv_sub.
      + apply D_diag; [ln|]. apply D_curl. eapply vderiv_eq; [|apply (DI (fun _ => s_e s src (time s k))); apply vderiv_const; ln]. apply ZI. ln.
      + apply D_diag; [ln|]. apply vderiv_scale. exact D.
    - unfold getRHS, Asub_act. lens s SZ K. apply vderiv_sub; [apply vderiv_const; ln|]. apply vderiv_scale. apply DS. exact D.
    - unfold getRHS, Asub_act. lens s SZ K. apply vderiv_sub.
      + apply D_curlT. eapply vderiv_eq; [|apply (DS (fun _ => s_e s src (time s k))); apply vderiv_const; ln]. apply ZS. ln.
      + apply vderiv_scale. apply D_diag; [ln|]. exact D.
    - apply (vderiv_ext (dim s) (fun t => vsub (vmul (Sg s (mt t)) (rate k)) (Asub_act s dt (mt t) (u t)))); [intros t; rewrite (RJ eq_refl); reflexivity|].
      unfold Asub_act. lens s SZ K. apply vderiv_sub.
      + eapply vderiv_eq; [|apply (DS (fun _ => rate k)); apply vderiv_const; ln]. apply ZS. ln.
      + apply (DS (fun t => vscale (-1 / dt) (u t))). apply vderiv_scale. exact D.
  Qed.
  Lemma D_step dt k u du : In dt (t_steps s) -> vderiv (dim s) u 0 du ->
    let u' t := t_solve s (getA s dt (mt t)) (vsub (getRHS s (S k) (mt t) src) (act false (getAsub s dt (mt t)) (u t))) in
    let jrhs := vsub (vsub (getRHSDeriv s (S k) m src v) (getAsubDeriv s dt m (u 0) v)) (getADeriv s dt m (u' 0) v) in
    vderiv (dim s) u' 0 (t_solve s (getA s dt m) (vsub jrhs (act false (getAsub s dt m) du))).
  Proof.
    intros I D u' jrhs. destruct near_path as (e & He & Hn). pose proof SV as OK. pose proof (proj1 (proj1 (proj2 (proj2 OK)) dt I)) as HS. pose proof D as (Lu & Ldu & _).
    assert (Lq : forall t, length (vsub (getRHS s (S k) (mt t) src) (Asub_act s dt (mt t) (u t))) = dim s) by (intros t; apply (D_q dt (S k) u du D)).
    assert (Lu' : forall t, length (u' t) = dim s). { intros t. unfold u'. rewrite (Asub_apply s SZ) by apply Lu. apply (len_solve s SZ). apply Lq. }
    assert (EQ : forall t, Rabs t < e -> A_act s dt (mt t) (u' t) = vsub (getRHS s (S k) (mt t) src) (Asub_act s dt (mt t) (u t))).
    { intros t Ht. rewrite <- (A_apply s) by apply Lu'. unfold u'. rewrite (Asub_apply s SZ) by apply Lu. apply (proj1 (proj1 (proj2 (proj2 (Hn t Ht))) dt I)). apply Lq. }
    pose proof (lin_act _ _ _ (wf_A s SZ dt m)) as [LA0 _]. pose proof (D_A dt (u' 0) (Lu' 0)) as DA0. pose proof (D_q dt (S k) u du D) as DQ0.
    eapply vderiv_eq; [|apply (solve_deriv_rhs (dim s) (fun t => act false (getA s dt (mt t))) (dA dt) (t_solve s (getA s dt m)) u' (fun t => vsub (getRHS s (S k) (mt t) src) (Asub_act s dt (mt t) (u t))) (dq dt (S k) (u 0) du)) with (e := e)].
    - f_equal. rewrite (Asub_apply s SZ) by exact Ldu. specialize (EQ 0 ltac:(rewrite Rabs_R0; exact He)). rewrite mt0 in EQ. unfold jrhs. pose proof (Lu 0) as Lu0. pose proof (Lu' 0) as Lu'0. set (y := u' 0) in *. set (u0 := u 0) in *. clearbody y u0.
      pose proof (fun t => len_s_e s SZ src t SO) as LE. pose proof rhs_J as RJ. pose proof (len_rate (S k)) as LR. pose proof (NS' s SZ m) as NS0. pose proof NZ as NZ0. pose proof (len_dS s SZ m v) as LdS. destruct DA0 as (_ & LDA & _). destruct DQ0 as (_ & LDQ & _).
      unfold dA, dq, getRHSDeriv, getAsubDeriv, getADeriv, inJ in *. unfold dim in *. destruct (t_form s) eqn:K; unfold Asub_act; rewrite K.
      + lens s SZ K. vext (t_nF s). ring.
      + lens s SZ K. vext (t_nE s). ring.
      + lens s SZ K. vext (t_nE s). ring.
      + unfold A_act, Asub_act in EQ. rewrite (RJ eq_refl), K in EQ. lens s SZ K. fold (inJ dt y) in EQ, LDA |- *. assert (LJ : length (inJ dt y) = t_nF s) by (unfold inJ; ln).
        assert (E1 : inJ dt y = vadd (rate (S k)) (vscale (1 / dt) u0)).
        { apply (diag_cancel (t_nF s) (Sg s m)); [ln|ln|ln|intros; apply NS0; assumption|]. rewrite EQ. vext (t_nF s). unfold Rdiv. ring. }
        rewrite E1. rewrite !(Sd_eq s) in *. vext (t_nF s). unfold Rdiv. ring.
    - intros t. apply (lin_act _ _ _ (wf_A s SZ dt (mt t))).
    - intros y Ly. eapply vderiv_ext; [|apply (D_A dt y Ly)]. intros t. cbv beta. symmetry. apply A_apply. exact Ly.
    - apply solves_lin; assumption.
    - intros y Ly. cbv beta. rewrite mt0. apply (solves_left (dim s)); [apply LA0|exact HS|exact Ly].
    - exact Lu'.
    - apply D_q. exact D.
    - exact He.
    - intros t Ht. rewrite (A_apply s) by apply Lu'. apply EQ. exact Ht.
  Qed.
  Lemma D_march dts : (forall dt, In dt dts -> In dt (t_steps s)) -> forall k u du, vderiv (dim s) u 0 du ->
    forall i, (i <= length dts)%nat -> vderiv (dim s) (fun t => nth i (u t :: pmarch s (mt t) src k (u t) dts) []) 0 (nth i (du :: psens s m v src k (u 0 :: pmarch s m src k (u 0) dts) du dts) []).
  Proof.
    induction dts as [|dt dts IH]; intros I k u du D i Hi; [destruct i; [exact D|cbn in Hi; lia]|].
    destruct i as [|i]; [exact D|]. cbn [pmarch psens hd]. pose proof (D_step dt k u du (I dt (or_introl eq_refl)) D) as DS. cbv zeta in DS.
    specialize (IH (fun d H => I d (or_intror H)) (S k) _ _ DS i ltac:(cbn in Hi; lia)). cbv beta in IH.
    cbn [nth]. eapply vderiv_eq; [|exact IH]. rewrite mt0. reflexivity.
  Qed.
End Deriv.
