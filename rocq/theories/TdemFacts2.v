From Verif Require Import Py Vec VecDeriv Joint CplxFacts SolveDeriv RichardsFacts RichardsFacts2 RichardsFacts3 DcFacts Tdem SpecTdem TdemFacts.
From Coq Require Import Reals Lra Lia.
Local Open Scope R_scope.

Fixpoint pmarch (s : td) (m : vec) (src : source) (k : nat) (u : vec) (dts : list R) : list vec :=
  match dts with
  | [] => []
  | dt :: dts' => let u' := t_solve s (getA s dt m) (vsub (getRHS s (S k) m src) (act false (getAsub s dt m) u)) in u' :: pmarch s m src (S k) u' dts'
  end.
Lemma march_pure s m src dts : forall k prev u, apart (t_thr s) dts ->
  (match prev, dts with Some (d, A), dt :: _ => A = getA s d m /\ (d = dt \/ t_thr s < Rabs (dt - d)) | _, _ => True end) ->
  march s m src k prev u dts = pmarch s m src k u dts.
Proof.
  induction dts as [|dt dts IH]; intros k prev u AP H; [reflexivity|]. cbn [march pmarch].
  set (A := match prev with Some _ => _ | None => _ end). assert (E : A = getA s dt m).
  { subst A. destruct prev as [[d A]|]; [|reflexivity]. destruct H as [-> H]. destruct (Rlt_dec _ _) as [G|G]; [reflexivity|]. destruct H as [->|H]; [reflexivity|contradiction]. }
  rewrite E. cbv zeta. f_equal. apply IH; destruct dts as [|dt' dts]; cbn [apart] in *; try exact I; [apply AP|].
  split; [reflexivity|]. destruct AP as [[->|AP] _]; auto.
Qed.
Lemma pmarch_length s m src dts : forall k u, length (pmarch s m src k u dts) = length dts.
Proof. induction dts; intros; cbn [pmarch length]; auto. Qed.

Ltac lens s SZ K :=
  pose proof (len_curl s SZ); pose proof (len_curlT s SZ); pose proof (len_Sg s SZ); pose proof (len_SI s SZ); pose proof (len_Mu s SZ); pose proof (len_MuI s SZ);
  pose proof (len_MfI s SZ); pose proof (len_MeI s SZ); pose proof (len_Sd s SZ); pose proof (len_SId s SZ);
  unfold dim, nO, nS, isEB in *; try rewrite K in *; cbn [negb] in *.
(** cancel diagonals *)
Lemma diag_cancel n d a b : length d = n -> length a = n -> length b = n -> (forall i, (i < n)%nat -> nth i d 0 <> 0) -> vmul d a = vmul d b -> a = b.
Proof.
  intros Ld La Lb N H. vext n. apply (f_equal (fun v => nth i v 0)) in H. rewrite !(nM n) in H by assumption. apply (Rmult_eq_reg_l (nth i d 0)); auto.
Qed.

Section Traj.
  Context (s : td) (SZ : sizes s).
  Notation p := (t_p s).
  Definition traj (m : vec) (src : source) (us : list vec) : Prop :=
    length us = S (nT s) /\ (forall k, (k <= nT s)%nat -> length (nth k us []) = dim s) /\
    (forall k, (k < nT s)%nat -> A_act s (step s k) m (nth (S k) us []) = vsub (getRHS s (S k) m src) (Asub_act s (step s k) m (nth k us []))).
  Lemma pmarch_traj m src dts (SO : src_ok s src) (OK : forall dt, In dt dts -> solves (dim s) (t_solve s) (getA s dt m)) : forall k u, length u = dim s ->
    let us := u :: pmarch s m src k u dts in
    (forall i, (i <= length dts)%nat -> length (nth i us []) = dim s) /\
    (forall i, (i < length dts)%nat -> A_act s (nth i dts 0) m (nth (S i) us []) = vsub (getRHS s (S (k + i)) m src) (Asub_act s (nth i dts 0) m (nth i us []))).
  Proof.
    induction dts as [|dt dts IH]; intros k u Lu; cbv zeta.
    - split; [intros [|i] Hi; [exact Lu|cbn in Hi; lia]|intros i Hi; cbn in Hi; lia].
    - cbn [pmarch]. set (q := vsub _ _). assert (Lq : length q = dim s).
      { subst q. rewrite Asub_apply by assumption. apply ln_sub; [apply len_rhs; assumption|apply len_Asub; assumption]. }
      destruct (OK dt (or_introl eq_refl) q Lq) as (L' & E' & _).
      destruct (IH (fun d H => OK d (or_intror H)) (S k) (t_solve s (getA s dt m) q) L') as [I1 I2]. cbv zeta.
      split.
      + intros [|i] Hi; [exact Lu|]. apply I1. cbn in Hi. lia.
      + intros [|i] Hi.
        * cbn [nth]. rewrite Nat.add_0_r. rewrite <- A_apply by assumption. rewrite E'. unfold q. rewrite Asub_apply by assumption. reflexivity.
        * rewrite Nat.add_succ_r. apply (I2 i). cbn in Hi. lia.
  Qed.
  Lemma len_initial m src : src_ok s src -> length (initial s m src) = dim s.
  Proof.
    intros SO. pose proof (len_s_e s SZ src 0 SO) as LE. destruct SO as [SO _]. pose proof (len_grad s SZ). unfold initial, e0, j0. destruct (s_init src); [|apply vzero_length].
    destruct (t_form s) eqn:K; destruct (s_kind src) as [pp k|q a g]; lens s SZ K; try apply vzero_length; try apply SO; try ln.
    destruct g; [|apply SO]. ln.
  Qed.
  Lemma solution_traj m src : apart (t_thr s) (t_steps s) -> src_ok s src -> solvable s m -> traj m src (solution s m src) /\ nth 0 (solution s m src) [] = initial s m src.
  Proof.
    intros AP SO OK. split; [|reflexivity]. unfold solution. cbv zeta. rewrite march_pure by (auto).
    destruct (pmarch_traj m src (t_steps s) SO (fun dt H => proj1 (proj1 (proj2 (proj2 OK)) dt H)) 0 (initial s m src) (len_initial m src SO)) as [H1 H2].
    split; [|split; assumption]. cbn [length]. rewrite pmarch_length. reflexivity.
  Qed.
  Lemma solution_length m src : length (solution s m src) = S (nT s).
  Proof. unfold solution. cbv zeta. cbn [length]. f_equal. unfold nT. generalize (@None (R * mx)), (initial s m src), 0%nat. induction (t_steps s); intros; cbn [march length]; auto. Qed.
  Lemma traj_unique m src us us' : solvable s m -> traj m src us -> traj m src us' -> nth 0 us [] = nth 0 us' [] -> us = us'.
  Proof.
    intros OK (L1 & D1 & E1) (L2 & D2 & E2) H0. apply nth_ext with (d := []) (d' := []); [congruence|]. intros i Hi. rewrite L1 in Hi.
    induction i as [|k IH]; [exact H0|]. specialize (IH ltac:(lia)).
    assert (HS : solves (dim s) (t_solve s) (getA s (step s k) m)). { apply OK. apply nth_In. fold (nT s). lia. }
    set (A := getA s (step s k) m) in *. assert (W : forall a, length a = dim s -> length (act false A a) = dim s) by (apply (proj1 (lin_act A _ _ (wf_A s SZ (step s k) m)))).
    rewrite <- (solves_left _ _ A W HS (nth (S k) us [])) by (apply D1; lia). rewrite <- (solves_left _ _ A W HS (nth (S k) us' [])) by (apply D2; lia).
    f_equal. unfold A. rewrite !A_apply by (first [apply D1; lia | apply D2; lia]). rewrite E1, E2 by lia. rewrite IH. reflexivity.
  Qed.

  (** ** Maxwell's equations *)
  (** ** Maxwell's equations *)
  Ltac pushl := 
    repeat first [ rewrite (lin_sub _ _ _ _ _ (L_curl s SZ)) by ln | rewrite (lin_sub _ _ _ _ _ (L_curlT s SZ)) by ln
                 | rewrite (proj1 (proj2 (L_curl s SZ))) by ln | rewrite (proj1 (proj2 (L_curlT s SZ))) by ln
                 | rewrite (lin_opp _ _ _ _ (L_curl s SZ)) by ln | rewrite (lin_opp _ _ _ _ (L_curlT s SZ)) by ln
                 | rewrite (proj2 (proj2 (L_curl s SZ))) by ln | rewrite (proj2 (proj2 (L_curlT s SZ))) by ln ].
  (** the pair (x, y) of the equations from a solution *)
  Lemma step_B (K : t_form s = FormB) dt m src k u u' : src_ok s src -> 0 < dt -> length u = dim s -> length u' = dim s ->
    (A_act s dt m u' = vsub (getRHS s (S k) m src) (Asub_act s dt m u) <-> faraday s m dt (getfield s m src (S k) Fe u') u u').
  Proof.
    intros SO Hd Lu Lu'. pose proof (len_s_e s SZ src (time s (S k)) SO) as LE. pose proof (NM s SZ) as N. unfold A_act, Asub_act, getRHS, faraday, getfield. lens s SZ K.
    set (se := s_e s src _) in *. pushl.
    match goal with |- context[vmul (SI s m) (curlT s (vmul (t_Mu s) u'))] => set (c := vmul (SI s m) (curlT s (vmul (t_Mu s) u'))) in * end. set (d := vmul (SI s m) se) in *.
    split; intros E.
    - assert (E1 : vadd (vscale (1 / dt) u') (curl s c) = vadd (curl s d) (vscale (1 / dt) u)).
      { apply (diag_cancel (t_nF s) (t_Mu s)); [ln|ln|ln|exact N|]. rewrite E. vext (t_nF s). unfold Rdiv. ring. }
      vext (t_nF s). apply (f_equal (fun v => nth i v 0)) in E1. revert E1. nths (t_nF s). lra.
    - vext (t_nF s). apply (f_equal (fun v => nth i v 0)) in E. revert E. nths (t_nF s). intros E.
      replace (1 / dt * nth i u' 0 + nth i (curl s c) 0) with (nth i (curl s d) 0 + 1 / dt * nth i u 0) by lra. unfold Rdiv. ring.
  Qed.
  Lemma amp_B (K : t_form s = FormB) m src k x u : src_ok s src -> no_zero (Sg s m) -> length u = dim s -> length x = nS s ->
    (ampere s m src k x u <-> x = getfield s m src k Fe u).
  Proof.
    intros SO N Lu Lx. pose proof (len_s_e s SZ src (time s k) SO) as LE. pose proof (fun i => NS' s SZ m i N) as N'. pose proof (nth_SI s SZ m) as NI. unfold ampere, getfield. lens s SZ K.
    set (se := s_e s src _) in *. split; intros E.
    - rewrite <- E. vext (t_nE s). rewrite NI by assumption. field. auto.
    - rewrite E. vext (t_nE s). rewrite NI by assumption. field. auto.
  Qed.
  Lemma step_H (K : t_form s = FormH) dt m src k u u' : src_ok s src -> 0 < dt -> length u = dim s -> length u' = dim s ->
    (A_act s dt m u' = vsub (getRHS s (S k) m src) (Asub_act s dt m u) <-> faraday s m dt (getfield s m src (S k) Fj u') u u').
  Proof.
    intros SO Hd Lu Lu'. pose proof (len_s_e s SZ src (time s (S k)) SO) as LE. unfold A_act, Asub_act, getRHS, faraday, getfield. lens s SZ K.
    set (se := s_e s src _) in *.
    replace (vmul (Sg s m) (vsub (curl s u') se)) with (vsub (vmul (Sg s m) (curl s u')) (vmul (Sg s m) se)) by (vext (t_nF s); ring). pushl.
    split; intros E; vext (t_nE s); apply (f_equal (fun v => nth i v 0)) in E; revert E; nths (t_nE s); unfold Rdiv; intros E; lra.
  Qed.
  Lemma amp_H (K : t_form s = FormH) m src k x u : src_ok s src -> length u = dim s -> length x = nS s ->
    (ampere s m src k x u <-> x = getfield s m src k Fj u).
  Proof.
    intros SO Lu Lx. pose proof (len_s_e s SZ src (time s k) SO) as LE. unfold ampere, getfield. lens s SZ K.
    set (se := s_e s src _) in *. split; intros E; [rewrite <- E|rewrite E]; vext (t_nF s); ring.
  Qed.
  (** E and J: one step keeps Ampere's law, given Faraday's law *)
  Lemma step_E (K : t_form s = FormE) dt m src k x x' y y' : step s k = dt -> src_ok s src -> 0 < dt -> length x = dim s -> length x' = dim s -> length y = nO s -> length y' = nO s ->
    ampere s m src k x y -> faraday s m dt x' y y' ->
    (A_act s dt m x' = vsub (getRHS s (S k) m src) (Asub_act s dt m x) <-> ampere s m src (S k) x' y').
  Proof.
    intros <- SO Hd Lx Lx' Ly Ly'. pose proof (len_s_e s SZ src (time s (S k)) SO) as LE'. pose proof (len_s_e s SZ src (time s k) SO) as LE.
    unfold A_act, Asub_act, getRHS, faraday, ampere. lens s SZ K. rewrite Nat.sub_succ, Nat.sub_0_r.
    set (se' := s_e s src (time s (S k))) in *. set (se := s_e s src (time s k)) in *. set (dt := step s k) in *. intros EA EF.
    assert (Y : curlT s (vmul (t_Mu s) (curl s x')) = vscale (1 / dt) (vsub (curlT s (vmul (t_Mu s) y)) (curlT s (vmul (t_Mu s) y')))).
    { replace (curl s x') with (vscale (1 / dt) (vsub y y')).
      - replace (vmul (t_Mu s) (vscale (1 / dt) (vsub y y'))) with (vscale (1 / dt) (vsub (vmul (t_Mu s) y) (vmul (t_Mu s) y'))) by (vext (t_nF s); ring).
        pushl. reflexivity.
      - vext (t_nF s). apply (f_equal (fun v => nth i v 0)) in EF. revert EF. nths (t_nF s). lra. }
    rewrite Y. set (Y1 := curlT s (vmul (t_Mu s) y)) in *. set (Y2 := curlT s (vmul (t_Mu s) y')) in *. assert (length Y1 = t_nE s) by (subst Y1; ln). assert (length Y2 = t_nE s) by (subst Y2; ln).
    split; intros E; vext (t_nE s); apply (f_equal (fun v => nth i v 0)) in EA; apply (f_equal (fun v => nth i v 0)) in E; revert E EA; nths (t_nE s); intros E EA.
    - apply (Rmult_eq_reg_l (-1 / dt)); [|unfold Rdiv; apply Rmult_integral_contrapositive_currified; [lra|apply Rinv_neq_0_compat; lra]].
      replace (nth i Y1 0) with (nth i se 0 + nth i (Sg s m) 0 * nth i x 0) in E by lra. unfold Rdiv in *. lra.
    - replace (nth i Y1 0) with (nth i se 0 + nth i (Sg s m) 0 * nth i x 0) by lra. replace (nth i Y2 0) with (nth i se' 0 + nth i (Sg s m) 0 * nth i x' 0) by lra. unfold Rdiv. ring.
  Qed.
  Lemma step_J (K : t_form s = FormJ) dt m src k x x' y y' : step s k = dt -> same_rate s src -> (k < nT s)%nat -> no_zero (Sg s m) -> src_ok s src -> 0 < dt -> length x = dim s -> length x' = dim s -> length y = nO s -> length y' = nO s ->
    ampere s m src k x y -> faraday s m dt x' y y' ->
    (A_act s dt m x' = vsub (getRHS s (S k) m src) (Asub_act s dt m x) <-> ampere s m src (S k) x' y').
  Proof.
    intros <- SR Hk N SO Hd Lx Lx' Ly Ly'. pose proof (len_s_e s SZ src (time s (S k)) SO) as LE'. pose proof (len_s_e s SZ src (time s k) SO) as LE. rewrite (SR k Hk). clear SR.
    pose proof (fun i => NS' s SZ m i N) as N'. pose proof (NM s SZ) as NMu. pose proof (nth_MuI s SZ) as NI.
    unfold A_act, Asub_act, faraday, ampere. lens s SZ K.
    set (se' := s_e s src (time s (S k))) in *. set (se := s_e s src (time s k)) in *. set (dt := step s k) in *. intros EA EF.
    assert (Y : curl s (vmul (MuI s) (curlT s (vmul (Sg s m) x'))) = vscale (1 / dt) (vsub (curl s y) (curl s y'))).
    { replace (vmul (MuI s) (curlT s (vmul (Sg s m) x'))) with (vscale (1 / dt) (vsub y y')).
      - pushl. reflexivity.
      - vext (t_nE s). apply (f_equal (fun v => nth i v 0)) in EF. revert EF. nths (t_nE s). intros EF. rewrite NI by assumption.
        replace (nth i (curlT s (vmul (Sg s m) x')) 0) with (1 / dt * (nth i (t_Mu s) 0 * (nth i y 0 - nth i y' 0))) by lra. field. split; first [lra | apply NMu; assumption]. }
    rewrite Y. set (Y1 := curl s y) in *. set (Y2 := curl s y') in *. assert (length Y1 = t_nF s) by (subst Y1; ln). assert (length Y2 = t_nF s) by (subst Y2; ln).
    split; intros E.
    - assert (E1 : vadd (vscale (1 / dt) (vsub Y1 Y2)) (vscale (1 / dt) x') = vadd (vscale (-1 / dt) (vsub se' se)) (vscale (1 / dt) x)).
      { apply (diag_cancel (t_nF s) (Sg s m)); [ln|ln|ln|exact N'|]. rewrite E. vext (t_nF s). unfold Rdiv. ring. }
      clear E. vext (t_nF s). apply (f_equal (fun v => nth i v 0)) in EA. apply (f_equal (fun v => nth i v 0)) in E1. revert E1 EA. nths (t_nF s). intros E EA.
      apply (Rmult_eq_reg_l (-1 / dt)); [|unfold Rdiv; apply Rmult_integral_contrapositive_currified; [lra|apply Rinv_neq_0_compat; lra]].
      replace (nth i Y1 0) with (nth i se 0 + nth i x 0) in E by lra. unfold Rdiv in *. lra.
    - vext (t_nF s). apply (f_equal (fun v => nth i v 0)) in EA. apply (f_equal (fun v => nth i v 0)) in E. revert E EA. nths (t_nF s). intros E EA.
      replace (nth i Y1 0) with (nth i se 0 + nth i x 0) by lra. replace (nth i Y2 0) with (nth i se' 0 + nth i x' 0) by lra. unfold Rdiv. ring.
  Qed.
End Traj.
