From Verif Require Import Py Vec VecDeriv ParamFacts Joint Gncg NewtonFacts Empir SpecEmpir EmpirFacts Richards SpecRichards RichardsFacts RichardsFacts2 RichardsFacts3.
From Coq Require Import Lra Lia.
Local Open Scope R_scope.

(** ** The matrix of a Newton step *)
Lemma c63_newton s p x hn h dt : q_method s = Mixed -> q_newton s = true -> dt <> 0 -> length x = p -> length h = g_n (q_grid s) ->
  grid_ok (q_grid s) (length (q_bc s)) -> smooth_at p (g_n (q_grid s)) (q_theta s) x h -> smooth_at p (g_n (q_grid s)) (q_k s) x h -> length (r_call (q_theta s) x hn) = g_n (q_grid s) ->
  k_ok (q_grid s) (r_call (q_k s) x h) ->
  has_jacobian (g_n (q_grid s)) (g_n (q_grid s)) (fun h => residual s x hn h dt) h (act false (step_matrix s x h dt)).
Proof.
  intros EM EN Ndt Lx Lh GO ST SK LT OK d Ld. set (n := g_n (q_grid s)) in *.
  set (hs := fun t => vadd h (vscale t d)). assert (Dh : vderiv n hs 0 d) by (apply vderiv_line; assumption).
  assert (H0 : hs 0 = h) by (unfold hs; rewrite vscale_0, vadd_zero_r; congruence).
  assert (Dx : vderiv p (fun _ => x) 0 (vzero p)) by (apply vderiv_const; exact Lx).
  assert (Z : forall r y, smooth_at p n r x y -> applied0 n (r_dM r x y) (vzero p) = vzero n).
  { intros r y (_ & _ & H & _). destruct (r_dM r x y) as [M|]; [|reflexivity]. cbn. apply vec_ext; [rewrite mv_length, vzero_length; apply H|].
    intros i Hi. rewrite mv_length in Hi. rewrite nth_mv by exact Hi. rewrite dot_zero_r, nth_zero. reflexivity. }
  pose proof (Z _ _ ST) as ZT. pose proof (Z _ _ SK) as ZK.
  destruct ST as (_ & LUT & _ & DT). specialize (DT (fun _ => x) hs _ _ Dx Dh eq_refl H0). rewrite ZT in DT.
  destruct SK as (LK & LUK & _ & DK). specialize (DK (fun _ => x) hs _ _ Dx Dh eq_refl H0). rewrite ZK in DK.
  rewrite vadd_zero_r in DT by ln. rewrite vadd_zero_r in DK by ln.
  assert (OK' : k_ok (q_grid s) (r_call (q_k s) ((fun _ => x) 0) (hs 0))) by (rewrite H0; exact OK).
  pose proof (rhs_deriv s GO (fun _ => x) hs d _ DK OK' Dh) as DR. cbv zeta in DR. rewrite H0 in DR. cbv beta in DR.
  unfold residual. rewrite EM.
  eapply vderiv_eq; [|apply vderiv_sub; [apply (vderiv_scale n (/ dt)); apply vderiv_sub; [exact DT|apply vderiv_const; exact LT]|exact DR]].
  unfold step_matrix. rewrite EN. unfold harm. cbn [act]. fold n. set (K := r_call (q_k s) x h) in *. set (a := face_k (q_grid s) K). set (G := dhead (q_grid s) h (q_bc s)).
  assert (Esq : map (fun y => / sq y) (mv (AV (q_grid s)) (map Rinv K)) = map sq a).
  { unfold a, face_k. rewrite map_map. apply map_ext_in. intros y Hy. unfold sq.
    destruct (In_nth _ _ 0 Hy) as (i & Hi & E). assert (y <> 0). { rewrite <- E. apply OK. rewrite mv_length in Hi. rewrite (LAV s GO) in Hi. exact Hi. }
    field. assumption. }
  rewrite Esq. pose proof (LAV s GO). pose proof (LDIV s GO). pose proof (LGRAD s GO). pose proof (LDz s GO). set (nf := g_nf (q_grid s)) in *.
  assert (LG : length G = nf) by (apply dhead_length; exact GO). assert (La : length a = nf) by (apply face_k_length; exact GO).
  assert (LH : length (map sq a) = nf) by ln.
  vext n. ring.
Qed.

(** ** The receivers *)
Section Rx.
  Context (s : sim) (p : nat) (x : vec) (fs : list vec).
  Let n := g_n (q_grid s).
  Hypothesis Lx : length x = p.
  Hypothesis SM : forall f, In f fs -> smooth_at p n (q_theta s) x f.
  Let N := (length fs * n)%nat.
  Lemma sat_du_length : length (concat (map (r_dU (q_theta s) x) fs)) = N.
  Proof. unfold N. rewrite (concat_length_eq n), map_length; [reflexivity|]. apply Forall_forall. intros f Hf. apply in_map_iff in Hf. destruct Hf as (y & <- & Hy). apply (SM y Hy). Qed.
  Lemma sat_dm_wf M : sat_dm s x fs = Some M -> wfm N p M.
  Proof.
    unfold sat_dm. destruct (r_needs (q_theta s)) eqn:E; [|discriminate]. injection 1 as <-. cbn [wfm]. split; [exact Lx|].
    unfold N. clear N. induction fs as [|f l IH]; [split; [reflexivity|constructor]|]. cbn [map concat length Nat.mul].
    destruct (IH (fun f Hf => SM f (or_intror Hf))) as [L1 F1]. destruct (SM f (or_introl eq_refl)) as (_ & _ & HM & _).
    destruct (r_dM (q_theta s) x f) as [M|]; [|congruence]. destruct HM as [[L2 F2] _]. split; [rewrite app_length; congruence|]. apply Forall_app. auto.
  Qed.
  Definition or0 (d : option vec) : vec := match d with Some a => a | None => vzero p end.
  Lemma rx_adj r du v w : is_mat (length (x_P r)) N (x_P r) -> length w = length (x_P r) -> length du = N -> length v = p ->
    let '(a, b) := rx_adjoint s x fs N w r in
    length a = N /\ length (or0 b) = p /\ dot w (rx_deriv s x fs du v r) = dot a du + dot (or0 b) v /\ length (rx_deriv s x fs du v r) = length (x_P r).
  Proof.
    intros W Lw Ld Lv. unfold rx_adjoint, rx_deriv. pose proof (mtv_length _ _ _ w W) as LP. destruct (x_kind r); cbn [or0].
    - rewrite dot_zero_l, vzero_length, mv_length. rewrite (mv_mtv_adjoint _ N _ w du W Lw Ld). repeat split; auto. ring.
    - pose proof sat_du_length as LD. unfold sat_du. cbn [act]. set (D := concat (map (r_dU (q_theta s) x) fs)) in *. set (q := mtv N (x_P r) w) in *.
      assert (Edu : dot w (mv (x_P r) (vmul D du)) = dot (vmul D q) du).
      { rewrite (mv_mtv_adjoint _ N _ w _ W Lw) by ln. fold q. symmetry. apply dot_vmul. }
      destruct (sat_dm s x fs) as [M|] eqn:E; cbn [option_map or0].
      + destruct (wfm_act _ _ _ (sat_dm_wf M E)) as (F & T & A). split; [ln|]. split; [apply T; exact LP|].
        split; [|apply ln_add; apply ln_mv; reflexivity]. rewrite dot_vadd_r by (rewrite !mv_length; reflexivity). rewrite Edu. f_equal.
        rewrite (mv_mtv_adjoint _ N _ w _ W Lw) by (apply F; exact Lv). fold q. apply A; assumption.
      + split; [ln|]. split; [apply vzero_length|]. split; [|apply ln_mv; reflexivity]. rewrite dot_zero_l, Edu. ring.
  Qed.
  Lemma zplus_or0 a b v : length (or0 a) = p -> length (or0 b) = p -> length (or0 (zplus a b)) = p /\ dot (or0 (zplus a b)) v = dot (or0 a) v + dot (or0 b) v.
  Proof.
    destruct a as [a|], b as [b|]; cbn [zplus or0]; intros La Lb; rewrite ?dot_zero_l.
    - split; [ln|]. apply dot_vadd_l. congruence.
    - split; [auto|ring].
    - split; [auto|ring].
    - split; [auto|ring].
  Qed.
  Lemma survey_adj du v rs : Forall (fun r => is_mat (length (x_P r)) N (x_P r)) rs -> length du = N -> length v = p -> forall w, length w = list_sum (map (fun r => length (x_P r)) rs) ->
    let '(a, b) := survey_adjoint s x fs N w rs in
    length a = N /\ length (or0 b) = p /\ dot w (concat (map (rx_deriv s x fs du v) rs)) = dot a du + dot (or0 b) v.
  Proof.
    intros FW Ld Lv. induction FW as [|r rs W FW IH]; intros w Lw; cbn [survey_adjoint map concat].
    - destruct w; [|discriminate]. cbn [or0 dot]. rewrite !dot_zero_l, !vzero_length. repeat split; auto. ring.
    - change (length w = (length (x_P r) + list_sum (map (fun r => length (x_P r)) rs))%nat) in Lw.
      assert (L1 : length (firstn (length (x_P r)) w) = length (x_P r)) by (rewrite firstn_length; lia).
      assert (L2 : length (skipn (length (x_P r)) w) = list_sum (map (fun r => length (x_P r)) rs)) by (rewrite skipn_length; lia).
      pose proof (rx_adj r du v _ W L1 Ld Lv) as A. specialize (IH _ L2).
      destruct (rx_adjoint s x fs N (firstn (length (x_P r)) w) r) as [a1 b1]. destruct (survey_adjoint s x fs N (skipn (length (x_P r)) w) rs) as [a2 b2].
      destruct A as (A1 & A2 & A3 & A4). destruct IH as (B1 & B2 & B3). destruct (zplus_or0 b1 b2 v A2 B2) as [C1 C2].
      split; [ln|]. split; [exact C1|]. rewrite C2, dot_vadd_l by congruence.
      rewrite <- (firstn_skipn (length (x_P r)) w) at 1. rewrite dot_app' by congruence. rewrite A3, B3. ring.
  Qed.
  Lemma survey_dm w rs : needs_model s = false -> snd (survey_adjoint s x fs N w rs) = None.
  Proof.
    intros E. unfold needs_model in E. apply Bool.orb_false_iff in E. destruct E as [E _]. revert w. induction rs as [|r l IH]; intros w; [reflexivity|]. cbn [survey_adjoint].
    unfold rx_adjoint, sat_dm. rewrite E. specialize (IH (skipn (length (x_P r)) w)). destruct (survey_adjoint s x fs N _ l) as [a b]. cbn [snd] in IH. subst b. destruct (x_kind r); reflexivity.
  Qed.
End Rx.

(** ** Parts of a long vector *)
Lemma parts_ok s k : let n := g_n (q_grid s) in forall w, length w = (k * n)%nat -> length (parts s k w) = k /\ Forall (fun q => length q = n) (parts s k w) /\
  forall ys, length ys = k -> Forall (fun y => length y = n) ys -> sumdot (parts s k w) ys = dot w (concat ys).
Proof.
  intros n. induction k as [|k IH]; intros w L; cbn [parts]; fold n.
  - split; [reflexivity|]. split; [constructor|]. intros [|y ys] Ly Fy; [|discriminate]. destruct w; [reflexivity|discriminate].
  - cbn [Nat.mul] in L. assert (L1 : length (firstn n w) = n) by (rewrite firstn_length; lia). assert (L2 : length (skipn n w) = (k * n)%nat) by (rewrite skipn_length; lia).
    destruct (IH _ L2) as (A & B & C). split; [cbn; lia|]. split; [constructor; auto|]. intros [|y ys] Ly Fy; [discriminate|]. cbn [sumdot concat].
    rewrite C; [|cbn in Ly; lia|exact (Forall_inv_tail Fy)]. pose proof (Forall_inv Fy) as Ly'. cbv beta in Ly'.
    rewrite <- (firstn_skipn n w) at 3. rewrite dot_app' by congruence. reflexivity.
Qed.
