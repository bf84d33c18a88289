From Verif Require Import Py Vec VecDeriv ParamFacts Joint Gncg Empir SpecEmpir EmpirFacts Richards SpecRichards.
From Coq Require Import Lra Lia.
Local Open Scope R_scope.

(** ** Lengths and entries of vectors of known length *)
Lemma ln_add k a b : length a = k -> length b = k -> length (vadd a b) = k.
Proof. intros. rewrite vadd_length; congruence. Qed.
Lemma ln_sub k a b : length a = k -> length b = k -> length (vsub a b) = k.
Proof. intros. rewrite vsub_length; congruence. Qed.
Lemma ln_mul k a b : length a = k -> length b = k -> length (vmul a b) = k.
Proof. intros. rewrite vmul_length; congruence. Qed.
Lemma ln_scale k c a : length a = k -> length (vscale c a) = k.
Proof. intros. rewrite vscale_length; congruence. Qed.
Lemma ln_opp k a : length a = k -> length (vopp a) = k.
Proof. intros. rewrite vopp_length; congruence. Qed.
Lemma ln_map k (f : R -> R) a : length a = k -> length (map f a) = k.
Proof. intros. rewrite map_length; congruence. Qed.
Lemma ln_mv k M a : length M = k -> length (mv M a) = k.
Proof. intros. rewrite mv_length; congruence. Qed.
Create HintDb ln.
Ltac ln := lazymatch goal with
  | |- length (vadd _ _) = _ => apply ln_add; ln
  | |- length (vsub _ _) = _ => apply ln_sub; ln
  | |- length (vmul _ _) = _ => apply ln_mul; ln
  | |- length (vscale _ _) = _ => apply ln_scale; ln
  | |- length (vopp _) = _ => apply ln_opp; ln
  | |- length (map _ _) = _ => apply ln_map; ln
  | |- length (mv _ _) = _ => apply ln_mv; ln
  | |- length (vzero _) = _ => apply vzero_length
  | _ => first [assumption | solve [auto with ln] | congruence]
  end.
Lemma nA k a b i : (i < k)%nat -> length a = k -> length b = k -> nth i (vadd a b) 0 = nth i a 0 + nth i b 0.
Proof. intros. apply nth_vadd; congruence. Qed.
Lemma nS k a b i : (i < k)%nat -> length a = k -> length b = k -> nth i (vsub a b) 0 = nth i a 0 - nth i b 0.
Proof. intros. apply nth_vsub; congruence. Qed.
Lemma nM k a b i : (i < k)%nat -> length a = k -> length b = k -> nth i (vmul a b) 0 = nth i a 0 * nth i b 0.
Proof. intros. apply nth_vmul; congruence. Qed.
Lemma nMap k (f : R -> R) a i : (i < k)%nat -> length a = k -> nth i (map f a) 0 = f (nth i a 0).
Proof. intros. apply map_nth_lt; congruence. Qed.
Lemma nO a i : nth i (vopp a) 0 = - nth i a 0.
Proof. unfold vopp. destruct (Nat.lt_ge_cases i (length a)) as [H|H]; [apply map_nth_lt; exact H|]. rewrite !nth_overflow by (rewrite ?map_length; exact H). ring. Qed.
Ltac nths k := repeat first
  [ rewrite (nA k) by (first [assumption | ln]) | rewrite (nS k) by (first [assumption | ln]) | rewrite (nM k) by (first [assumption | ln])
  | rewrite (nMap k) by (first [assumption | ln]) | rewrite nO | rewrite nth_vscale | rewrite nth_zero ].
Ltac vext k := let i := fresh "i" in let Hi := fresh "Hi" in
  apply vec_ext; [transitivity k; [ln|symmetry; ln]|]; intros i Hi; match type of Hi with (_ < ?l)%nat => replace l with k in Hi by (symmetry; ln) end; nths k.
Lemma vderiv_inv n f f' : vderiv n f 0 f' -> (forall i, (i < n)%nat -> nth i (f 0) 0 <> 0) ->
  vderiv n (fun t => map Rinv (f t)) 0 (vopp (vmul (map (fun k => / sq k) (f 0)) f')).
Proof.
  intros (L & L' & D) N. pose proof (L 0) as L0. split; [intros t; rewrite map_length; apply L|]. split; [ln|].
  intros i Hi. nths n.
  apply (dpl_ext (fun t => 1 / nth i (f t) 0)). { intros t. rewrite (nMap n) by (auto). unfold Rdiv. ring. }
  eapply dpl_eq; [|apply (dpl_div (fun _ => 1) (fun t => nth i (f t) 0)); [apply dpl_const|apply D; exact Hi|apply N; exact Hi]].
  unfold sq. field. apply N; exact Hi.
Qed.
Lemma mv_vopp M a : mv M (vopp a) = vopp (mv M a).
Proof. rewrite !vopp_scale. apply mv_vscale. Qed.
Lemma vderiv_eq n f t0 a b : a = b -> vderiv n f t0 a -> vderiv n f t0 b.
Proof. intros <-. auto. Qed.
Lemma mv_zeros p k v : mv (repeat (vzero p) k) v = vzero k.
Proof. induction k; cbn [repeat mv map]; [reflexivity|]. rewrite dot_zero_l. unfold vzero, vconst in *. cbn [repeat]. f_equal. exact IHk. Qed.
Lemma act_zmx p k d v : act false (zmx p k d) v = applied0 k d v.
Proof. destruct d; cbn [zmx act applied0]; [reflexivity|apply mv_zeros]. Qed.
Lemma applied0_length p k d v : match d with Some M => is_mat k p M | None => True end -> length (applied0 k d v) = k.
Proof. destruct d; cbn; intros H; [rewrite mv_length; apply H|apply vzero_length]. Qed.

Lemma smooth_dM_length p k r x h v : smooth_at p k r x h -> length (applied0 k (r_dM r x h) v) = k.
Proof. intros (_ & _ & H & _). apply (applied0_length p). destruct (r_dM r x h); [apply H|exact I]. Qed.

(** ** The face conductivity and its derivative *)
Section Step.
  Context (s : sim).
  Let g := q_grid s.
  Let n := g_n g.
  Let nf := g_nf g.
  Hypothesis GO : grid_ok g (length (q_bc s)).
  Lemma LAV : length (AV g) = nf. Proof. apply GO. Qed.
  Lemma LDIV : length (DIV g) = n. Proof. apply GO. Qed.
  Lemma LGRAD : length (GRAD g) = nf. Proof. apply GO. Qed.
  Lemma LBC : length (BCm g) = nf. Proof. apply GO. Qed.
  Lemma LDz : length (Dz g) = n. Proof. apply GO. Qed.
  Hint Resolve LAV LDIV LGRAD LBC LDz : ln.
  Lemma dhead_length h : length (dhead g h (q_bc s)) = nf.
  Proof. unfold dhead. ln. Qed.
  Lemma face_k_length K : length (face_k g K) = nf.
  Proof. unfold face_k. ln. Qed.
  Lemma harm_length K k' : length (act false (harm s K) k') = nf.
  Proof. unfold harm. cbn [act]. fold g. ln. Qed.
  Hint Resolve dhead_length face_k_length harm_length : ln.
  Lemma harm_add K a b : length K = n -> length a = n -> length b = n ->
    act false (harm s K) (vadd a b) = vadd (act false (harm s K) a) (act false (harm s K) b).
  Proof.
    intros LK La Lb. unfold harm. cbn [act]. fold g.
    assert (E : vmul (map (fun k => / sq k) K) (vadd a b) = vadd (vmul (map (fun k => / sq k) K) a) (vmul (map (fun k => / sq k) K) b)).
    { vext n. ring. }
    rewrite E, mv_vadd by (transitivity n; [ln|symmetry; ln]). vext nf. ring.
  Qed.
  Lemma face_k_deriv Ks K' : vderiv n Ks 0 K' -> k_ok g (Ks 0) -> vderiv nf (fun t => face_k g (Ks t)) 0 (act false (harm s (Ks 0)) K').
  Proof.
    intros D [N1 N2]. pose proof (vderiv_inv _ _ _ D N1) as D1. pose proof (vderiv_mv nf n (AV g) _ _ _ (proj1 (proj2 (proj2 (proj2 GO)))) D1) as D2.
    pose proof (vderiv_inv _ _ _ D2 N2) as D3. unfold face_k. refine (vderiv_eq _ _ _ _ _ _ D3).
    unfold harm. cbn [act]. rewrite mv_vopp. fold g. vext nf. ring.
  Qed.
  (** The derivative of the fluxes. *)
  Lemma rhs_deriv xs hs h' Ks' : vderiv n (fun t => r_call (q_k s) (xs t) (hs t)) 0 Ks' -> k_ok g (r_call (q_k s) (xs 0) (hs 0)) -> vderiv n hs 0 h' ->
    let G := dhead g (hs 0) (q_bc s) in let H := act false (harm s (r_call (q_k s) (xs 0) (hs 0))) Ks' in let a := face_k g (r_call (q_k s) (xs 0) (hs 0)) in
    vderiv n (fun t => rhs s (xs t) (hs t)) 0
      (vadd (vadd (mv (DIV g) (vmul G H)) (mv (DIV g) (vmul a (mv (GRAD g) h')))) (mv (Dz g) H)).
  Proof.
    intros DK OK Dh G H a. pose proof (face_k_deriv _ _ DK OK) as Da. cbv beta in Da. fold H in Da.
    assert (LH : length H = nf) by apply harm_length. assert (LG : length G = nf) by apply dhead_length. assert (La : length a = nf) by apply face_k_length.
    assert (DG : vderiv nf (fun t => dhead g (hs t) (q_bc s)) 0 (mv (GRAD g) h')).
    { unfold dhead. eapply vderiv_eq; [|apply vderiv_add; [apply (vderiv_mv nf n); [apply GO|exact Dh]|apply vderiv_const; rewrite mv_length; apply LBC]].
      apply vadd_zero_r. ln. }
    unfold rhs. fold g. eapply vderiv_eq; [|apply vderiv_add; [apply (vderiv_mv n nf (DIV g)); [apply GO|apply vderiv_mul; [exact Da|exact DG]]|apply (vderiv_mv n nf (Dz g)); [apply GO|exact Da]]].
    cbv beta. fold G a. f_equal. rewrite <- mv_vadd by (transitivity nf; [ln|symmetry; ln]). f_equal. vext nf. ring.
  Qed.

  (** ** The derivative of the residual of one time step *)
  Lemma res_deriv p xs hns hs x' hn' h' dt : q_method s = Mixed -> dt <> 0 -> vderiv p xs 0 x' -> vderiv n hns 0 hn' -> vderiv n hs 0 h' ->
    smooth_at p n (q_theta s) (xs 0) (hns 0) -> smooth_at p n (q_theta s) (xs 0) (hs 0) -> smooth_at p n (q_k s) (xs 0) (hs 0) -> k_ok g (r_call (q_k s) (xs 0) (hs 0)) ->
    vderiv n (fun t => residual s (xs t) (hns t) (hs t) dt) 0
      (vsub (vadd (act false (Adiag s (xs 0) (hs 0) dt) h') (act false (Asub s (xs 0) (hns 0) dt) hn')) (act false (Bmat s (xs 0) (hns 0) (hs 0) dt) x')).
  Proof.
    intros EM Ndt Dx Dn Dh S0 S1 SK OK.
    pose proof (smooth_dM_length _ _ _ _ _ x' S0) as LM0. pose proof (smooth_dM_length _ _ _ _ _ x' S1) as LM1. pose proof (smooth_dM_length _ _ _ _ _ x' SK) as LMK.
    destruct S0 as (_ & LU0 & M0 & D0). destruct S1 as (_ & LU1 & M1 & D1). destruct SK as (LK & LUK & MK & DK).
    specialize (D0 xs hns x' hn' Dx Dn eq_refl eq_refl). specialize (D1 xs hs x' h' Dx Dh eq_refl eq_refl). specialize (DK xs hs x' h' Dx Dh eq_refl eq_refl).
    pose proof (rhs_deriv _ _ _ _ DK OK Dh) as DR. cbv zeta in DR. unfold residual. rewrite EM.
    refine (vderiv_eq _ _ _ _ _ _ (vderiv_sub _ _ _ _ _ _ (vderiv_scale _ (/ dt) _ _ _ (vderiv_sub _ _ _ _ _ _ D1 D0)) DR)).
    pose proof (proj1 (proj2 Dh)) as Lh. pose proof (proj1 (proj2 Dn)) as Ln.
    unfold Adiag, Asub, Bmat. fold g. fold n. fold nf. cbn [act]. rewrite !act_zmx.
    set (K := r_call (q_k s) (xs 0) (hs 0)) in *. set (G := dhead g (hs 0) (q_bc s)). set (a := face_k g K).
    set (u := vmul (r_dU (q_k s) (xs 0) (hs 0)) h'). set (w := applied0 n (r_dM (q_k s) (xs 0) (hs 0)) x') in *.
    assert (Lu : length u = n) by (unfold u; ln).
    rewrite (harm_add K u w) by assumption.
    set (Hu := act false (harm s K) u). set (Hw := act false (harm s K) w).
    assert (LHu : length Hu = nf) by apply harm_length. assert (LHw : length Hw = nf) by apply harm_length.
    assert (LG : length G = nf) by apply dhead_length. assert (La : length a = nf) by apply face_k_length.
    assert (EG : vmul G (vadd Hu Hw) = vadd (vmul G Hu) (vmul G Hw)) by (vext nf; ring). rewrite EG.
    rewrite !mv_vadd by (transitivity nf; [ln|symmetry; ln]).
    vext n. field. exact Ndt.
  Qed.
End Step.
