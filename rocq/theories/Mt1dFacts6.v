(** Consequences: layered media, half-spaces, examples and counterexamples. *)
From Verif Require Import Py Vec VecDeriv PropsM LinSimFacts EmpirFacts6 Cx Mt1d SpecMt1d Mt1dFacts Mt1dFacts2 Mt1dFacts3 Mt1dFacts4 Mt1dFacts5.
From Coq Require Import Lra.
Local Open Scope R_scope.

Lemma impedance_eq mu f sb above thicks : length above = length thicks ->
  impedance mu f (sb :: above) thicks = Ok (Ztop (2 * PI * f) mu (combine (rev above) (rev thicks)) sb).
Proof. intros H. unfold impedance, layers. rewrite H, Nat.eqb_refl. reflexivity. Qed.
Lemma pos_combine a b : Forall (fun x => 0 < x) a -> Forall (fun x => 0 < x) b -> pos_layers (combine a b).
Proof.
  intros HA HB. rewrite Forall_forall in HA, HB. apply Forall_forall. intros [x y] H. cbn.
  split; [apply HA; eapply in_combine_l; exact H|apply HB; eapply in_combine_r; exact H].
Qed.
Lemma pos_rev l : Forall (fun x => 0 < x) l -> Forall (fun x => 0 < x) (rev l).
Proof. intros H. rewrite Forall_forall in *. intros x Hx. apply H. apply in_rev. exact Hx. Qed.
Lemma w_pos f : 0 < f -> 0 < 2 * PI * f.
Proof. intros. pose proof PI_RGT_0. nra. Qed.

Lemma maxwell_impedance mu f sb above thicks : 0 < mu -> 0 < f -> 0 < sb ->
  Forall (fun x => 0 < x) above -> Forall (fun x => 0 < x) thicks -> length above = length thicks ->
  exists Z, impedance mu f (sb :: above) thicks = Ok Z /\ Re Z < 0 /\ Im Z < 0 /\
    (forall E H, surface (2 * PI * f) mu (combine (rev above) (rev thicks)) sb E H -> E = Z *x H) /\
    (exists E H, H <> x0 /\ surface (2 * PI * f) mu (combine (rev above) (rev thicks)) sb E H).
Proof.
  intros Hmu Hf Hb HA HT HL. pose proof (w_pos f Hf) as Hw. pose proof (pos_combine _ _ (pos_rev _ HA) (pos_rev _ HT)) as HP.
  eexists. split; [apply impedance_eq; exact HL|].
  pose proof (good_quadrant _ (good_Z _ mu Hw Hmu _ _ HP Hb)) as [G1 G2].
  split; [exact G1|]. split; [exact G2|]. split.
  - now apply surface_Z.
  - now apply surface_exists.
Qed.

Lemma combine_app {A B} (a c : list A) (b d : list B) : length a = length b -> combine (a ++ c) (b ++ d) = combine a b ++ combine c d.
Proof. revert b; induction a as [|x a IH]; intros [|y b] H; cbn in *; try lia; [reflexivity|]. rewrite IH by lia. reflexivity. Qed.

Lemma split_layer mu f sb a b ta tb s t1 t2 : 0 < mu -> 0 < f -> 0 < sb -> 0 < s -> 0 < t1 -> 0 < t2 ->
  Forall (fun x => 0 < x) (a ++ b) -> Forall (fun x => 0 < x) (ta ++ tb) -> length a = length ta -> length b = length tb ->
  impedance mu f (sb :: a ++ s :: s :: b) (ta ++ t1 :: t2 :: tb) = impedance mu f (sb :: a ++ s :: b) (ta ++ (t1 + t2) :: tb).
Proof.
  intros Hmu Hf Hb Hs H1 H2 HA HT L1 L2. rewrite !impedance_eq by (rewrite !app_length; cbn; lia). f_equal.
  rewrite !rev_app_distr. cbn [rev]. rewrite <- !app_assoc. cbn [app].
  assert (Lb : length (rev b) = length (rev tb)) by (rewrite !rev_length; exact L2).
  rewrite !combine_app by exact Lb. cbn [combine].
  apply Forall_app in HA. destruct HA as [A1 A2]. apply Forall_app in HT. destruct HT as [T1 T2].
  rewrite (Rplus_comm t1 t2).
  apply Ztop_split; auto using w_pos, pos_combine, pos_rev.
Qed.
Lemma split_bottom mu f sb a ta t : 0 < mu -> 0 < f -> 0 < sb -> 0 < t ->
  Forall (fun x => 0 < x) a -> Forall (fun x => 0 < x) ta -> length a = length ta ->
  impedance mu f (sb :: sb :: a) (t :: ta) = impedance mu f (sb :: a) ta.
Proof.
  intros Hmu Hf Hb Ht HA HT L. rewrite !impedance_eq by (cbn; lia). f_equal. cbn [rev].
  rewrite combine_app by (rewrite !rev_length; exact L). cbn [combine].
  apply Ztop_bottom; auto using w_pos, pos_combine, pos_rev.
Qed.
Lemma half_ratio w mu s : 0 < w -> 0 < mu -> 0 < s ->
  exists a, 0 < a /\ 2 * (a * a) = w * mu / s /\ xopp (ratio w mu s) = (- a, - a).
Proof.
  intros Hw Hmu Hs. exists (sqrt (w * mu * s / 2) / s).
  assert (P : 0 < w * mu * s / 2) by (assert (0 < w * mu * s) by (apply Rmult_lt_0_compat; nra); lra).
  pose proof (sqrt_lt_R0 _ P) as Q. split; [now apply Rdiv_lt_0_compat|].
  split; [|reflexivity]. pose proof (sqrt_sqrt _ (Rlt_le _ _ P)) as E.
  transitivity (2 * (sqrt (w * mu * s / 2) * sqrt (w * mu * s / 2)) / (s * s)); [field; lra|]. rewrite E. field. lra.
Qed.
Lemma half_space mu f s k thicks : 0 < mu -> 0 < f -> 0 < s -> Forall (fun x => 0 < x) thicks -> length thicks = k ->
  exists Z, impedance mu f (repeat s (S k)) thicks = Ok Z /\
    measured mu f Z CAppRes = / s /\ measured mu f Z CPhase = -135.
Proof.
  intros Hmu Hf Hs HT HL. pose proof (w_pos f Hf) as Hw. pose proof PI_RGT_0 as PP. cbn [repeat].
  assert (HR : Forall (fun x => 0 < x) (repeat s k)) by (apply Forall_forall; intros x Hx; apply repeat_spec in Hx; lra).
  eexists. split; [apply impedance_eq; rewrite repeat_length; lia|].
  rewrite Ztop_uniform; auto using pos_combine, pos_rev.
  2: { apply Forall_forall. intros [x y] H. apply in_combine_l in H. apply in_rev in H. apply repeat_spec in H. exact H. }
  destruct (half_ratio (2 * PI * f) mu s Hw Hmu Hs) as (a & Pa & E & ->). cbn [measured]. split.
  - unfold nrm2, Re, Im. cbn [fst snd]. replace (- a * - a + - a * - a) with (2 * (a * a)) by ring. rewrite E. field. repeat split; lra.
  - unfold arctan2, Re, Im. cbn [fst snd]. destruct (Rlt_dec 0 (- a)); [lra|]. destruct (Rlt_dec (- a) 0); [|lra].
    replace (- a / - a) with 1 by (field; lra). rewrite atan_1. field. lra.
Qed.

Lemma data_ok s p n m : usable_sim s p n m -> plain_rx s ->
  exists d, dpred s m = Ok d /\ length d = nD s /\
    forall i fr, nth_error (rx_pairs s) i = Some fr ->
      exists Z, impedance (mt_mu s) (fst fr) (pval (mt_sigma s) m) (pval (mt_thick s) m) = Ok Z /\
                nth i d 0 = measured (mt_mu s) (fst fr) Z (r_comp (snd fr)).
Proof.
  intros HU HP. pose proof HU as (_ & _ & Hm & _). destruct (lens s p n m HU m Hm) as [L1 L2].
  destruct (dpred_ok s n m L1 L2 HP) as [E HZ]. exists (map (meas s m) (rx_pairs s)). split; [exact E|].
  split; [rewrite map_length; symmetry; now apply nD_plain|]. intros i fr Hi. eexists. split; [apply HZ|].
  apply nth_error_nth. rewrite nth_error_map, Hi. reflexivity.
Qed.
Lemma jacobian_ok s p n m : usable_sim s p n m -> plain_rx s -> invertible s ->
  exists F Jv, (forall m', length m' = p -> dpred s m' = Ok (F m')) /\
    (forall v, length v = p -> fresh s (CallJvec m v) = Ok (Jv v)) /\ has_jacobian p (nD s) F m Jv.
Proof.
  intros HU HP HV. exists (fun m' => map (meas s m') (rx_pairs s)), (Jv s m). split; [|split].
  - intros m' H'. destruct (lens s p n m HU m' H') as [L1 L2]. apply (dpred_ok s n m' L1 L2 HP).
  - intros v Hv. rewrite fresh_jvec, (getJ0_ok s p n m HU HP HV). cbn [bind]. now apply (jvec_ok s p n m HU).
  - now apply (jac s p n).
Qed.
Lemma adjoint_ok s p n m u v : usable_sim s p n m -> plain_rx s -> invertible s -> length u = nD s -> length v = p ->
  exists d g, fresh s (CallJvec m v) = Ok d /\ fresh s (CallJtvec m u) = Ok g /\ length g = p /\ dot g v = dot u d.
Proof.
  intros HU HP HV Hu Hv. destruct (jtvec_ok s p n m HU HP u v HV Hu Hv) as (g & E & L & D).
  exists (Jv s m v), g. rewrite fresh_jvec, fresh_jtvec, (getJ0_ok s p n m HU HP HV). cbn [bind].
  rewrite (jvec_ok s p n m HU v HV Hv). auto.
Qed.
Lemma diagonal_ok s p n m W : usable_sim s p n m -> plain_rx s -> invertible s -> separate_maps s m ->
  exists g, fresh s (CallDiag m W) = Ok g /\ length g = p /\
    forall j, (j < p)%nat -> exists d, fresh s (CallJvec m (coord p j)) = Ok d /\ nth j g 0 = dot W (map (fun x => x ^ 2) d).
Proof.
  intros HU HP HV HS. destruct (diag_ok s p n m HU HP W HV HS) as (g & E & L & D).
  exists g. rewrite fresh_diag, (getJ0_ok s p n m HU HP HV). cbn [bind]. split; [exact E|]. split; [exact L|].
  intros j Hj. exists (Jv s m (coord p j)). rewrite fresh_jvec, (getJ0_ok s p n m HU HP HV). cbn [bind].
  rewrite (jvec_ok s p n m HU) by (auto using coord_length). auto.
Qed.

(** ** Examples *)
Lemma half_usable c k : usable_sim (half c k) 1 0 [1].
Proof.
  assert (P : 0 < / PI) by (apply Rinv_0_lt_compat, PI_RGT_0).
  split; [exact P|]. split; [constructor; [cbn; lra|constructor]|]. split; [reflexivity|]. split.
  - split; [reflexivity|]. split; [constructor; [lra|constructor]|]. cbn. split; [auto|].
    split; [split; [reflexivity|constructor; [reflexivity|constructor]]|].
    intros h Hh. eapply vderiv_ext with (f := fun t => vadd [1] (vscale t h)); [reflexivity|].
    destruct h as [|x [|]]; try discriminate. replace (mv [[1]] [x]) with [x] by (cbn; f_equal; ring).
    apply vderiv_line; reflexivity.
  - split; [reflexivity|]. split; [constructor|exact I].
Qed.
Lemma half_inv c k : invertible (half c k). Proof. left. reflexivity. Qed.
Lemma half_plain c : c <> CComplex -> plain_rx (half c 1).
Proof. intros H. constructor; [cbn; auto|constructor]. Qed.

Lemma two_usable : usable_sim two_layer 2 1 [3; 4] /\ plain_rx two_layer /\ invertible two_layer /\ separate_maps two_layer [3; 4].
Proof.
  assert (P : 0 < / PI) by (apply Rinv_0_lt_compat, PI_RGT_0).
  assert (V : forall h : vec, length h = 2%nat -> exists x y, h = [x; y]).
  { intros [|x [|y [|]]] H; try discriminate. eauto. }
  split; [|split; [|split]].
  - split; [exact P|]. split; [repeat (constructor; [cbn; lra|]); constructor|]. split; [reflexivity|]. split.
    + split; [reflexivity|]. split; [repeat (constructor; [cbn; lra|]); constructor|]. split; [reflexivity|].
      split; [split; [reflexivity|repeat (constructor; [reflexivity|]); constructor]|].
      intros h Hh. destruct (V h Hh) as (x & y & ->). split; [reflexivity|]. split; [reflexivity|].
      intros [|[|i]] Hi; [| |lia]; cbn.
      * eapply dpl_eq; [|apply dpl_const]. ring.
      * eapply dpl_eq; [|apply dpl_plus; [apply dpl_const|apply dpl_mult; [apply dpl_id|apply dpl_const]]]. cbn. ring.
    + split; [reflexivity|]. split; [repeat (constructor; [cbn; lra|]); constructor|]. split; [reflexivity|].
      split; [split; [reflexivity|repeat (constructor; [reflexivity|]); constructor]|].
      intros h Hh. destruct (V h Hh) as (x & y & ->). split; [reflexivity|]. split; [reflexivity|].
      intros [|i] Hi; [|lia]; cbn.
      eapply dpl_eq; [|apply dpl_plus; [apply dpl_const|apply dpl_mult; [apply dpl_id|apply dpl_const]]]. cbn. ring.
  - unfold plain_rx, rx_pairs, two_layer. cbn. repeat (constructor; [cbn; split; [reflexivity|discriminate]|]). constructor.
  - left. reflexivity.
  - intros [|[|j]] Hj; cbn in Hj; [right|left|lia]; cbn; repeat (constructor; [reflexivity|]); constructor.
Qed.

(** ** Counterexamples *)
Lemma count_bad : exists s m d, usable_sim s 1 0 m /\ invertible s /\ dpred s m = Ok d /\ length d <> nD s.
Proof.
  exists (half CReal 2), [1]. eexists. split; [apply half_usable|]. split; [apply half_inv|].
  split; [reflexivity|]. cbn. lia.
Qed.
Lemma complex_bad : exists s m d, usable_sim s 1 0 m /\ invertible s /\ dpred s m = Ok d /\ length d <> nD s /\
  forall v, fresh s (CallJvec m v) = Err GenericException.
Proof.
  exists (half CComplex 1), [1]. eexists. split; [apply half_usable|]. split; [apply half_inv|].
  split; [reflexivity|]. split; [cbn; lia|]. intros v. rewrite fresh_jvec. reflexivity.
Qed.

Lemma half_J : getJ0 (half CReal 1) [1] = Ok (Some [[/ 2]], None).
Proof.
  pose proof PI_RGT_0 as PP.
  assert (W : 2 * PI * 1 * / PI * 1 / 2 = 1) by (field; lra).
  assert (A : alpha (2 * PI * 1) (/ PI) 1 = (1, 1)) by (unfold alpha, csqrtI; rewrite W, sqrt_1; reflexivity).
  rewrite (getJ0_ok _ 1 0 [1] (half_usable CReal 1) (half_plain CReal ltac:(discriminate)) (half_inv _ _)).
  unfold theJ, ns. cbn [is_mapped mt_sigma mt_thick half rx_pairs mt_srcs flat_map map app s_rxs s_freq].
  do 3 f_equal. unfold row. cbn [fst snd r_comp jrow].
  unfold zd, impedance_deriv. cbn [pval half mt_sigma mt_thick mt_mu layers length Nat.eqb rev combine bind fst snd Zs sweep hd map app crow is_mapped firstn].
  f_equal. f_equal. unfold d_sigma_b, ratio. rewrite A.
  unfold xdivr, xopp, xadd, xmul, xdiv, xinv, nrm2, x1, Re, Im. cbn [fst snd]. unfold xmul, Re, Im. cbn [fst snd]. field. lra.
Qed.
Lemma diag_bad : exists s p n m W1 W2 g, usable_sim s p n m /\ plain_rx s /\ invertible s /\ separate_maps s m /\
  snd (do_call s (do_calls s (mt0 false) [CallDiag m W1]) (CallDiag m W2)) = Ok g /\ fresh s (CallDiag m W2) <> Ok g.
Proof.
  exists (half CReal 1), 1%nat, 0%nat, [1], [1], [2].
  assert (F : forall W, fresh (half CReal 1) (CallDiag [1] W) = diag0 (half CReal 1) (Some [[/ 2]], None) [1] W).
  { intros W. rewrite fresh_diag, half_J. reflexivity. }
  assert (D : forall x, diag0 (half CReal 1) (Some [[/ 2]], None) [1] [x] = Ok [x / 4]).
  { intros x. cbn. do 2 f_equal. field. }
  exists [1 / 4]. split; [apply half_usable|]. split; [apply half_plain; discriminate|]. split; [apply half_inv|].
  split; [intros j Hj; right; exact I|]. split.
  - cbn [do_calls]. unfold do_call at 2. cbn [st_g mt0]. unfold getJ, set_model. cbn [st_model st_fix mt0 orb st_J].
    rewrite half_J. cbn [st_J st_fix st_model st_g bind]. rewrite D. cbn [fst]. reflexivity.
  - rewrite F, D. intros E. injection E as E. lra.
Qed.
