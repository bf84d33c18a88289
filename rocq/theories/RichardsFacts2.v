From Verif Require Import Py Vec VecDeriv ParamFacts Joint Gncg Empir SpecEmpir EmpirFacts Richards SpecRichards RichardsFacts.
From Coq Require Import Lra Lia.
Local Open Scope R_scope.

(** ** Well-formed matrix expressions and their adjoints *)
Fixpoint wfm (r c : nat) (A : mx) : Prop :=
  match A with
  | Mx k M => k = c /\ is_mat r c M
  | Mdiag d => length d = r /\ r = c
  | Mmul A B => exists k, wfm r k A /\ wfm k c B
  | Madd A B | Msub A B => wfm r c A /\ wfm r c B
  | Mscale _ A => wfm r c A
  | MT A => wfm c r A
  | Mblock _ _ _ _ _ _ => False
  end.
Lemma dot_vmul d a b : dot (vmul d a) b = dot a (vmul d b).
Proof. revert a b. induction d as [|x d IH]; intros [|y a] [|z b]; cbn; try reflexivity. rewrite <- IH. unfold vmul. ring. Qed.
Lemma wfm_act A : forall r c, wfm r c A -> (forall v, length v = c -> length (act false A v) = r) /\ (forall w, length w = r -> length (act true A w) = c) /\
  (forall v w, length v = c -> length w = r -> dot w (act false A v) = dot (act true A w) v).
Proof.
  induction A; intros r0 c0 W; cbn [wfm] in W; cbn [act].
  - destruct W as [-> W]. split; [intros; rewrite mv_length; apply W|]. split; [intros; apply (mtv_length r0); exact W|].
    intros v w Lv Lw. apply (mv_mtv_adjoint r0 c0); assumption.
  - destruct W as [L ->]. split; [intros; ln|]. split; [intros; ln|]. intros v w _ _. symmetry. apply dot_vmul.
  - destruct W as (k & W1 & W2). destruct (IHA1 _ _ W1) as (F1 & T1 & D1). destruct (IHA2 _ _ W2) as (F2 & T2 & D2).
    split; [intros; auto|]. split; [intros; auto|]. intros v w Lv Lw. rewrite D1, D2 by auto. reflexivity.
  - destruct W as (W1 & W2). destruct (IHA1 _ _ W1) as (F1 & T1 & D1). destruct (IHA2 _ _ W2) as (F2 & T2 & D2).
    split; [intros; apply ln_add; auto|]. split; [intros; apply ln_add; auto|]. intros v w Lv Lw.
    rewrite dot_vadd_r, dot_vadd_l, D1, D2 by (rewrite ?F1, ?F2, ?T1, ?T2; auto). reflexivity.
  - destruct W as (W1 & W2). destruct (IHA1 _ _ W1) as (F1 & T1 & D1). destruct (IHA2 _ _ W2) as (F2 & T2 & D2).
    split; [intros; apply ln_sub; auto|]. split; [intros; apply ln_sub; auto|]. intros v w Lv Lw.
    rewrite dot_vsub_r, dot_vsub_l, D1, D2 by (rewrite ?F1, ?F2, ?T1, ?T2; auto). reflexivity.
  - destruct (IHA _ _ W) as (F1 & T1 & D1). split; [intros; apply ln_scale; auto|]. split; [intros; apply ln_scale; auto|].
    intros v w Lv Lw. rewrite dot_vscale_r, dot_vscale_l, D1 by auto. reflexivity.
  - destruct (IHA _ _ W) as (F1 & T1 & D1). cbn [negb]. split; [auto|]. split; [auto|]. intros v w Lv Lw. rewrite dot_comm, <- D1 by auto. apply dot_comm.
  - destruct W.
Qed.
Lemma wfm_zmx p k d : match d with Some M => is_mat k p M | None => True end -> wfm k p (zmx p k d).
Proof.
  destruct d; cbn; [auto|]. intros _. split; [reflexivity|]. split; [apply repeat_length|]. apply Forall_forall. intros r Hr. apply repeat_spec in Hr. subst. apply vzero_length.
Qed.
Lemma smooth_zmx p k r x h : smooth_at p k r x h -> wfm k p (zmx p k (r_dM r x h)).
Proof. intros (_ & _ & H & _). apply wfm_zmx. destruct (r_dM r x h); [apply H|exact I]. Qed.

Lemma forward_cons s x v prev hn h fs dt dts : forward s x v prev (hn :: h :: fs) (dt :: dts) =
  let b := act false (Bmat s x hn h dt) v in
  let j := q_solve s (Adiag s x h dt) (match prev with None => b | Some p => vsub b (act false (Asub s x hn dt) p) end) in
  j :: forward s x v (Some j) (h :: fs) dts.
Proof. reflexivity. Qed.
Lemma backward_cons s x hn h fs dt dts q ps : backward s x (hn :: h :: fs) (dt :: dts) (q :: ps) =
  let '(minus, acc) := backward s x (h :: fs) dts ps in
  let z := q_solve s (MT (Adiag s x h dt)) (vsub q minus) in
  (act true (Asub s x hn dt) z, vadd acc (act true (Bmat s x hn h dt) z)).
Proof. reflexivity. Qed.
Lemma rows_cons s x v hn h fs dt dts : block_rows s x v (hn :: h :: fs) (dt :: dts) =
  (Asub s x hn dt, Adiag s x h dt, act false (Bmat s x hn h dt) v) :: block_rows s x v (h :: fs) dts.
Proof. reflexivity. Qed.
Lemma pairs_cons hn h fs dt dts : pairs (hn :: h :: fs) (dt :: dts) = (hn, h, dt) :: pairs (h :: fs) dts.
Proof. reflexivity. Qed.

Section Sub.
  Context (s : sim) (p : nat).
  Let g := q_grid s.
  Let n := g_n g.
  Let nf := g_nf g.
  Hypothesis GO : grid_ok g (length (q_bc s)).
  Hint Resolve dhead_length face_k_length harm_length : ln.
  Lemma wfm_harm K : length K = n -> wfm nf n (harm s K).
  Proof.
    intros LK. unfold harm. cbn [wfm]. exists nf. split; [split; [|reflexivity]|exists n; split; [split; [reflexivity|apply GO]|split; [|reflexivity]]].
    - rewrite map_length, mv_length. apply GO.
    - rewrite map_length. exact LK.
  Qed.
  Lemma wfm_Asub x hn dt : smooth_at p n (q_theta s) x hn -> wfm n n (Asub s x hn dt).
  Proof. intros (_ & L & _). cbn. auto. Qed.
  Lemma wfm_Adiag x h dt : smooth_at p n (q_theta s) x h -> smooth_at p n (q_k s) x h -> wfm n n (Adiag s x h dt).
  Proof.
    intros (_ & L & _) (LK & LU & _). unfold Adiag. fold g. fold n. fold nf. cbn [wfm].
    split; [split; [split|]|].
    - auto.
    - exists nf. split; [exists nf; split; [split; [reflexivity|apply GO]|split; [apply dhead_length; exact GO|reflexivity]]|].
      exists n. split; [apply wfm_harm; exact LK|auto].
    - exists nf. split; [split; [reflexivity|apply GO]|]. exists nf. split; [split; [apply face_k_length; exact GO|reflexivity]|split; [reflexivity|apply GO]].
    - exists nf. split; [split; [reflexivity|apply GO]|]. exists n. split; [apply wfm_harm; exact LK|auto].
  Qed.
  Lemma wfm_Bmat x hn h dt : length x = p -> smooth_at p n (q_theta s) x hn -> smooth_at p n (q_theta s) x h -> smooth_at p n (q_k s) x h -> wfm n p (Bmat s x hn h dt).
  Proof.
    intros Lx S0 S1 SK. unfold Bmat. fold g. fold n. fold nf. rewrite Lx. cbn [wfm]. pose proof (proj1 SK) as LK.
    split; [split|split; apply smooth_zmx; assumption].
    - exists nf. split; [exists nf; split; [split; [reflexivity|apply GO]|split; [apply dhead_length; exact GO|reflexivity]]|].
      exists n. split; [apply wfm_harm; exact LK|apply smooth_zmx; exact SK].
    - exists nf. split; [split; [reflexivity|apply GO]|]. exists n. split; [apply wfm_harm; exact LK|apply smooth_zmx; exact SK].
  Qed.

  (** ** Forward and backward substitution are adjoint *)
  Definition good (x hn h : vec) : Prop := length hn = n /\ length h = n /\
    smooth_at p n (q_theta s) x hn /\ smooth_at p n (q_theta s) x h /\ smooth_at p n (q_k s) x h.
  Fixpoint sumdot (ps ys : list vec) : R := match ps, ys with a :: ps, b :: ys => dot a b + sumdot ps ys | _, _ => 0 end.
  Lemma act_0 A r c : wfm r c A -> act false A (vzero c) = vzero r.
  Proof.
    intros W. destruct (wfm_act A r c W) as (F & T & D). apply dot_ext; [rewrite F, vzero_length; [reflexivity|apply vzero_length]|].
    intros v Lv. rewrite F in Lv by apply vzero_length. rewrite dot_zero_l, dot_comm, D, dot_zero_r by (rewrite ?vzero_length; auto). reflexivity.
  Qed.
  Lemma forward_none x v fs dts : length v = p -> length x = p -> (forall hn h dt, In (hn, h, dt) (pairs fs dts) -> good x hn h) ->
    forward s x v None fs dts = forward s x v (Some (vzero n)) fs dts.
  Proof.
    intros Lv Lx G. destruct fs as [|hn [|h fs]], dts as [|dt dts]; try reflexivity. rewrite !forward_cons. cbv zeta.
    destruct (G hn h dt (or_introl eq_refl)) as (Ln & Lh & S0 & S1 & SK).
    destruct (wfm_act _ _ _ (wfm_Bmat x hn h dt Lx S0 S1 SK)) as (F & _ & _).
    rewrite (act_0 _ n n (wfm_Asub x hn dt S0)).
    assert (E : vsub (act false (Bmat s x hn h dt) v) (vzero n) = act false (Bmat s x hn h dt) v).
    { pose proof (F v Lv) as LB. fold n in LB. vext n. ring. }
    rewrite E. reflexivity.
  Qed.
  Lemma forward_length x v fs : forall prev dts, length fs = S (length dts) -> length (forward s x v prev fs dts) = length dts.
  Proof.
    induction fs as [|hn fs IH]; intros prev dts L; [discriminate|]. destruct fs as [|h fs], dts as [|dt dts]; try discriminate; [reflexivity|].
    rewrite forward_cons. cbv zeta. cbn [length]. f_equal. apply IH. cbn in L |- *. lia.
  Qed.
  Lemma forward_lengths x v fs : length v = p -> length x = p -> forall prev dts, length prev = n ->
    (forall hn h dt, In (hn, h, dt) (pairs fs dts) -> good x hn h /\ inverts n (q_solve s) (Adiag s x h dt)) ->
    Forall (fun y => length y = n) (forward s x v (Some prev) fs dts).
  Proof.
    intros Lv Lx. induction fs as [|hn fs IH]; intros prev dts Lp G; [constructor|]. destruct fs as [|h fs], dts as [|dt dts]; try constructor. all: cbv zeta.
    - destruct (G hn h dt (or_introl eq_refl)) as ((Ln & Lh & S0 & S1 & SK) & I1).
      apply I1. apply ln_sub; [apply (wfm_act _ _ _ (wfm_Bmat x hn h dt Lx S0 S1 SK)); exact Lv|apply (wfm_act _ _ _ (wfm_Asub x hn dt S0)); exact Lp].
    - apply IH; [|intros hn' h' dt' HI; apply G; right; exact HI].
      destruct (G hn h dt (or_introl eq_refl)) as ((Ln & Lh & S0 & S1 & SK) & I1).
      apply I1. apply ln_sub; [apply (wfm_act _ _ _ (wfm_Bmat x hn h dt Lx S0 S1 SK)); exact Lv|apply (wfm_act _ _ _ (wfm_Asub x hn dt S0)); exact Lp].
  Qed.
  Lemma substitution x v fs : length v = p -> length x = p -> forall prev dts ps, length prev = n -> length ps = length dts -> length fs = S (length dts) ->
    Forall (fun q => length q = n) ps ->
    (forall hn h dt, In (hn, h, dt) (pairs fs dts) -> good x hn h /\ inverts n (q_solve s) (Adiag s x h dt) /\ inverts n (q_solve s) (MT (Adiag s x h dt))) ->
    let '(minus, acc) := backward s x fs dts ps in
    length minus = n /\ length acc = p /\ sumdot ps (forward s x v (Some prev) fs dts) = dot acc v - dot minus prev.
  Proof.
    intros Lv Lx. induction fs as [|hn fs IH]; intros prev dts ps Lp L1 L2 FP G; [discriminate|].
    destruct fs as [|h fs], dts as [|dt dts]; try discriminate.
    - destruct ps; [|discriminate]. cbn [backward forward sumdot]. fold g n. rewrite !dot_zero_l, !vzero_length. split; [reflexivity|]. split; [exact Lx|ring].
    - destruct ps as [|q ps]; [discriminate|]. rewrite backward_cons, forward_cons. cbv zeta. cbn [sumdot].
      destruct (G hn h dt (or_introl eq_refl)) as ((Ln & Lh & S0 & S1 & SK) & I1 & I2).
      pose proof (wfm_act _ _ _ (wfm_Bmat x hn h dt Lx S0 S1 SK)) as (FB & TB & DB).
      pose proof (wfm_act _ _ _ (wfm_Asub x hn dt S0)) as (FA & TA & DA).
      pose proof (wfm_act _ _ _ (wfm_Adiag x h dt S1 SK)) as (FD & TD & DD).
      assert (Lb : length (vsub (act false (Bmat s x hn h dt) v) (act false (Asub s x hn dt) prev)) = n) by (apply ln_sub; auto).
      destruct (I1 _ Lb) as (Ly & Ey & _). set (y := q_solve s (Adiag s x h dt) _) in *.
      specialize (IH y dts ps Ly ltac:(cbn in L1; lia) ltac:(cbn in L2 |- *; lia) (Forall_inv_tail FP) ltac:(intros hn' h' dt' HI; apply G; right; exact HI)).
      destruct (backward s x (h :: fs) dts ps) as [mi ac]. destruct IH as (Lmi & Lac & IH).
      pose proof (Forall_inv FP) as Lq. cbv beta in Lq.
      assert (Lr : length (vsub q mi) = n) by (apply ln_sub; auto).
      destruct (I2 _ Lr) as (Lz & Ez & _). set (z := q_solve s (MT (Adiag s x h dt)) _) in *. cbn [act negb] in Ez.
      split; [apply TA; exact Lz|]. split; [apply ln_add; [exact Lac|apply TB; exact Lz]|].
      rewrite IH. rewrite dot_vadd_l by (rewrite Lac, TB; auto). rewrite <- DB, <- DA by auto.
      assert (E : dot q y - dot mi y = dot z (act false (Bmat s x hn h dt) v) - dot z (act false (Asub s x hn dt) prev)).
      { rewrite <- dot_vsub_l by congruence. rewrite <- Ez. rewrite <- DD by auto. rewrite Ey. apply dot_vsub_r. rewrite FB, FA; auto. }
      lra.
  Qed.

  (** ** The block system *)
  Lemma rows_fst x v fs : forall dts, map fst (block_rows s x v fs dts) = map (fun q => (Asub s x (fst (fst q)) (snd q), Adiag s x (snd (fst q)) (snd q))) (pairs fs dts).
  Proof.
    induction fs as [|hn fs IH]; intros dts; [reflexivity|]. destruct fs as [|h fs], dts as [|dt dts]; try reflexivity. rewrite rows_cons, pairs_cons. cbn [map fst snd]. f_equal. apply IH.
  Qed.
  Lemma block_solution x v fs : length v = p -> length x = p -> forall prev dts ys, length prev = n -> length fs = S (length dts) -> length ys = length dts -> Forall (fun y => length y = n) ys ->
    (forall hn h dt, In (hn, h, dt) (pairs fs dts) -> good x hn h /\ inverts n (q_solve s) (Adiag s x h dt)) ->
    block_act (Some prev) (map fst (block_rows s x v fs dts)) ys = map snd (block_rows s x v fs dts) -> ys = forward s x v (Some prev) fs dts.
  Proof.
    intros Lv Lx. induction fs as [|hn fs IH]; intros prev dts ys Lp L1 L2 FY G E; [discriminate|].
    destruct fs as [|h fs], dts as [|dt dts]; try discriminate.
    - destruct ys; [reflexivity|discriminate].
    - destruct ys as [|y ys]; [discriminate|]. rewrite rows_cons in E. rewrite forward_cons. cbv zeta. cbn [map fst snd block_act] in E.
      assert (E1 := f_equal (hd []) E). assert (E2 := f_equal (@tl vec) E). cbn [hd tl] in E1, E2. clear E.
      destruct (G hn h dt (or_introl eq_refl)) as ((Ln & Lh & S0 & S1 & SK) & I1).
      pose proof (wfm_act _ _ _ (wfm_Bmat x hn h dt Lx S0 S1 SK)) as (FB & TB & DB).
      pose proof (wfm_act _ _ _ (wfm_Asub x hn dt S0)) as (FA & TA & DA).
      pose proof (wfm_act _ _ _ (wfm_Adiag x h dt S1 SK)) as (FD & TD & DD).
      pose proof (Forall_inv FY) as Ly. cbv beta in Ly.
      assert (Lb : length (vsub (act false (Bmat s x hn h dt) v) (act false (Asub s x hn dt) prev)) = n) by (apply ln_sub; auto).
      assert (Ey : y = q_solve s (Adiag s x h dt) (vsub (act false (Bmat s x hn h dt) v) (act false (Asub s x hn dt) prev))).
      { apply (I1 _ Lb); [exact Ly|]. rewrite <- E1. pose proof (FA prev Lp) as L3. pose proof (FD y Ly) as L4. fold n in L3, L4. vext n. ring. }
      f_equal; [exact Ey|]. rewrite <- Ey. apply IH; try assumption; [cbn in L1 |- *; lia|cbn in L2; lia|exact (Forall_inv_tail FY)|].
      intros hn' h' dt' HI. apply G. right. exact HI.
  Qed.
End Sub.
