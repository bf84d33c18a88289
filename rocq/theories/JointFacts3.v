From Verif Require Import Vec VecDeriv Joint SpecJoint JointFacts JointFacts2.
Local Open Scope R_scope.

Definition cr (hs gs : list vec) (acc : vec) : vec := fold_left vadd (zip2 (fun h g => vmul g h) hs gs) acc.
Definition sq_acc (gs : list vec) (acc : vec) : vec := fold_left (fun acc g => vadd acc (vmul g g)) gs acc.

Lemma chunks_len n k m : length m = (k * n)%nat -> Forall (fun c => length c = n) (chunks n k m).
Proof.
  revert m; induction k; intros m L; cbn; constructor; [rewrite firstn_length; cbn in L; lia|]. apply IHk. rewrite skipn_length. cbn in L. lia.
Qed.
Lemma chunks_line n k m h t : length m = length h -> chunks n k (vadd m (vscale t h)) = zip2 (fun a b => vadd a (vscale t b)) (chunks n k m) (chunks n k h).
Proof.
  revert m h; induction k; intros m h L; cbn; [reflexivity|]. rewrite firstn_line, skipn_line by assumption. f_equal. apply IHk. rewrite !skipn_length. lia.
Qed.
Lemma chunks_length n k m : length (chunks n k m) = k.
Proof. revert m; induction k; intros; cbn; auto. Qed.

Ltac finv H := let A := fresh "Lf" in let B := fresh "Ff" in pose proof (Forall_inv H) as A; pose proof (Forall_inv_tail H) as B; cbv beta in A.
Lemma dpl_inv x : x <> 0 -> derivable_pt_lim (fun y => / y) x (- / (x * x)).
Proof.
  intros Hx. apply (dpl_ext (fun y => 1 / y)); [intros; unfold Rdiv; ring|].
  eapply dpl_eq; [|apply (derivable_pt_lim_div (fun _ => 1) (fun y => y) x 0 1); [apply derivable_pt_lim_const|apply derivable_pt_lim_id|assumption]].
  unfold Rsqr. field. assumption.
Qed.
Section JTV.
  Context (n nf nc : nat) (G W : mat) (HG : is_mat nf n G) (HW : is_mat nc nf W) (eps : R) (vol : vec) (Lvol : length vol = nc).

  Lemma lG v : length (mv G v) = nf. Proof. rewrite mv_length. apply (proj1 HG). Qed.
  Lemma lW v : length (mv W v) = nc. Proof. rewrite mv_length. apply (proj1 HW). Qed.
  Lemma lGt v : length (mtv n G v) = n. Proof. apply (mtv_length nf n G v HG). Qed.
  Lemma mvW0 : mv W (vzero nf) = vzero nc.
  Proof. rewrite <- (proj1 HW). unfold mv. clear. induction W as [|r W' IH]; cbn; [reflexivity|]. f_equal; [apply dot_zero_r|exact IH]. Qed.
  Lemma lWt v : length (mtv nf W v) = nf. Proof. apply (mtv_length nc nf W v HW). Qed.
  Ltac lenj := repeat first
    [ rewrite vadd_length | rewrite vsub_length | rewrite vmul_length | rewrite vdiv_length | rewrite vscale_length
    | rewrite vopp_length | rewrite lG | rewrite lW | rewrite lGt | rewrite lWt | rewrite vzero_length | rewrite app_length | rewrite map_length ]; try lia.

  Lemma sq_acc_len gs acc : Forall (fun g => length g = nf) gs -> length acc = nf -> length (sq_acc gs acc) = nf.
  Proof. intros H; revert acc; induction H; intros acc L; cbn; [assumption|]. apply IHForall. lenj. Qed.
  Lemma cr_len hs : forall gs acc, Forall (fun g => length g = nf) gs -> Forall (fun g => length g = nf) hs -> length acc = nf -> length (cr hs gs acc) = nf.
  Proof.
    induction hs as [|h hs IH]; intros gs acc Hg Hh L; [exact L|]. destruct gs as [|g gs]; [exact L|].
    finv Hg; finv Hh. cbn. apply IH; try assumption. lenj.
  Qed.
  Lemma Gs_len cs : Forall (fun g => length g = nf) (map (mv G) cs).
  Proof. apply Forall_forall. intros x Hx. apply in_map_iff in Hx. destruct Hx as (c & <- & _). apply lG. Qed.

  (** the derivative of the sum of squares *)
  Lemma vderiv_sumsq k : forall m h (acc : R -> vec) acc', length m = (k * n)%nat -> length h = (k * n)%nat -> vderiv nf acc 0 acc' ->
    vderiv nf (fun t => sq_acc (map (mv G) (chunks n k (vadd m (vscale t h)))) (acc t)) 0
      (cr (map (mv G) (chunks n k h)) (map (mv G) (chunks n k m)) (cr (map (mv G) (chunks n k h)) (map (mv G) (chunks n k m)) acc')).
  Proof.
    assert (CA : forall hs gs a b, Forall (fun g => length g = nf) gs -> Forall (fun g => length g = nf) hs -> length a = nf -> length b = nf -> cr hs gs (vadd a b) = vadd (cr hs gs a) b).
    { induction hs as [|x hs IH]; intros [|y gs] a b Fg Fh La Lb; try reflexivity. finv Fg; finv Fh. cbn [cr zip2 fold_left]. 
      change (cr hs gs (vadd (vadd a b) (vmul y x)) = vadd (cr hs gs (vadd a (vmul y x))) b). rewrite <- IH; try assumption; try lenj. f_equal.
      rewrite <- !vadd_assoc. f_equal. apply vadd_comm. }
    induction k; intros m h acc acc' Lm Lh HA; cbn [chunks map]; [cbn; exact HA|].
    cbn in Lm, Lh.
    eapply vderiv_ext; [intros t; symmetry; rewrite firstn_line, skipn_line by lia; reflexivity|].
    cbn [sq_acc fold_left].
    pose proof (IHk (skipn n m) (skipn n h) (fun t => vadd (acc t) (vmul (mv G (vadd (firstn n m) (vscale t (firstn n h)))) (mv G (vadd (firstn n m) (vscale t (firstn n h))))))) as K.
    assert (V : vderiv nf (fun t => mv G (vadd (firstn n m) (vscale t (firstn n h)))) 0 (mv G (firstn n h))).
    { apply (vderiv_mv nf n G (fun t => vadd (firstn n m) (vscale t (firstn n h))) 0 (firstn n h) HG). apply vderiv_line; rewrite firstn_length; lia. }
    assert (Lg : length (mv G (firstn n m)) = nf) by apply lG. assert (Lgh : length (mv G (firstn n h)) = nf) by apply lG.
    assert (La : length acc' = nf) by apply (proj1 (proj2 HA)).
    eapply vderiv_eq; [|eapply K; [rewrite skipn_length; lia|rewrite skipn_length; lia|apply vderiv_add; [exact HA|apply vderiv_mul; exact V]]].
    cbv beta. rewrite line0 by (rewrite !firstn_length; lia). cbn [cr zip2 fold_left].
    set (hs := map (mv G) (chunks n k (skipn n h))). set (gs := map (mv G) (chunks n k (skipn n m))).
    assert (Fg : Forall (fun g => length g = nf) gs) by apply Gs_len. assert (Fh : Forall (fun g => length g = nf) hs) by apply Gs_len.
    set (g := mv G (firstn n m)) in *. set (gh := mv G (firstn n h)) in *.
    change (cr hs gs (cr hs gs (vadd acc' (vadd (vmul gh g) (vmul g gh)))) = cr hs gs (vadd (cr hs gs (vadd acc' (vmul g gh))) (vmul g gh))).
    rewrite <- CA; try assumption; try lenj. f_equal. f_equal. rewrite (vmul_comm gh g), vadd_assoc. reflexivity.
  Qed.

  Section AtModel.
    Context (k : nat) (m : vec) (Lm : length m = (k * n)%nat).
    Let gs := map (mv G) (chunks n k m).
    Let S := sumsq nf gs.
    Let rad := vadd (mv W S) (vscale eps (vmul vol vol)).
    Let sq := jtv_sq nf W eps vol gs.
    Context (POS : forall i, (i < nc)%nat -> 0 < nth i rad 0).

    Lemma lS : length S = nf. Proof. apply sq_acc_len; [apply Gs_len|apply vzero_length]. Qed.
    Lemma lrad : length rad = nc. Proof. unfold rad. rewrite vadd_length; lenj. Qed.
    Lemma lsq : length sq = nc. Proof. unfold sq, jtv_sq. rewrite map_length. apply lrad. Qed.
    Lemma sq_nth i : (i < nc)%nat -> nth i sq 0 = sqrt (nth i rad 0).
    Proof. intros Hi. unfold sq, jtv_sq. fold S. fold rad. rewrite map_nth_lt by (rewrite lrad; assumption). reflexivity. Qed.
    Lemma sq_pos i : (i < nc)%nat -> 0 < nth i sq 0.
    Proof. intros Hi. rewrite sq_nth by assumption. apply sqrt_lt_R0, POS; assumption. Qed.
    Lemma inv_nth i : (i < nc)%nat -> nth i (map (fun s => 1 / s) sq) 0 = / nth i sq 0.
    Proof. intros Hi. rewrite (nth_indep _ 0 (1 / 0)) by (rewrite map_length, lsq; assumption). rewrite (map_nth (fun s => 1 / s)). unfold Rdiv. apply Rmult_1_l. Qed.
    Lemma cub_nth i : (i < nc)%nat -> nth i (map (fun s => s ^ 3) sq) 0 = (nth i sq 0) ^ 3.
    Proof. intros Hi. rewrite (nth_indep _ 0 (0 ^ 3)) by (rewrite map_length, lsq; assumption). rewrite (map_nth (fun s => s ^ 3)). reflexivity. Qed.

    Section Dir.
      Context (h : vec) (Lh : length h = (k * n)%nat).
      Let hs := map (mv G) (chunks n k h).
      Let C := cr hs gs (vzero nf).
      Lemma lC : length C = nf. Proof. apply cr_len; [apply Gs_len|apply Gs_len|apply vzero_length]. Qed.
      Lemma cr_shift : forall xs ys a, Forall (fun g => length g = nf) ys -> Forall (fun g => length g = nf) xs -> length a = nf -> cr xs ys a = vadd a (cr xs ys (vzero nf)).
      Proof.
        induction xs as [|x xs IH]; intros [|y ys] a Fy Fx La; try (cbn; symmetry; apply vadd_zero_r; assumption).
        finv Fy; finv Fx. cbn [cr zip2 fold_left].
        change (cr xs ys (vadd a (vmul y x)) = vadd a (cr xs ys (vadd (vzero nf) (vmul y x)))). 
        rewrite IH; try assumption; try lenj. rewrite (IH ys (vadd (vzero nf) (vmul y x))); try assumption; try lenj. rewrite vadd_zero_l by lenj. rewrite vadd_assoc. reflexivity.
      Qed.
      Lemma rad_deriv : vderiv nc (fun t => vadd (mv W (sumsq nf (map (mv G) (chunks n k (vadd m (vscale t h)))))) (vscale eps (vmul vol vol))) 0 (vscale 2 (mv W C)).
      Proof.
        eapply vderiv_eq; [|apply vderiv_add; [|apply vderiv_const; lenj]].
        2:{ eapply (vderiv_mv nc nf W (fun t => sumsq nf (map (mv G) (chunks n k (vadd m (vscale t h))))) 0 _ HW). unfold sumsq.
            apply (vderiv_sumsq k m h (fun _ => vzero nf) (vzero nf) Lm Lh). apply vderiv_const. apply vzero_length. }
        fold hs gs. change (cr hs gs (vzero nf)) with C. rewrite cr_shift by (apply Gs_len || apply lC). change (cr hs gs (vzero nf)) with C.
        rewrite mv_vadd by reflexivity. rewrite vadd_zero_r by lenj. replace 2 with (1 + 1) by ring. rewrite vscale_plus, vscale_1. reflexivity.
      Qed.
      Lemma sq_deriv : vderiv nc (fun t => jtv_sq nf W eps vol (map (mv G) (chunks n k (vadd m (vscale t h))))) 0 (vdiv (mv W C) sq).
      Proof.
        destruct rad_deriv as (F1 & F2 & F3). pose proof lsq as Ls. pose proof lC as LC'. split; [|split].
        - intros t. unfold jtv_sq. rewrite map_length. apply F1.
        - rewrite vdiv_length; lenj.
        - intros i Hi. unfold jtv_sq.
          apply (dpl_ext (fun t => sqrt (nth i (vadd (mv W (sumsq nf (map (mv G) (chunks n k (vadd m (vscale t h)))))) (vscale eps (vmul vol vol))) 0))).
          { intros t. rewrite map_nth_lt by (rewrite F1; assumption). reflexivity. }
          assert (E0 : nth i (vadd (mv W (sumsq nf (map (mv G) (chunks n k (vadd m (vscale 0 h)))))) (vscale eps (vmul vol vol))) 0 = nth i rad 0) by (rewrite line0 by congruence; reflexivity).
          eapply dpl_eq; [|eapply (dpl_comp (fun t => nth i (vadd (mv W (sumsq nf (map (mv G) (chunks n k (vadd m (vscale t h)))))) (vscale eps (vmul vol vol))) 0) sqrt 0 _ (/ (2 * sqrt (nth i rad 0)))); [apply F3; assumption|]].
          + unfold vdiv. rewrite zipw_nth by lenj. rewrite nth_vscale, sq_nth by assumption. pose proof (sqrt_lt_R0 _ (POS i Hi)). field. lra.
          + rewrite E0. apply derivable_pt_lim_sqrt. apply POS; assumption.
      Qed.
      Lemma vsum_deriv p f f' : vderiv p f 0 f' -> derivable_pt_lim (fun t => vsum (f t)) 0 (vsum f').
      Proof.
        intros V. assert (E : forall (x : vec), vsum x = dot x (vconst (length x) 1)). { induction x as [|a x IH]; cbn; [reflexivity|]. rewrite IH at 1. fold (vconst (length x) 1). ring. }
        pose proof V as (F1 & F2 & _).
        apply (dpl_ext (fun t => dot (f t) (vconst p 1))). { intros t. rewrite E, F1. reflexivity. }
        eapply dpl_eq; [|apply (deriv_dot p f (fun _ => vconst p 1) 0 f' (vzero p) V); apply vderiv_const; apply vconst_length].
        rewrite dot_zero_r, E, F2. ring.
      Qed.
      (** dot with a concatenation of pieces *)
      Lemma dot_pieces y : length y = nc -> forall kk mm hh acc, length mm = (kk * n)%nat -> length hh = (kk * n)%nat -> length acc = nf ->
        dot (concat (map (fun g => mtv n G (vmul (mtv nf W y) g)) (map (mv G) (chunks n kk mm)))) hh + dot y (mv W acc)
        = dot y (mv W (cr (map (mv G) (chunks n kk hh)) (map (mv G) (chunks n kk mm)) acc)).
      Proof.
        intros Ly. induction kk; intros mm hh acc L1 L2 La; cbn [chunks map concat]; [cbn; ring|]. cbn in L1, L2.
        rewrite (dot_app n) by apply lGt.
        cbn [cr zip2 fold_left]. match goal with |- _ = dot y (mv W ?X) => change X with (cr (map (mv G) (chunks n kk (skipn n hh))) (map (mv G) (chunks n kk (skipn n mm))) (vadd acc (vmul (mv G (firstn n mm)) (mv G (firstn n hh))))) end.
        rewrite <- IHkk by (lenj; rewrite skipn_length; lia). rewrite mv_vadd by lenj. rewrite dot_vadd_r by lenj.
        rewrite (piece n nf nc G W HG HW y) by (lenj; rewrite firstn_length; lia). ring.
      Qed.
      Lemma jtv_dir : dot (jtv_deriv n k nf G W eps vol m) h = vsum (vdiv (mv W C) sq).
      Proof.
        unfold jtv_deriv. fold gs. fold sq. pose proof lsq as Ls. pose proof lC as LC'.
        pose proof (dot_pieces (map (fun s => 1 / s) sq) ltac:(lenj) k m h (vzero nf) Lm Lh (vzero_length nf)) as P.
        fold gs hs in P. fold C in P. replace (mv W (vzero nf)) with (vzero nc) in P.
        2:{ symmetry. apply mvW0. }
        rewrite dot_zero_r, Rplus_0_r in P. rewrite P. clear P.
        replace (vdiv (mv W C) sq) with (vmul (map (fun s => 1 / s) sq) (mv W C)); [rewrite vsum_vmul; reflexivity|].
        apply vec_ext; [lenj; rewrite vdiv_length; lenj|]. intros i Hi. assert (Li : (i < nc)%nat) by (revert Hi; lenj).
        rewrite nth_vmul by lenj. unfold vdiv. rewrite zipw_nth by lenj. rewrite inv_nth by assumption. unfold Rdiv. ring.
      Qed.
      Lemma jtv_line_value : derivable_pt_lim (fun t => jtv_value n k nf G W eps vol (vadd m (vscale t h))) 0 (dot (jtv_deriv n k nf G W eps vol m) h).
      Proof. rewrite jtv_dir. unfold jtv_value. apply (vsum_deriv nc _ _ sq_deriv). Qed.

      (** second derivative *)
      Let mid := mtv nf W (map (fun s => 1 / s) sq).
      Let tmp := mtv nf W (vdiv (mv W C) (map (fun s => s ^ 3) sq)).
      Lemma mid_deriv : vderiv nf (fun t => mtv nf W (map (fun s => 1 / s) (jtv_sq nf W eps vol (map (mv G) (chunks n k (vadd m (vscale t h))))))) 0 (vopp tmp).
      Proof.
        pose proof lsq as Ls. pose proof lC as LC'.
        eapply vderiv_eq; [|apply (vderiv_mtv nc nf W (fun t => map (fun s => 1 / s) (jtv_sq nf W eps vol (map (mv G) (chunks n k (vadd m (vscale t h)))))) 0 (vopp (vdiv (mv W C) (map (fun s => s ^ 3) sq))) HW)].
        - unfold tmp. rewrite !vopp_scale, (mtv_vscale nc nf W) by (assumption || rewrite vdiv_length; lenj). reflexivity.
        - destruct sq_deriv as (F1 & F2 & F3). split; [|split].
          + intros t. rewrite map_length. apply F1.
          + rewrite vopp_length, vdiv_length; lenj.
          + intros i Hi.
            apply (dpl_ext (fun t => / nth i (jtv_sq nf W eps vol (map (mv G) (chunks n k (vadd m (vscale t h))))) 0)).
            { intros t. rewrite map_nth_lt by (rewrite F1; assumption). unfold Rdiv. ring. }
            pose proof (sq_pos i Hi) as Ps.
            assert (E0 : nth i (jtv_sq nf W eps vol (map (mv G) (chunks n k (vadd m (vscale 0 h))))) 0 = nth i sq 0) by (rewrite line0 by congruence; reflexivity).
            eapply dpl_eq; [|eapply (dpl_comp (fun t => nth i (jtv_sq nf W eps vol (map (mv G) (chunks n k (vadd m (vscale t h))))) 0) (fun x => / x) 0 _ (- / (nth i sq 0 * nth i sq 0))); [apply F3; assumption|]].
            * rewrite nth_vopp. unfold vdiv. rewrite !zipw_nth by lenj. rewrite cub_nth by assumption. field. lra.
            * rewrite E0. apply dpl_inv. lra.
      Qed.
      Lemma concat_deriv (md : R -> vec) md' : vderiv nf md 0 md' -> forall kk mm hh, length mm = (kk * n)%nat -> length hh = (kk * n)%nat ->
        vderiv (kk * n) (fun t => concat (map (fun g => mtv n G (vmul (md t) g)) (map (mv G) (chunks n kk (vadd mm (vscale t hh)))))) 0
          (concat (zip2 (fun gv g => mtv n G (vadd (vmul (md 0) gv) (vmul g md'))) (map (mv G) (chunks n kk hh)) (map (mv G) (chunks n kk mm)))).
      Proof.
        intros V. induction kk; intros mm hh L1 L2; cbn [chunks map concat zip2]; [apply vderiv_const; reflexivity|]. cbn in L1, L2.
        cbn [Nat.mul].
        eapply vderiv_ext; [intros t; symmetry; rewrite firstn_line, skipn_line by lia; reflexivity|].
        assert (Vg : vderiv nf (fun t => mv G (vadd (firstn n mm) (vscale t (firstn n hh)))) 0 (mv G (firstn n hh))).
        { apply (vderiv_mv nf n G (fun t => vadd (firstn n mm) (vscale t (firstn n hh))) 0 (firstn n hh) HG). apply vderiv_line; rewrite firstn_length; lia. }
        apply vderiv_app; [|apply IHkk; rewrite skipn_length; lia].
        eapply vderiv_eq; [|eapply (vderiv_mtv nf n G (fun t => vmul (md t) (mv G (vadd (firstn n mm) (vscale t (firstn n hh))))) 0 _ HG); apply vderiv_mul; [exact V|exact Vg]].
        cbv beta. rewrite line0 by (rewrite !firstn_length; lia). f_equal. rewrite vadd_comm. f_equal. apply vmul_comm.
      Qed.
      Lemma tmp_eq : fold_left vadd (zip2 (fun gv g => mtv nf W (vdiv (mv W (vmul g gv)) (map (fun s => s ^ 3) sq))) hs gs) (vzero nf) = tmp.
      Proof.
        pose proof lsq as Ls.
        assert (DV : forall a b, length a = nc -> length b = nc -> vdiv (vadd a b) (map (fun s => s ^ 3) sq) = vadd (vdiv a (map (fun s => s ^ 3) sq)) (vdiv b (map (fun s => s ^ 3) sq))).
        { intros a b La Lb. apply vec_ext; [rewrite vdiv_length by lenj; lenj; rewrite !vdiv_length; lenj|]. intros i Hi. rewrite vdiv_length in Hi by lenj.
          assert (Li : (i < nc)%nat) by (revert Hi; lenj). unfold vdiv at 1. rewrite zipw_nth by lenj. rewrite !nth_vadd by (rewrite ?vdiv_length; lenj). unfold vdiv. rewrite !zipw_nth by lenj. unfold Rdiv. ring. }
        assert (GEN : forall xs ys acc, Forall (fun g => length g = nf) ys -> Forall (fun g => length g = nf) xs -> length acc = nf ->
           fold_left vadd (zip2 (fun gv g => mtv nf W (vdiv (mv W (vmul g gv)) (map (fun s => s ^ 3) sq))) xs ys) (mtv nf W (vdiv (mv W acc) (map (fun s => s ^ 3) sq)))
           = mtv nf W (vdiv (mv W (cr xs ys acc)) (map (fun s => s ^ 3) sq))).
        { induction xs as [|x xs IH]; intros [|y ys] acc Fy Fx La; try reflexivity. finv Fy; finv Fx. cbn [zip2 fold_left].
          rewrite <- (mtv_vadd nc nf W) by (assumption || (rewrite vdiv_length; lenj)). rewrite <- DV by lenj. rewrite <- mv_vadd by lenj. rewrite IH by (assumption || lenj). reflexivity. }
        unfold tmp, C. rewrite <- GEN by (apply Gs_len || apply vzero_length). f_equal.
        assert (Z1 : mv W (vzero nf) = vzero nc) by apply mvW0.
        rewrite Z1. assert (Z2 : vdiv (vzero nc) (map (fun s => s ^ 3) sq) = vzero nc).
        { apply vec_ext; [rewrite vdiv_length; lenj|]. intros i Hi. rewrite vdiv_length in Hi by lenj. rewrite vzero_length in Hi. unfold vdiv. rewrite zipw_nth by lenj. rewrite !nth_zero. unfold Rdiv. ring. }
        rewrite Z2. replace (vzero nc) with (vscale 0 (vzero nc)) by (rewrite vscale_0, vzero_length; reflexivity). rewrite (mtv_vscale nc nf W) by (assumption || apply vzero_length).
        rewrite vscale_0, lWt. reflexivity.
      Qed.
      Lemma jtv_deriv2_eq : jtv_deriv2v n k nf G W eps vol m h = concat (zip2 (fun gv g => mtv n G (vsub (vmul mid gv) (vmul g tmp))) hs gs).
      Proof. unfold jtv_deriv2v. cbv zeta. fold gs hs. fold sq. rewrite tmp_eq. reflexivity. Qed.
      Lemma jtv_line_deriv : vderiv (k * n) (fun t => jtv_deriv n k nf G W eps vol (vadd m (vscale t h))) 0 (jtv_deriv2v n k nf G W eps vol m h).
      Proof.
        rewrite jtv_deriv2_eq. unfold jtv_deriv. cbv zeta.
        eapply vderiv_eq; [|apply (concat_deriv _ _ mid_deriv k m h Lm Lh)].
        cbv beta. rewrite line0 by congruence. fold gs hs sq mid. f_equal.
        assert (GEN : forall xs ys, Forall (fun g => length g = nf) ys -> Forall (fun g => length g = nf) xs ->
          zip2 (fun gv g => mtv n G (vadd (vmul mid gv) (vmul g (vopp tmp)))) xs ys = zip2 (fun gv g => mtv n G (vsub (vmul mid gv) (vmul g tmp))) xs ys).
        { induction xs as [|x xs IH]; intros [|y ys] Fy Fx; try reflexivity. finv Fy; finv Fx. cbn. f_equal; [|apply IH; assumption]. f_equal.
          rewrite vsub_as_add. f_equal. rewrite vopp_scale, vmul_scale_r. reflexivity. }
        apply GEN; apply Gs_len.
      Qed.

      (** positive semidefinite *)
      Context (PW : nonneg_mat W) (Pe : 0 <= eps).
      Let Q := sumsq nf hs.
      Lemma cs_faces : forall xs ys p q c, Forall (fun g => length g = nf) ys -> Forall (fun g => length g = nf) xs -> length p = nf -> length q = nf -> length c = nf -> length xs = length ys ->
        (forall i, (i < nf)%nat -> 0 <= nth i p 0 /\ 0 <= nth i q 0 /\ nth i c 0 * nth i c 0 <= nth i p 0 * nth i q 0) ->
        forall i, (i < nf)%nat -> 0 <= nth i (sq_acc ys p) 0 /\ 0 <= nth i (sq_acc xs q) 0 /\ nth i (cr xs ys c) 0 * nth i (cr xs ys c) 0 <= nth i (sq_acc ys p) 0 * nth i (sq_acc xs q) 0.
      Proof.
        induction xs as [|x xs IH]; intros [|y ys] p q c Fy Fx Lp Lq Lc LL H i Hi; cbn in LL; try discriminate; [apply H; assumption|].
        finv Fy; finv Fx. cbn [cr sq_acc zip2 fold_left]. apply IH; try assumption; try lenj.
        intros j Hj. destruct (H j Hj) as (A1 & A2 & A3). rewrite !nth_vadd by lenj. rewrite !nth_vmul by lenj.
        assert (0 <= nth j x 0 * nth j x 0) by nra. assert (0 <= nth j y 0 * nth j y 0) by nra. split; [lra|]. split; [lra|].
        apply cs_step; try assumption. right. ring.
      Qed.
      Lemma psd_cell i : (i < nc)%nat -> 0 <= nth i (mv W Q) 0 / nth i sq 0 - nth i (mv W C) 0 * nth i (mv W C) 0 / nth i sq 0 ^ 3.
      Proof.
        intros Hi. pose proof (sq_pos i Hi) as Ps. pose proof lC as LC'. pose proof lS as LS.
        assert (LQ : length Q = nf) by (apply sq_acc_len; [apply Gs_len|apply vzero_length]).
        assert (Z : forall i, (i < nf)%nat -> 0 <= nth i S 0 /\ 0 <= nth i Q 0 /\ nth i C 0 * nth i C 0 <= nth i S 0 * nth i Q 0).
        { apply cs_faces; try apply Gs_len; try apply vzero_length; [unfold hs, gs; rewrite !map_length, !chunks_length; reflexivity|]. intros j Hj. rewrite !nth_zero. lra. }
        assert (CS : nth i (mv W C) 0 * nth i (mv W C) 0 <= nth i (mv W S) 0 * nth i (mv W Q) 0).
        { assert (Hl : (i < length W)%nat) by (rewrite (proj1 HW); assumption). rewrite !nth_mv by assumption.
          assert (Lr : length (nth i W []) = nf) by (apply (proj1 (Forall_nth _ W) (proj2 HW) i [] Hl)).
          apply weighted_cs; try lia; [apply (proj1 (Forall_nth _ W) PW i [] Hl)| | |].
          - apply nonneg_by_nth. intros j Hj. apply Z. lia.
          - apply nonneg_by_nth. intros j Hj. apply Z. lia.
          - intros j Hj. apply Z. lia. }
        assert (NQ : 0 <= nth i (mv W Q) 0). { apply nonneg_nth. apply mv_nonneg; [assumption|]. apply nonneg_by_nth. intros j Hj. apply Z. lia. }
        assert (SS : nth i sq 0 * nth i sq 0 = nth i rad 0). { rewrite sq_nth by assumption. apply sqrt_sqrt. left. apply POS; assumption. }
        assert (RW : nth i (mv W S) 0 <= nth i rad 0). { unfold rad. rewrite nth_vadd by lenj. rewrite nth_vscale, nth_vmul by lenj. assert (0 <= nth i vol 0 * nth i vol 0) by nra. nra. }
        replace (nth i (mv W Q) 0 / nth i sq 0 - nth i (mv W C) 0 * nth i (mv W C) 0 / nth i sq 0 ^ 3)
          with ((nth i sq 0 * nth i sq 0 * nth i (mv W Q) 0 - nth i (mv W C) 0 * nth i (mv W C) 0) / nth i sq 0 ^ 3) by (field; lra).
        rewrite SS. apply Rmult_le_pos; [nra|]. left. apply Rinv_0_lt_compat. apply pow_lt. assumption.
      Qed.
      Lemma quad_pieces : forall xs ys hh, xs = map (mv G) (chunks n (length ys) hh) -> length hh = (length ys * n)%nat -> Forall (fun g => length g = nf) ys ->
        forall q c, length q = nf -> length c = nf ->
        dot hh (concat (zip2 (fun gv g => mtv n G (vsub (vmul mid gv) (vmul g tmp))) xs ys)) + dot mid q - dot c tmp = dot mid (sq_acc xs q) - dot (cr xs ys c) tmp.
      Proof.
        assert (Lmid : length mid = nf) by apply lWt. assert (Ltmp : length tmp = nf) by apply lWt.
        intros xs ys; revert xs; induction ys as [|y ys IH]; intros xs hh Ex Lhh Fy q c Lq Lc; cbn [length chunks map] in Ex; subst xs; [cbn; rewrite dot_comm; cbn; ring|].
        finv Fy. cbn [zip2 concat sq_acc cr fold_left]. cbn in Lhh.
        assert (Lx : length (mv G (firstn n hh)) = nf) by apply lG.
        specialize (IH _ (skipn n hh) eq_refl ltac:(rewrite skipn_length; lia) ltac:(assumption)).
        specialize (IH (vadd q (vmul (mv G (firstn n hh)) (mv G (firstn n hh)))) (vadd c (vmul y (mv G (firstn n hh)))) ltac:(lenj) ltac:(lenj)).
        unfold sq_acc, cr in IH. rewrite <- IH. clear IH.
        rewrite (dot_comm hh), (dot_app n) by apply lGt. rewrite (adjG n nf G HG) by (lenj; rewrite firstn_length; lia).
        rewrite dot_vsub_l by lenj. rewrite dot_vadd_r by lenj. rewrite (dot_vadd_l c) by lenj.
        rewrite dot_vmul_l. rewrite (vmul_comm y tmp), dot_vmul_l, (dot_comm tmp). rewrite (dot_comm (concat _)). ring.
      Qed.
      Lemma jtv_psd_dir : 0 <= dot h (jtv_deriv2v n k nf G W eps vol m h).
      Proof.
        rewrite jtv_deriv2_eq. pose proof lC as LC'. pose proof lsq as Ls.
        assert (LQ : length Q = nf) by (apply sq_acc_len; [apply Gs_len|apply vzero_length]).
        assert (Lg : length gs = k) by (unfold gs; rewrite map_length, chunks_length; reflexivity).
        pose proof (quad_pieces hs gs h) as P. rewrite Lg in P. specialize (P eq_refl Lh (Gs_len _) (vzero nf) (vzero nf) (vzero_length nf) (vzero_length nf)).
        rewrite dot_zero_r, dot_zero_l in P. change (sq_acc hs (vzero nf)) with Q in P. change (cr hs gs (vzero nf)) with C in P.
        replace (dot h (concat (zip2 (fun gv g => mtv n G (vsub (vmul mid gv) (vmul g tmp))) hs gs))) with (dot mid Q - dot C tmp) by lra.
        unfold mid, tmp. rewrite (adjA nf nc W HW) by lenj. rewrite (dot_comm C). rewrite (adjA nf nc W HW) by (rewrite ?vdiv_length; lenj).
        match goal with |- 0 <= ?a - ?b => enough (b <= a) by lra end.
        apply dot_le; rewrite ?vdiv_length by lenj; lenj. intros i Hi. rewrite inv_nth by assumption. unfold vdiv. rewrite zipw_nth by lenj. rewrite cub_nth by assumption.
        pose proof (psd_cell i Hi) as P'. pose proof (sq_pos i Hi). unfold Rdiv in *. nra.
      Qed.
    End Dir.
  End AtModel.
End JTV.
