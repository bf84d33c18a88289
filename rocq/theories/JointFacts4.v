From Verif Require Import Vec VecDeriv Joint SpecJoint JointFacts JointFacts2 JointFacts3.
Local Open Scope R_scope.

Ltac finv H := let A := fresh "Lf" in let B := fresh "Ff" in pose proof (Forall_inv H) as A; pose proof (Forall_inv_tail H) as B; cbv beta in A.

Lemma rpower_half3 s : 0 < s -> Rpower s (-1.5) * Rpower s (-1.5) = / (s ^ 3).
Proof.
  intros Hs. rewrite <- Rpower_plus. replace (-1.5 + -1.5) with (- (3)) by lra. rewrite Rpower_Ropp. f_equal.
  replace 3 with (INR 3) by (cbn; lra). apply Rpower_pow. assumption.
Qed.

Lemma crl nf hs : forall gs acc, Forall (fun g => length g = nf) gs -> Forall (fun g => length g = nf) hs -> length acc = nf -> length (cr hs gs acc) = nf.
Proof.
  induction hs as [|h hs IH]; intros gs acc Hg Hh L; [exact L|]. destruct gs as [|g gs]; [exact L|].
  finv Hg; finv Hh. change (length (cr hs gs (vadd acc (vmul g h))) = nf). apply IH; try assumption. rewrite vadd_length; [assumption|]. rewrite vmul_length; congruence.
Qed.
Section J.
  Context (n nf nc : nat) (G W : mat) (HG : is_mat nf n G) (HW : is_mat nc nf W) (eps : R) (vol : vec) (Lvol : length vol = nc).
  Ltac lenj := repeat first
    [ rewrite vadd_length | rewrite vsub_length | rewrite vmul_length | rewrite vdiv_length | rewrite vscale_length
    | rewrite vopp_length | rewrite (lG n nf G HG) | rewrite (lW nf nc W HW) | rewrite (lGt n nf G HG) | rewrite (lWt nf nc W HW) | rewrite vzero_length | rewrite app_length | rewrite map_length ]; try lia.

  Lemma positive_radicand k m : 0 < eps -> (forall i, (i < nc)%nat -> 0 < nth i vol 0) -> nonneg_mat W -> length m = (k * n)%nat ->
    forall i, (i < nc)%nat -> 0 < nth i (vadd (mv W (sumsq nf (map (mv G) (chunks n k m)))) (vscale eps (vmul vol vol))) 0.
  Proof.
    intros He Hv PW Lm i Hi. rewrite nth_vadd by lenj. rewrite nth_vscale, nth_vmul by lia. specialize (Hv i Hi).
    assert (0 < eps * (nth i vol 0 * nth i vol 0)) by (apply Rmult_lt_0_compat; nra).
    enough (0 <= nth i (mv W (sumsq nf (map (mv G) (chunks n k m)))) 0) by lra.
    apply nonneg_nth. apply mv_nonneg; [assumption|].
    assert (GEN : forall gs acc, nonneg_vec acc -> nonneg_vec (sq_acc gs acc)).
    { induction gs as [|g gs IH]; intros acc Ha; [exact Ha|]. cbn. apply IH. revert g. induction Ha as [|x a Hx Ha IH2]; intros [|y g]; cbn; constructor; [nra|]. apply IH2. }
    apply GEN. apply Forall_forall. intros x Hx. apply repeat_spec in Hx. lra.
  Qed.

  Section At.
    Context (k : nat) (m : vec) (Lm : length m = (k * n)%nat).
    Let gs := map (mv G) (chunks n k m).
    Let sq := jtv_sq nf W eps vol gs.
    Context (POS : forall i, (i < nc)%nat -> 0 < nth i (vadd (mv W (sumsq nf gs)) (vscale eps (vmul vol vol))) 0).

    Lemma dm_eq v : length v = (k * n)%nat -> jtv_deriv2m n k nf G W eps vol m v = jtv_deriv2v n k nf G W eps vol m v.
    Proof.
      intros Lv. rewrite (jtv_deriv2_eq n nf nc G W HG HW eps vol Lvol k m Lm v Lv). cbv zeta. unfold jtv_deriv2m. cbv zeta. fold gs. fold sq.
      set (hs := map (mv G) (chunks n k v)). set (mid := mtv nf W (map (fun s => 1 / s) sq)).
      assert (Ls : length sq = nc) by apply (lsq n nf nc G W HW eps vol Lvol k m Lm).
      set (half := map (fun s => Rpower s (-1.5)) sq). assert (Lh : length half = nc) by (unfold half; rewrite map_length; assumption).
      set (row := fold_left vadd (zip2 (act false) (map (jtv_piece n nf G W sq) gs) (chunks n k v)) (vzero (length W))).
      assert (RE : row = vmul half (mv W (cr hs gs (vzero nf)))).
      { unfold row. rewrite (proj1 HW). 
        assert (GEN : forall vs ys acc, Forall (fun g => length g = nf) ys -> length acc = nf ->
           fold_left vadd (zip2 (act false) (map (jtv_piece n nf G W sq) ys) vs) (vmul half (mv W acc)) = vmul half (mv W (cr (map (mv G) vs) ys acc))).
        { induction vs as [|x vs IH]; intros [|y ys] acc Fy La; try reflexivity. finv Fy. change (cr (map (mv G) (x :: vs)) (y :: ys) acc) with (cr (map (mv G) vs) ys (vadd acc (vmul y (mv G x)))). cbn [map zip2 fold_left].
          rewrite <- IH by (assumption || lenj). f_equal. cbn [act jtv_piece]. fold half. rewrite mv_vadd by lenj.
          apply vec_ext; [lenj|]. intros i Hi. assert (Li : (i < nc)%nat) by (revert Hi; lenj). rewrite nth_vadd by lenj. rewrite !nth_vmul by lenj. rewrite nth_vadd by lenj. ring. }
        unfold hs. rewrite <- GEN by (apply (Gs_len n nf G HG) || apply vzero_length). f_equal. rewrite (mvW0 nf nc W HW).
        apply vec_ext; [lenj|]. intros i Hi. rewrite vzero_length in Hi. rewrite nth_vmul by lenj. rewrite nth_zero. ring. }
      assert (TE : mtv nf W (vmul half row) = mtv nf W (vdiv (mv W (cr hs gs (vzero nf))) (map (fun s => s ^ 3) sq))).
      { f_equal. rewrite RE.
        assert (LC' : length (cr hs gs (vzero nf)) = nf) by (apply crl; [apply (Gs_len n nf G HG)|apply (Gs_len n nf G HG)|apply vzero_length]).
        apply vec_ext; [lenj; rewrite vdiv_length; lenj|]. intros i Hi. assert (Li : (i < nc)%nat) by (revert Hi; lenj).
        rewrite !nth_vmul by lenj. unfold vdiv. rewrite zipw_nth by lenj. unfold half. rewrite !map_nth_lt by lia.
        rewrite <- Rmult_assoc, rpower_half3 by (apply (sq_pos n nf nc G W HW eps vol Lvol k m Lm POS); assumption). unfold Rdiv. ring. }
      f_equal.
      assert (GEN : forall vs ys, Forall (fun g => length g = nf) ys ->
        zip2 (fun P x => vsub (act false (Mmul (Mmul (MT (Mx n G)) (Mdiag mid)) (Mx n G)) x) (act true P row)) (map (jtv_piece n nf G W sq) ys) vs
        = zip2 (fun gv g => mtv n G (vsub (vmul mid gv) (vmul g (mtv nf W (vdiv (mv W (cr hs gs (vzero nf))) (map (fun s => s ^ 3) sq)))))) (map (mv G) vs) ys).
      { induction vs as [|x vs IH]; intros [|y ys] Fy; try reflexivity. finv Fy. cbn [map zip2]. f_equal; [|apply IH; assumption].
        cbn [act negb jtv_piece]. fold half. rewrite TE. assert (Lm' : length mid = nf) by apply (lWt nf nc W HW).
        rewrite !vsub_as_add. rewrite (mtv_vadd nf n G) by (assumption || lenj). rewrite (mtv_vscale nf n G) by (assumption || lenj). reflexivity. }
      apply GEN. apply (Gs_len n nf G HG).
    Qed.
    Lemma jtv_grad : has_gradient (k * n) (jtv_value n k nf G W eps vol) m (jtv_deriv n k nf G W eps vol m).
    Proof.
      split.
      - unfold jtv_deriv. cbv zeta. generalize (jtv_sq nf W eps vol (map (mv G) (chunks n k m))). intros s0. clear - HG. revert m. induction k as [|kk IH]; intros mm; cbn; [reflexivity|].
        rewrite app_length, (lGt n nf G HG), IH. reflexivity.
      - intros h Lh. apply (jtv_line_value n nf nc G W HG HW eps vol Lvol k m Lm POS h Lh).
    Qed.
    Lemma jtv_hess : has_jacobian (k * n) (k * n) (jtv_deriv n k nf G W eps vol) m (jtv_deriv2v n k nf G W eps vol m).
    Proof. intros h Lh. apply (jtv_line_deriv n nf nc G W HG HW eps vol Lvol k m Lm POS h Lh). Qed.
    Lemma jtv_psd : 0 <= eps -> nonneg_mat W -> psd_action (k * n) (jtv_deriv2v n k nf G W eps vol m).
    Proof. intros He PW v Lv. apply (jtv_psd_dir n nf nc G W HG HW eps vol Lvol k m Lm POS v Lv PW He). Qed.
    Lemma jtv_sym : symmetric_action (k * n) (jtv_deriv2v n k nf G W eps vol m).
    Proof.
      intros u v Lu Lv. rewrite (jtv_deriv2_eq n nf nc G W HG HW eps vol Lvol k m Lm v Lv), (jtv_deriv2_eq n nf nc G W HG HW eps vol Lvol k m Lm u Lu). cbv zeta. fold gs. fold sq.
      set (mid := mtv nf W (map (fun s => 1 / s) sq)). assert (Lmid : length mid = nf) by apply (lWt nf nc W HW).
      assert (Ls : length sq = nc) by apply (lsq n nf nc G W HW eps vol Lvol k m Lm).
      (* bilinear form *)
      assert (B : forall hh w (q : vec) tmp, length hh = (k * n)%nat -> length w = (k * n)%nat -> length tmp = nf ->
         dot hh (concat (zip2 (fun gv g => mtv n G (vsub (vmul mid gv) (vmul g tmp))) (map (mv G) (chunks n k w)) gs))
         = dot mid (cr (map (mv G) (chunks n k w)) (map (mv G) (chunks n k hh)) (vzero nf)) - dot (cr (map (mv G) (chunks n k hh)) gs (vzero nf)) tmp).
      { intros hh w _ tmp Lhh Lw Lt.
        assert (GEN : forall kk mm hh w a c, length mm = (kk * n)%nat -> length hh = (kk * n)%nat -> length w = (kk * n)%nat -> length a = nf -> length c = nf ->
           dot hh (concat (zip2 (fun gv g => mtv n G (vsub (vmul mid gv) (vmul g tmp))) (map (mv G) (chunks n kk w)) (map (mv G) (chunks n kk mm)))) + dot mid a - dot c tmp
           = dot mid (cr (map (mv G) (chunks n kk w)) (map (mv G) (chunks n kk hh)) a) - dot (cr (map (mv G) (chunks n kk hh)) (map (mv G) (chunks n kk mm)) c) tmp).
        { clear hh w Lhh Lw. induction kk; intros mm hh w a c L1 L2 L3 La Lc; cbn [chunks map zip2 concat]; [cbn; rewrite dot_comm; cbn; ring|]. cbn in L1, L2, L3.
          cbn [cr zip2 fold_left].
          specialize (IHkk (skipn n mm) (skipn n hh) (skipn n w) (vadd a (vmul (mv G (firstn n hh)) (mv G (firstn n w)))) (vadd c (vmul (mv G (firstn n mm)) (mv G (firstn n hh))))).
          unfold cr in IHkk. rewrite <- IHkk by (lenj; rewrite skipn_length; lia). clear IHkk.
          rewrite (dot_comm hh), (dot_app n) by apply (lGt n nf G HG). rewrite (adjG n nf G HG) by (lenj; rewrite firstn_length; lia).
          rewrite dot_vsub_l by lenj. rewrite dot_vadd_r by lenj. rewrite (dot_vadd_l c) by lenj.
          rewrite !dot_vmul_l. rewrite (vmul_comm tmp), (vmul_comm (mv G (firstn n w))). rewrite (dot_comm (concat _)).
          rewrite <- (dot_vmul_l (mv G (firstn n mm)) (mv G (firstn n hh)) tmp), dot_vmul_l. ring. }
        pose proof (GEN k m hh w (vzero nf) (vzero nf) Lm Lhh Lw (vzero_length nf) (vzero_length nf)) as P. fold gs in P. rewrite dot_zero_l, dot_zero_r in P. lra. }
      rewrite (dot_comm (concat _) v). rewrite B, B; try assumption; try (apply (lWt nf nc W HW)); try exact [].
      set (us := map (mv G) (chunks n k u)). set (vs := map (mv G) (chunks n k v)).
      set (Cu := cr us gs (vzero nf)). set (Cv := cr vs gs (vzero nf)).
      assert (Lu' : length Cu = nf) by (apply crl; [apply (Gs_len n nf G HG)|apply (Gs_len n nf G HG)|apply vzero_length]).
      assert (Lv' : length Cv = nf) by (apply crl; [apply (Gs_len n nf G HG)|apply (Gs_len n nf G HG)|apply vzero_length]).
      f_equal.
      - f_equal. clearbody us vs. clear. generalize (vzero nf). revert vs. induction us as [|x xs IH]; intros [|y ys] a; try reflexivity. cbn. rewrite (vmul_comm x y). apply IH.
      - rewrite (dot_comm Cu), (dot_comm Cv). rewrite !(adjA nf nc W HW) by (rewrite ?vdiv_length; lenj).
        apply Rle_antisym; apply dot_le; rewrite ?vdiv_length by lenj; lenj; intros i Hi; unfold vdiv; rewrite !zipw_nth by lenj; unfold Rdiv; right; ring.
    Qed.
    Lemma jtv_lower : nonneg_mat W -> 0 <= eps -> nonneg_vec vol -> sqrt eps * vsum vol <= jtv_value n k nf G W eps vol m.
    Proof.
      intros PW He Hv. unfold jtv_value. fold gs. fold sq.
      assert (GEN : forall a b : vec, length a = length b -> (forall i, (i < length a)%nat -> sqrt eps * nth i a 0 <= nth i b 0) -> sqrt eps * vsum a <= vsum b).
      { induction a as [|x a IH]; intros [|y b] L H; cbn in *; try lia; [lra|]. pose proof (H O ltac:(lia)) as H0. cbn in H0.
        specialize (IH b ltac:(lia) (fun i Hi => H (S i) ltac:(lia))). lra. }
      assert (Ls : length sq = nc) by apply (lsq n nf nc G W HW eps vol Lvol k m Lm).
      apply GEN; [lia|]. intros i Hi. rewrite Lvol in Hi. unfold sq. rewrite (sq_nth n nf nc G W HW eps vol Lvol k m Lm) by assumption. fold gs.
      rewrite nth_vadd by lenj. rewrite nth_vscale, nth_vmul by lia.
      assert (P : 0 <= nth i (mv W (sumsq nf gs)) 0).
      { apply nonneg_nth. apply mv_nonneg; [assumption|].
        assert (GN : forall gs acc, nonneg_vec acc -> nonneg_vec (sq_acc gs acc)).
        { induction gs0 as [|g gs0 IH]; intros acc Ha; [exact Ha|]. cbn. apply IH. revert g. induction Ha as [|x a Hx Ha IH2]; intros [|y g]; cbn; constructor; [nra|]. apply IH2. }
        apply GN. apply Forall_forall. intros x Hx. apply repeat_spec in Hx. lra. }
      pose proof (nonneg_nth vol i Hv). rewrite <- (sqrt_square (nth i vol 0)) at 1 by assumption. rewrite <- sqrt_mult; [|assumption|nra].
      apply sqrt_le_1_alt. lra.
    Qed.
  End At.
End J.

(** Constant models with eps = 0: every radicand, and so every divisor, is zero. *)
Lemma sumsq_const n k nf G c : length G = nf -> kills_constants n G -> sumsq nf (map (mv G) (chunks n k (vconst (k * n) c))) = vzero nf.
Proof.
  intros HG K. unfold sumsq.
  assert (C : map (mv G) (chunks n k (vconst (k * n) c)) = repeat (vzero nf) k).
  { induction k; [reflexivity|]. cbn [Nat.mul chunks map repeat]. unfold vconst in *. rewrite repeat_app, firstn_app_exact, skipn_app_exact by apply repeat_length.
    f_equal; [|assumption]. fold (vconst n c). rewrite mv_kills by assumption. rewrite HG. reflexivity. }
  rewrite C. clear. induction k; cbn; [reflexivity|]. replace (vadd (vzero nf) (vmul (vzero nf) (vzero nf))) with (vzero nf); [exact IHk|].
  clear. induction nf; cbn; [reflexivity|]. f_equal; [ring|exact IHnf].
Qed.
Lemma jtv_zero_eps n k nf nc G W vol c : is_mat nf n G -> is_mat nc nf W -> length vol = nc -> kills_constants n G ->
  jtv_sq nf W 0 vol (map (mv G) (chunks n k (vconst (k * n) c))) = vzero nc.
Proof.
  intros HG HW Lv K. unfold jtv_sq. rewrite sumsq_const by (try apply (proj1 HG); assumption). rewrite (mvW0 nf nc W HW), vscale_0.
  rewrite vmul_length by reflexivity. rewrite Lv. rewrite vadd_zero_r by apply vzero_length. clear. unfold vzero, vconst. induction nc; cbn; [reflexivity|]. rewrite sqrt_0. f_equal. exact IHnc.
Qed.
