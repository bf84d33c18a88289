From Verif Require Import Py Vec VecDeriv ObjFun SpecObj.
Local Open Scope R_scope.

(** Induction over objects. *)
Lemma obj_ind' (P : obj -> Prop) :
  (forall k np, P (Leaf k np)) ->
  (forall np terms u, Forall (fun t => P (snd t)) terms -> P (Combo np terms u)) ->
  forall o, P o.
Proof.
  intros HL HC. fix IH 1. intros [k np|np terms u]; [apply HL|]. apply HC.
  induction terms as [|[c o] terms IHt]; constructor; [apply IH|exact IHt].
Qed.

Lemma combo_init_ok terms u o : combo_init terms u = Ok o -> exists np, o = Combo np terms u.
Proof.
  unfold combo_init. destruct (known_nps terms) as [|n ns]; [injection 1 as <-; eauto|].
  destruct (forallb (Nat.eqb n) ns); [injection 1 as <-; eauto|discriminate].
Qed.

Section Call.
  Context (lcall : nat -> vec -> result R).
  Notation call := (obj_call lcall).
  Definition call_terms (m : vec) := fix go (l : list (R * obj)) (fct : R) : result R :=
    match l with
    | [] => Ok fct
    | (c, p) :: l' => if Req_EM_T c 0 then go l' fct
                      else match call p m with Ok x => go l' (fct + c * x) | Err e => Err e end
    end.
  Lemma call_combo np terms u m : call (Combo np terms u) m = call_terms m terms 0.
  Proof. reflexivity. Qed.
  Lemma call_terms_acc m l a : call_terms m l a = do x <- call_terms m l 0; Ok (a + x).
  Proof.
    revert a; induction l as [|[c p] l IH]; intros a; cbn.
    - f_equal; ring.
    - destruct (Req_EM_T c 0); [apply IH|]. destruct (call p m) as [x|e]; [|reflexivity].
      rewrite (IH (a + c * x)), (IH (0 + c * x)). destruct (call_terms m l 0); cbn; [|reflexivity].
      f_equal; ring.
  Qed.
  Lemma call_terms_app m l1 l2 a : call_terms m (l1 ++ l2) a = do x <- call_terms m l1 a; call_terms m l2 x.
  Proof.
    revert a; induction l1 as [|[c p] l1 IH]; intros a; cbn; [reflexivity|].
    destruct (Req_EM_T c 0); [apply IH|]. destruct (call p m); [apply IH|reflexivity].
  Qed.
  Lemma call_summands m o : call_terms m (summands o) 0 = call o m.
  Proof.
    assert (G : call_terms m [(1, o)] 0 = call o m).
    { cbn. destruct (Req_EM_T 1 0); [lra|]. destruct (call o m) as [x|e]; [|reflexivity]. f_equal; ring. }
    destruct o as [k np|np terms [|]]; cbn [summands]; [exact G| |exact G].
    rewrite call_combo; reflexivity.
  Qed.
  Lemma call_add a b c m : obj_add a b = Ok c ->
    call c m = do x <- call a m; do y <- call b m; Ok (x + y).
  Proof.
    intros H. apply combo_init_ok in H. destruct H as [np ->].
    rewrite call_combo, call_terms_app, call_summands.
    destruct (call a m) as [x|e]; cbn; [|reflexivity].
    rewrite call_terms_acc, call_summands. reflexivity.
  Qed.
  Lemma call_mul o c p m : obj_mul o c = Ok p ->
    call p m = if Req_EM_T c 0 then Ok 0 else do x <- call o m; Ok (c * x).
  Proof.
    intros H. apply combo_init_ok in H. destruct H as [np ->]. rewrite call_combo. cbn.
    destruct (Req_EM_T c 0); [reflexivity|]. destruct (call o m); cbn; [f_equal; ring|reflexivity].
  Qed.
  Lemma call_div o c p m : obj_div o c = Ok p -> c <> 0 /\ call p m = do x <- call o m; Ok (x / c).
  Proof.
    unfold obj_div. destruct (Req_EM_T c 0) as [->|Hc]; [discriminate|]. intros H. split; [assumption|].
    rewrite (call_mul _ _ _ _ H). destruct (Req_EM_T (1 / c) 0) as [E|E].
    - exfalso. assert (1 / c * c = 0) by (rewrite E; ring). unfold Rdiv in *.
      rewrite Rmult_1_l, Rinv_l in H0; lra.
    - destruct (call o m); cbn; [f_equal; field; assumption|reflexivity].
  Qed.
End Call.

Lemma mul_always_ok o c : exists p, obj_mul o c = Ok p.
Proof. unfold obj_mul, combo_init; cbn. destruct (obj_np o); cbn; eauto. Qed.
Lemma known_nps_app l1 l2 : known_nps (l1 ++ l2) = known_nps l1 ++ known_nps l2.
Proof. induction l1 as [|[c o] l IH]; cbn; [reflexivity|]. destruct (obj_np o); cbn; congruence. Qed.

Section Deriv.
  Context (lderiv : nat -> vec -> result zvec) (lderiv2 : nat -> vec -> vec -> result zvec).
  Notation deriv := (obj_deriv lderiv).
  Notation deriv2 := (obj_deriv2 lderiv2).
  (** Both loops are the same fold over an evaluator [e]. *)
  Section Generic.
    Context (e : obj -> result zvec).
    Fixpoint sum_terms (l : list (R * obj)) (g : zvec) : result zvec :=
      match l with
      | [] => Ok g
      | (c, p) :: l' => if Req_EM_T c 0 then sum_terms l' g
                        else match e p with Ok aux => sum_terms l' (zadd g (zscale c aux)) | Err x => Err x end
      end.
    Lemma zadd_assoc a b c : zadd a (zadd b c) = zadd (zadd a b) c.
    Proof. destruct a, b, c; cbn; auto. rewrite vadd_assoc; reflexivity. Qed.
    Lemma sum_terms_acc l a : sum_terms l a = do x <- sum_terms l VZero; Ok (zadd a x).
    Proof.
      revert a; induction l as [|[c p] l IH]; intros a; cbn.
      - destruct a; reflexivity.
      - destruct (Req_EM_T c 0); [apply IH|]. destruct (e p) as [x|er]; [|reflexivity].
        rewrite (IH (zadd a (zscale c x))), (IH (zscale c x)). destruct (sum_terms l VZero); cbn; [|reflexivity].
        rewrite zadd_assoc; reflexivity.
    Qed.
    Lemma sum_terms_app l1 l2 a : sum_terms (l1 ++ l2) a = do x <- sum_terms l1 a; sum_terms l2 x.
    Proof.
      revert a; induction l1 as [|[c p] l1 IH]; intros a; cbn; [reflexivity|].
      destruct (Req_EM_T c 0); [apply IH|]. destruct (e p); [apply IH|reflexivity].
    Qed.
    Lemma zscale_1 z : zscale 1 z = z.
    Proof. destruct z; cbn; [reflexivity|rewrite vscale_1; reflexivity]. Qed.
    Context (He : forall np terms, e (Combo np terms true) = sum_terms terms VZero).
    Lemma sum_summands o : sum_terms (summands o) VZero = e o.
    Proof.
      assert (G : sum_terms [(1, o)] VZero = e o).
      { cbn. destruct (Req_EM_T 1 0); [lra|]. destruct (e o) as [x|er]; [|reflexivity]. rewrite zscale_1; reflexivity. }
      destruct o as [k np|np terms [|]]; cbn [summands]; [exact G| |exact G]. rewrite He; reflexivity.
    Qed.
    Lemma sum_add a b c : obj_add a b = Ok c -> e c = do x <- e a; do y <- e b; Ok (zadd x y).
    Proof.
      intros H. apply combo_init_ok in H. destruct H as [np ->].
      rewrite He, sum_terms_app, sum_summands.
      destruct (e a) as [x|er]; cbn; [|reflexivity].
      rewrite sum_terms_acc, sum_summands. reflexivity.
    Qed.
    Lemma sum_mul o c p : obj_mul o c = Ok p ->
      e p = if Req_EM_T c 0 then Ok VZero else do x <- e o; Ok (zscale c x).
    Proof.
      intros H. apply combo_init_ok in H. destruct H as [np ->]. rewrite He. cbn.
      destruct (Req_EM_T c 0); [reflexivity|]. destruct (e o); reflexivity.
    Qed.
  End Generic.
  Lemma deriv_combo np terms u m : deriv (Combo np terms u) m = sum_terms (fun o => deriv o m) terms VZero.
  Proof.
    cbn. generalize VZero as a. induction terms as [|[c p] l IH]; intros a; cbn; [reflexivity|].
    destruct (Req_EM_T c 0); [apply IH|]. destruct (deriv p m) as [[|v]|e]; [| |reflexivity].
    - cbn. destruct a; apply IH.
    - apply IH.
  Qed.
  Lemma deriv2_combo np terms u m v : deriv2 (Combo np terms u) m v = sum_terms (fun o => deriv2 o m v) terms VZero.
  Proof.
    cbn. generalize VZero as a. induction terms as [|[c p] l IH]; intros a; cbn; [reflexivity|].
    destruct (Req_EM_T c 0); [apply IH|]. destruct (deriv2 p m v) as [x|e]; [apply IH|reflexivity].
  Qed.
  Lemma deriv_add a b c m : obj_add a b = Ok c ->
    deriv c m = do x <- deriv a m; do y <- deriv b m; Ok (zadd x y).
  Proof. apply (sum_add (fun o => deriv o m)). intros; apply deriv_combo. Qed.
  Lemma deriv_mul o c p m : obj_mul o c = Ok p ->
    deriv p m = if Req_EM_T c 0 then Ok VZero else do x <- deriv o m; Ok (zscale c x).
  Proof. apply (sum_mul (fun o => deriv o m)). intros; apply deriv_combo. Qed.
  Lemma deriv2_add a b c m v : obj_add a b = Ok c ->
    deriv2 c m v = do x <- deriv2 a m v; do y <- deriv2 b m v; Ok (zadd x y).
  Proof. apply (sum_add (fun o => deriv2 o m v)). intros; apply deriv2_combo. Qed.
  Lemma deriv2_mul o c p m v : obj_mul o c = Ok p ->
    deriv2 p m v = if Req_EM_T c 0 then Ok VZero else do x <- deriv2 o m v; Ok (zscale c x).
  Proof. apply (sum_mul (fun o => deriv2 o m v)). intros; apply deriv2_combo. Qed.
End Deriv.

(** ** Gradients of arbitrary trees *)
Section Gradient.
  Context (n : nat) (lcall : nat -> vec -> result R) (lderiv : nat -> vec -> result zvec).
  (** Every leaf evaluates without error, and its [deriv] is its gradient. *)
  Hypothesis Hcall : forall k m, length m = n -> exists x, lcall k m = Ok x.
  Definition lval (k : nat) (m : vec) : R := match lcall k m with Ok x => x | Err _ => 0 end.
  Definition oval (o : obj) (m : vec) : R := match obj_call lcall o m with Ok x => x | Err _ => 0 end.
  Variable m0 : vec.
  Hypothesis Hm0 : length m0 = n.
  Hypothesis Hgrad : forall k, exists g, lderiv k m0 = Ok g /\ has_gradient n (lval k) m0 (arr n g).

  Lemma call_total o m : length m = n -> obj_call lcall o m = Ok (oval o m).
  Proof.
    intros Hm. unfold oval. induction o as [k np|np terms u IH] using obj_ind'.
    - cbn. destruct (Hcall k m Hm) as [x ->]; reflexivity.
    - rewrite call_combo. assert (G : forall a, exists x, call_terms lcall m terms a = Ok x); [|destruct (G 0) as [x ->]; reflexivity].
      induction IH as [|[c p] l Hp Hl IHl]; intros a; cbn; [eauto|].
      destruct (Req_EM_T c 0); [apply IHl|]. cbn in Hp. rewrite Hp. apply IHl.
  Qed.
  Fixpoint tval (l : list (R * obj)) (m : vec) : R :=
    match l with [] => 0 | (c, p) :: l' => c * oval p m + tval l' m end.
  Lemma oval_combo np terms u m : length m = n -> oval (Combo np terms u) m = tval terms m.
  Proof.
    intros Hm. unfold oval at 1. rewrite call_combo.
    assert (G : forall a, call_terms lcall m terms a = Ok (a + tval terms m)).
    { induction terms as [|[c p] l IH]; intros a; cbn; [f_equal; ring|].
      destruct (Req_EM_T c 0) as [->|]; [rewrite IH; f_equal; ring|].
      rewrite (call_total p m Hm), IH. f_equal; ring. }
    rewrite G. ring.
  Qed.
  Lemma dpl_line (f g : vec -> R) h l : length h = n -> (forall m, length m = n -> f m = g m) ->
    derivable_pt_lim (fun t => f (vadd m0 (vscale t h))) 0 l ->
    derivable_pt_lim (fun t => g (vadd m0 (vscale t h))) 0 l.
  Proof.
    intros Hh E. apply dpl_ext. intros t. apply E. rewrite vadd_length; rewrite ?vscale_length; congruence.
  Qed.
  Lemma obj_gradient o : exists g, obj_deriv lderiv o m0 = Ok g /\ has_gradient n (oval o) m0 (arr n g).
  Proof.
    induction o as [k np|np terms u IH] using obj_ind'.
    - destruct (Hgrad k) as (g & E & [Lg Hg]). exists g. split; [exact E|]. split; [assumption|].
      intros h Hh. apply (dpl_line (lval k)); auto.
    - rewrite deriv_combo.
      assert (G : exists g, sum_terms (fun o => obj_deriv lderiv o m0) terms VZero = Ok g /\
                  has_gradient n (tval terms) m0 (arr n g)).
      { induction IH as [|[c p] l Hp Hl IHl]; cbn.
        - exists VZero. split; [reflexivity|]. split; [apply vzero_length|].
          intros h Hh. cbn. rewrite dot_zero_l. apply dpl_const.
        - destruct IHl as (gl & El & [Ll Gl]). destruct (Req_EM_T c 0) as [->|Hc].
          + exists gl. split; [assumption|]. split; [assumption|]. intros h Hh.
            apply (dpl_line (tval l) (fun m => 0 * oval p m + tval l m) h); auto. intros; ring.
          + cbn in Hp. destruct Hp as (gp & Ep & [Lp Gp]). rewrite Ep.
            rewrite sum_terms_acc, El. cbn [bind]. eexists; split; [reflexivity|].
            assert (Ea : arr n (zadd (zscale c gp) gl) = vadd (vscale c (arr n gp)) (arr n gl) /\ length (arr n (zadd (zscale c gp) gl)) = n).
            { destruct gp as [|vp], gl as [|vl]; cbn [zadd zscale arr] in *; rewrite ?vscale_vzero.
              - split; [rewrite vadd_zero_r; auto using vzero_length|apply vzero_length].
              - split; [rewrite vadd_zero_l; auto|assumption].
              - split; [rewrite vadd_zero_r; rewrite ?vscale_length; auto|rewrite vscale_length; assumption].
              - split; [reflexivity|]. rewrite vadd_length; rewrite vscale_length; congruence. }
            destruct Ea as [Ea La]. split; [assumption|]. rewrite Ea. intros h Hh.
            rewrite dot_vadd_l, dot_vscale_l by (rewrite vscale_length; congruence).
            apply (dpl_plus (fun t => c * oval p (vadd m0 (vscale t h))) (fun t => tval l (vadd m0 (vscale t h)))); [|apply Gl; assumption].
            apply dpl_scal. apply Gp; assumption. }
      destruct G as (g & E & [Lg G]). exists g. split; [exact E|]. split; [assumption|].
      intros h Hh. apply (dpl_line (tval terms)); auto. intros; symmetry; apply oval_combo; assumption.
  Qed.
End Gradient.

(** ** Stacked weights *)
Lemma mv_app A B v : mv (A ++ B) v = mv A v ++ mv B v.
Proof. apply map_app. Qed.
Lemma dot_app a b c d : length a = length c -> dot (a ++ b) (c ++ d) = dot a c + dot b d.
Proof.
  revert c; induction a as [|x a IH]; intros [|y c]; cbn; intros; try lia; [ring|]. rewrite IH by lia. ring.
Qed.
Lemma mv_map_vscale c M v : mv (map (vscale c) M) v = vscale c (mv M v).
Proof. unfold mv, vscale at 2. rewrite !map_map. apply map_ext. intros; apply dot_vscale_l. Qed.
Lemma mtv_app n A B w1 w2 : length A = length w1 -> Forall (fun r => length r = n) A -> Forall (fun r => length r = n) B ->
  mtv n (A ++ B) (w1 ++ w2) = vadd (mtv n A w1) (mtv n B w2).
Proof.
  intros H FA FB. revert w1 H; induction FA as [|r A Hr FA IH]; intros [|x w1] H; cbn in *; try lia.
  - rewrite vadd_zero_l; [reflexivity|]. apply (mtv_length (length B)). split; auto.
  - rewrite IH by lia. apply vadd_assoc.
Qed.
Lemma mtv_map_vscale n c A w : mtv n (map (vscale c) A) w = vscale c (mtv n A w).
Proof.
  revert w; induction A as [|r A IH]; intros [|x w]; cbn [map mtv]; try (symmetry; apply vscale_vzero).
  rewrite IH, vscale_vadd, !vscale_vscale. f_equal. f_equal. ring.
Qed.

Section StackedW.
  Context (n : nat) (lW : nat -> mat) (HW : forall k, Forall (fun r => length r = n) (lW k)).
  Definition l2leaf (k : nat) (m : vec) : result R := Ok (l2_call (lW k) m).
  Definition l2leaf_deriv2 (k : nat) (m v : vec) : result zvec := Ok (VArr (l2_deriv2 n (lW k) m v)).
  Fixpoint W_terms (l : list (R * obj)) : mat :=
    match l with [] => [] | (c, p) :: l' => map (vscale (sqrt c)) (obj_W lW p) ++ W_terms l' end.
  Lemma W_combo np terms u : obj_W lW (Combo np terms u) = W_terms terms.
  Proof. cbn. induction terms as [|[c p] l IH]; cbn; [reflexivity|]. f_equal; exact IH. Qed.
  Lemma W_cols o : Forall (fun r => length r = n) (obj_W lW o).
  Proof.
    induction o as [k np|np terms u IH] using obj_ind'; [apply HW|]. rewrite W_combo.
    induction IH as [|[c p] l Hp Hl IHl]; cbn; [constructor|]. apply Forall_app; split; [|exact IHl].
    apply Forall_map. eapply Forall_impl; [|exact Hp]. cbn; intros; rewrite vscale_length; assumption.
  Qed.
  Lemma W_value o m : multipliers_ok (fun c => 0 <= c) o ->
    obj_call l2leaf o m = Ok (dot (mv (obj_W lW o) m) (mv (obj_W lW o) m)).
  Proof.
    induction o as [k np|np terms u IH] using obj_ind'; intros Ho; [reflexivity|].
    inversion Ho as [|? ? ? Ht]; subst. rewrite call_combo, W_combo.
    assert (G : forall a, call_terms l2leaf m terms a = Ok (a + dot (mv (W_terms terms) m) (mv (W_terms terms) m))).
    { clear Ho. induction IH as [|[c p] l Hp Hl IHl]; intros a; cbn [call_terms W_terms]; [cbn; f_equal; ring|].
      inversion Ht as [|? ? [Hc Hm] Ht']; subst; cbn [fst snd] in *.
      rewrite mv_app, dot_app by reflexivity. rewrite mv_map_vscale, dot_vscale_l, dot_vscale_r.
      destruct (Req_EM_T c 0) as [->|Hc0].
      - rewrite IHl by assumption. f_equal. rewrite sqrt_0. ring.
      - rewrite Hp by assumption. rewrite IHl by assumption. f_equal.
        pose proof (sqrt_sqrt c Hc) as Hs. rewrite <- Hs at 1. ring. }
    rewrite G. f_equal. ring.
  Qed.
  Lemma W_hessian o m v : length v = n -> multipliers_ok (fun c => 0 <= c) o ->
    exists z, obj_deriv2 l2leaf_deriv2 o m v = Ok z /\
      arr n z = vscale 2 (mtv n (obj_W lW o) (mv (obj_W lW o) v)).
  Proof.
    intros Hv. induction o as [k np|np terms u IH] using obj_ind'; intros Ho.
    - eexists; split; reflexivity.
    - inversion Ho as [|? ? ? Ht]; subst. rewrite deriv2_combo, W_combo. clear Ho.
      assert (WL : forall l, Forall (fun r => length r = n) (W_terms l)).
      { intros l. rewrite <- (W_combo None l true). apply W_cols. }
      induction IH as [|[c p] l Hp Hl IHl]; cbn [sum_terms W_terms].
      + exists VZero. split; [reflexivity|]. symmetry; apply vscale_vzero.
      + inversion Ht as [|? ? [Hc Hm] Ht']; subst; cbn [fst snd] in Hc, Hm, Hp.
        destruct (IHl Ht') as (zl & El & Al).
        assert (WP := W_cols p). cbn beta in WP.
        rewrite mv_app, mv_map_vscale.
        assert (FA : Forall (fun r => length r = n) (map (vscale (sqrt c)) (obj_W lW p))).
        { apply Forall_map. eapply Forall_impl; [|exact WP]. cbn; intros; rewrite vscale_length; assumption. }
        rewrite mtv_app by (auto; rewrite map_length, vscale_length, mv_length; reflexivity).
        rewrite mtv_map_vscale.
        rewrite (mtv_vscale (length (obj_W lW p)) (n)) by (try apply mv_length; split; auto).
        rewrite vscale_vscale, sqrt_sqrt by assumption.
        assert (LP : length (mtv (n) (obj_W lW p) (mv (obj_W lW p) v)) = n).
        { apply (mtv_length (length (obj_W lW p))). split; auto. }
        assert (LL : length (mtv (n) (W_terms l) (mv (W_terms l) v)) = n).
        { apply (mtv_length (length (W_terms l))). split; auto. }
        destruct (Req_EM_T c 0) as [->|Hc0].
        * exists zl. split; [exact El|]. rewrite Al, vscale_0, LP, vadd_zero_l; auto.
        * destruct (Hp Hm) as (zp & Ep & Ap). rewrite Ep, sum_terms_acc, El. cbn [bind].
          eexists; split; [reflexivity|].
          rewrite vscale_vadd, <- Al, vscale_vscale, (Rmult_comm 2 c), <- (vscale_vscale c 2), <- Ap.
          destruct zp as [|vp], zl as [|vl]; cbn [zadd zscale arr] in *.
          -- rewrite vscale_vzero, vadd_zero_r; auto using vzero_length.
          -- rewrite vscale_vzero, vadd_zero_l; auto. rewrite Al, vscale_length; exact LL.
          -- rewrite vadd_zero_r; auto. rewrite vscale_length, Ap, vscale_length; exact LP.
          -- reflexivity.
  Qed.
End StackedW.

(** ** The weighted least-squares leaf with a mapping *)
Lemma l2m_gradient n k q mp J Jt W m :
  is_mat q k W -> length m = n ->
  has_jacobian n k mp m (J m) ->
  (forall v w, length v = n -> length w = k -> dot w (J m v) = dot (Jt m w) v) ->
  (forall w, length w = k -> length (Jt m w) = n) ->
  has_gradient n (l2m_call mp W) m (l2m_deriv k mp Jt W m).
Proof.
  intros HW Hm HJ Hadj HJt. pose proof HW as [HWl _].
  unfold l2m_deriv. split; [rewrite vscale_length; apply HJt; apply (mtv_length q); assumption|].
  intros h Hh. unfold l2m_call; cbn beta zeta.
  pose proof (HJ h Hh) as HF.
  eapply dpl_eq; [|apply (deriv_normsq q); apply (vderiv_mv q k W); [assumption|exact HF]].
  cbn beta.
  assert (E0 : vadd m (vscale 0 h) = m). { rewrite vscale_0, vadd_zero_r; congruence. }
  rewrite E0. rewrite dot_vscale_l. f_equal.
  assert (LJ : length (J m h) = k) by apply HF.
  rewrite <- Hadj; [|assumption|apply (mtv_length q); assumption].
  rewrite (mv_mtv_adjoint q k); auto. rewrite mv_length; assumption.
Qed.
Lemma l2m_hessian n k q (J Jt : vec -> vec -> vec) W m u v :
  is_mat q k W -> length u = n -> length v = n ->
  (forall v, length v = n -> length (J m v) = k) ->
  (forall v w, length v = n -> length w = k -> dot w (J m v) = dot (Jt m w) v) ->
  dot (l2m_deriv2 k J Jt W m v) u = 2 * dot (mv W (J m v)) (mv W (J m u)).
Proof.
  intros HW Hu Hv HJ Hadj. pose proof HW as [HWl _]. unfold l2m_deriv2. rewrite dot_vscale_l. f_equal.
  rewrite <- Hadj; [|assumption|apply (mtv_length q); assumption].
  rewrite (mv_mtv_adjoint q k); auto. rewrite mv_length; assumption.
Qed.

(** ** Number-of-parameters check *)
Lemma add_np_conflict a b n p :
  obj_np a = Some n -> obj_np b = Some p -> n <> p ->
  (forall np t u, a = Combo np t u -> combo_init t u = Ok a) ->
  (forall np t u, b = Combo np t u -> combo_init t u = Ok b) ->
  obj_add a b = Err ValueError.
Proof.
  intros Ha Hb Hne Wa Wb. unfold obj_add, combo_init. rewrite known_nps_app.
  assert (G : forall o q, obj_np o = Some q -> (forall np t u, o = Combo np t u -> combo_init t u = Ok o) ->
              exists l, known_nps (summands o) = q :: l).
  { intros o q Ho Wo. destruct o as [k np|np t [|]]; cbn [summands].
    - cbn. cbn in Ho. rewrite Ho. eauto.
    - specialize (Wo _ _ _ eq_refl). unfold combo_init in Wo. cbn in Ho.
      destruct (known_nps t) as [|x xs]; [congruence|].
      destruct (forallb (Nat.eqb x) xs); [|discriminate]. injection Wo as <-. injection Ho as <-. eauto.
    - cbn in *. rewrite Ho. eauto. }
  destruct (G _ _ Ha Wa) as [la ->]. destruct (G _ _ Hb Wb) as [lb ->].
  cbn [app]. rewrite forallb_app. cbn [forallb].
  replace (Nat.eqb n p) with false by (symmetry; apply Nat.eqb_neq; assumption).
  rewrite andb_false_r. reflexivity.
Qed.

(** ** The builtin sum *)
Lemma py_sum_err (f : result other -> obj -> result other) l e : (forall o, f (Err e) o = Err e) -> fold_left f l (Err e) = Err e.
Proof. intros Hf. induction l as [|o l IH]; cbn; [reflexivity|]. rewrite Hf; exact IH. Qed.
Lemma py_sum_default o l : py_sum ONotObj (o :: l) = Err TypeError.
Proof. unfold py_sum; cbn. apply py_sum_err; reflexivity. Qed.
Lemma py_sum_zero lcall o l m : forall s xs,
  py_sum OZero (o :: l) = Ok (OObj s) ->
  mapM (fun p => obj_call lcall p m) (o :: l) = Ok xs ->
  obj_call lcall s m = Ok (vsum xs).
Proof.
  intros s xs. unfold py_sum. cbn [fold_left obj_add_any bind].
  cbn [mapM]. destruct (obj_call lcall o m) as [x|] eqn:Ex; cbn [bind]; [|discriminate].
  revert o x s xs Ex. induction l as [|p l IH]; intros o x s xs Ex.
  - cbn. intros [= <-] [= <-]. cbn. rewrite Ex. f_equal; ring.
  - cbn [fold_left bind]. destruct (obj_add o p) as [q|e] eqn:Eq; cbn [bind].
    2: { rewrite py_sum_err; [discriminate|reflexivity]. }
    cbn [mapM]. destruct (obj_call lcall p m) as [y|] eqn:Ey; cbn [bind]; [|discriminate].
    intros Hs. specialize (IH q (x + y) s).
    destruct (mapM (fun p => obj_call lcall p m) l) as [ys|] eqn:El; cbn [bind] in *; [|discriminate].
    intros [= <-]. rewrite (IH ((x + y) :: ys)); [cbn; f_equal; ring| |assumption|reflexivity].
    rewrite (call_add lcall _ _ _ m Eq), Ex; cbn [bind]. rewrite Ey; reflexivity.
Qed.
