(** Conjugate gradients in a subspace: invariants. *)
From Coq Require Import Permutation.
From Verif Require Import Py Vec VecDeriv Optim OptimFacts Gncg.
Local Open Scope R_scope.

Lemma nth_vadd' a b i : length a = length b -> nth i (vadd a b) 0 = nth i a 0 + nth i b 0.
Proof.
  intros L. destruct (le_lt_dec (length a) i); [|apply nth_vadd; assumption].
  rewrite !nth_overflow; try lia; [ring|rewrite vadd_length; assumption].
Qed.
Lemma nth_vsub' a b i : length a = length b -> nth i (vsub a b) 0 = nth i a 0 - nth i b 0.
Proof.
  intros L. destruct (le_lt_dec (length a) i); [|apply nth_vsub; assumption].
  rewrite !nth_overflow; try lia; [ring|rewrite vsub_length; assumption].
Qed.
Section CG.
  Context (N : nat) (V : vec -> Prop) (A M : vec -> vec) (b : vec).
  Hypothesis V_len : forall v, V v -> length v = N.
  Hypothesis V_zero : V (vzero N).
  Hypothesis V_add : forall u v, V u -> V v -> V (vadd u v).
  Hypothesis V_scale : forall c v, V v -> V (vscale c v).
  Hypothesis V_b : V b.
  Hypothesis A_V : forall v, V v -> V (A v).
  Hypothesis M_V : forall v, V v -> V (M v).
  Hypothesis A_lin : forall c u v, V u -> V v -> A (vadd u (vscale c v)) = vadd (A u) (vscale c (A v)).
  Hypothesis M_lin : forall c u v, V u -> V v -> M (vadd u (vscale c v)) = vadd (M u) (vscale c (M v)).
  Hypothesis A_sym : forall u v, V u -> V v -> dot u (A v) = dot v (A u).
  Hypothesis M_sym : forall u v, V u -> V v -> dot u (M v) = dot v (M u).
  Hypothesis A_pos : forall v, V v -> v <> vzero N -> 0 < dot v (A v).
  Hypothesis M_pos : forall v, V v -> v <> vzero N -> 0 < dot v (M v).

  Definition annih (L : list vec) (v : vec) := forall p, In p L -> dot v p = 0.

  Record cginv (P : list vec) (x r p : vec) (sold : R) : Prop := {
    ci_x : V x; ci_r : V r; ci_p : V p; ci_P : forall q, In q P -> V q;
    ci_res : r = vsub b (A x);
    ci_sold : sold = dot r (M r);
    ci_rp : dot r p = sold;
    ci_rP : annih P r;
    ci_conj : forall q, In q P -> dot p (A q) = 0;
    ci_span : forall q v, In q P -> V v -> annih (p :: P) v -> dot v (M (A q)) = 0;
    ci_z : forall v, V v -> annih (p :: P) v -> dot v (M r) = 0;
    ci_xspan : forall v, V v -> (forall q, In q P -> dot v (A q) = 0) -> dot v (A x) = 0;
    ci_descent : 0 <= dot b x
  }.

  Lemma V_sub u v : V u -> V v -> V (vsub u v).
  Proof. intros. rewrite vsub_as_add. auto. Qed.
  Lemma A_zero : A (vzero N) = vzero N.
  Proof.
    pose proof (A_lin (-1) _ _ V_zero V_zero) as E. rewrite vscale_vzero, vadd_zero_r in E by apply vzero_length.
    rewrite E. assert (L : length (A (vzero N)) = N) by auto.
    apply vec_ext; [rewrite vadd_length, vzero_length; rewrite ?vscale_length; auto|].
    intros i Hi. rewrite vadd_length in Hi by (rewrite vscale_length; reflexivity).
    rewrite nth_vadd', nth_vscale, nth_zero; [ring|rewrite vscale_length; reflexivity].
  Qed.
  Lemma A_add_scale c u v : V u -> V v -> A (vadd u (vscale c v)) = vadd (A u) (vscale c (A v)).
  Proof. apply A_lin. Qed.

  Lemma cg_init : V b -> cginv [] (vzero N) b (M b) (dot b (M b)).
  Proof.
    intros Hb. constructor; auto.
    - intros q [].
    - rewrite A_zero, vsub_as_add, vscale_vzero, vadd_zero_r; auto.
    - intros q [].
    - intros q [].
    - intros q v [].
    - intros v Hv Ha. apply Ha. left; reflexivity.
    - intros v Hv _. rewrite A_zero, dot_zero_r. reflexivity.
    - rewrite dot_zero_r. lra.
  Qed.

  Lemma r_nonzero r atol : 0 <= atol -> V r -> atol < norm2 r -> r <> vzero N.
  Proof.
    intros Ha Hr Hn ->. unfold norm2 in Hn. rewrite dot_zero_l, sqrt_0 in Hn. lra.
  Qed.

  Lemma cg_step P x r p sold : cginv P x r p sold -> r <> vzero N ->
    let q := A p in let alpha := sold / dot p q in
    let x' := vadd x (vscale alpha p) in let r' := vsub r (vscale alpha q) in
    let h := M r' in let snew := dot r' h in
    let p' := vadd h (vscale (snew / sold) p) in
    cginv (p :: P) x' r' p' snew /\ 0 < alpha /\ 0 < sold /\ dot b x' = dot b x + alpha * sold.
  Proof.
    intros [Hx Hr Hp HP Hres Hsold Hrp HrP Hconj Hspan Hz Hxs Hd] Hr0. cbn zeta.
    assert (Hs : 0 < sold) by (rewrite Hsold; apply M_pos; assumption).
    assert (Hp0 : p <> vzero N). { intros ->. rewrite dot_zero_r in Hrp. lra. }
    assert (HpA : 0 < dot p (A p)) by (apply A_pos; assumption).
    set (alpha := sold / dot p (A p)). assert (Hal : 0 < alpha) by (apply Rdiv_lt_0_compat; assumption).
    assert (Eal : alpha * dot p (A p) = sold) by (unfold alpha; field; lra).
    assert (HAp : V (A p)) by auto.
    set (r' := vsub r (vscale alpha (A p))).
    assert (Hr' : V r') by (apply V_sub; auto).
    assert (Lr := V_len _ Hr). assert (LAp := V_len _ HAp). assert (Lp := V_len _ Hp). assert (Lx := V_len _ Hx).
    assert (LAx := V_len _ (A_V _ Hx)). assert (Lb := V_len _ V_b).
    assert (Dr' : forall v, dot r' v = dot r v - alpha * dot (A p) v).
    { intros v. unfold r'. rewrite dot_vsub_l, dot_vscale_l by (rewrite vscale_length; congruence). reflexivity. }
    assert (Hr'p : dot r' p = 0). { rewrite Dr', Hrp, (dot_comm (A p) p). lra. }
    assert (Hr'P : annih (p :: P) r').
    { intros q [<-|Hq]; [exact Hr'p|]. rewrite Dr', (HrP q Hq), (dot_comm (A p) q), (A_sym q p), (Hconj q Hq); auto. ring. }
    assert (Hh : V (M r')) by auto.
    assert (Emr' : M r' = vsub (M r) (vscale alpha (M (A p)))).
    { unfold r'. rewrite !vsub_as_add, !vscale_vscale. apply M_lin; assumption. }
    assert (LMr := V_len _ (M_V _ Hr)). assert (LMAp := V_len _ (M_V _ HAp)).
    assert (Hzr : dot r' (M r) = 0) by (apply Hz; assumption).
    set (snew := dot r' (M r')). set (bet := snew / sold).
    assert (Ebet : bet * sold = snew) by (unfold bet; field; lra).
    set (p' := vadd (M r') (vscale bet p)).
    assert (Hp' : V p') by (apply V_add; auto).
    assert (LMr' := V_len _ Hh).
    assert (Dp' : forall v, dot p' v = dot (M r') v + bet * dot p v).
    { intros v. unfold p'. rewrite dot_vadd_l, dot_vscale_l by (rewrite vscale_length; congruence). reflexivity. }
    (* conjugacy of the new direction with p *)
    assert (Kp : dot p' (A p) = 0).
    { rewrite Dp'.
      assert (E : alpha * dot (M r') (A p) = - snew).
      { assert (E2 : dot (M r') r' = dot (M r') r - alpha * dot (M r') (A p)).
        { unfold r' at 2. rewrite dot_vsub_r, dot_vscale_r by (rewrite vscale_length; congruence). reflexivity. }
        rewrite (dot_comm (M r') r'), (dot_comm (M r') r), (M_sym r r'), Hzr in E2 by assumption. fold snew in E2. lra. }
      apply (Rmult_eq_reg_l alpha); [|lra]. rewrite Rmult_plus_distr_l, E.
      replace (alpha * (bet * dot p (A p))) with (bet * (alpha * dot p (A p))) by ring. rewrite Eal, Ebet. ring. }
    (* and with the older ones *)
    assert (KP : forall q, In q P -> dot p' (A q) = 0).
    { intros q Hq. rewrite Dp', (Hconj q Hq). rewrite (dot_comm (M r') (A q)), (M_sym (A q) r'); auto.
      rewrite (Hspan q r' Hq Hr' Hr'P). ring. }
    assert (Zr' : forall v, V v -> annih (p' :: p :: P) v -> dot v (M r') = 0).
    { intros v Hv Ha. assert (E1 : dot v p' = 0) by (apply Ha; left; reflexivity).
      assert (E2 : dot v p = 0) by (apply Ha; right; left; reflexivity).
      rewrite (dot_comm v p'), Dp', (dot_comm p v), E2 in E1. rewrite (dot_comm v). lra. }
    assert (Hbx : dot b (vadd x (vscale alpha p)) = dot b x + alpha * sold).
    { rewrite dot_vadd_r, dot_vscale_r by (rewrite vscale_length; congruence). f_equal. f_equal.
      assert (E : dot r p = dot b p - dot (A x) p).
      { rewrite Hres. apply dot_vsub_l. congruence. }
      assert (E0 : dot p (A x) = 0) by (apply Hxs; auto).
      rewrite Hrp, (dot_comm (A x) p), E0 in E. lra. }
    split; [|split; [|split]]; auto.
    constructor.
    - auto.
    - assumption.
    - assumption.
    - intros q [<-|Hq]; auto.
    - rewrite A_lin by assumption. unfold r'. rewrite Hres at 1.
      apply vec_ext.
      + rewrite (vsub_length (vsub b (A x))) by (rewrite vsub_length, vscale_length by congruence; congruence).
        rewrite !vsub_length; rewrite ?vadd_length; rewrite ?vscale_length; congruence.
      + intros i Hi. rewrite vsub_length in Hi by (rewrite vsub_length, vscale_length by congruence; congruence).
        rewrite vsub_length in Hi by congruence.
        assert (L1 : length (vsub b (A x)) = length b) by (apply vsub_length; congruence).
        assert (L2 : length (vscale alpha (A p)) = N) by (rewrite vscale_length; assumption).
        assert (L3 : length (vadd (A x) (vscale alpha (A p))) = N) by (rewrite vadd_length; congruence).
        rewrite !nth_vsub', nth_vadd', nth_vscale by congruence. ring.
    - reflexivity.
    - rewrite dot_comm, Dp', (dot_comm p r'), Hr'p, (dot_comm (M r') r'). fold snew. ring.
    - assumption.
    - intros q [<-|Hq]; [exact Kp|apply KP; assumption].
    - intros q v [<-|Hq] Hv Ha.
      + assert (E1 : dot v (M r) = 0). { apply Hz; [assumption|]. intros w Hw. apply Ha. right; assumption. }
        assert (E2 : dot v (M r') = 0) by (apply Zr'; assumption).
        rewrite Emr', dot_vsub_r, dot_vscale_r, E1 in E2 by (rewrite vscale_length; congruence).
        apply (Rmult_eq_reg_l alpha); lra.
      + apply Hspan; auto. intros w Hw. apply Ha. right; assumption.
    - exact Zr'.
    - intros v Hv Ha. rewrite A_lin, dot_vadd_r, dot_vscale_r by (auto; rewrite ?vscale_length; congruence).
      rewrite (Hxs v Hv), (Ha p (or_introl eq_refl)); [ring|]. intros q Hq. apply Ha. right; assumption.
    - rewrite Hbx. assert (0 < alpha * sold) by (apply Rmult_lt_0_compat; assumption). lra.
  Qed.

  (** Mutually conjugate directions. *)
  Definition conj_rel (p q : vec) : Prop := dot p (A q) = 0 /\ dot q (A p) = 0.
  Fixpoint pairwise (L : list vec) : Prop :=
    match L with [] => True | p :: L' => (forall q, In q L' -> conj_rel p q) /\ pairwise L' end.
  Lemma pairwise_perm L L' : Permutation L L' -> pairwise L -> pairwise L'.
  Proof.
    induction 1 as [|x l l' HP IH|x y l|l l' l'' H1 IH1 H2 IH2]; cbn; auto.
    - intros [H1 H2]. split; auto. intros q Hq. apply H1. eapply Permutation_in; [apply Permutation_sym; eassumption|assumption].
    - intros (H1 & H2 & H3). repeat split; auto.
      + destruct H as [<-|H]; [apply (H1 x)|apply (H2 q)]; cbn; auto.
      + destruct H as [<-|H]; [apply (H1 x)|apply (H2 q)]; cbn; auto.
      + apply (H1 q); cbn; auto.
      + apply (H1 q); cbn; auto.
  Qed.

  Lemma cg_loop_inv atol fuel : 0 <= atol -> forall count P x r p sold x' r' count',
    cginv P x r p sold -> pairwise P -> (forall q, In q P -> q <> vzero N) ->
    cg_loop A M false atol fuel count x r p sold = (x', r', count') ->
    V x' /\ V r' /\ r' = vsub b (A x') /\ dot b x <= dot b x' /\ ((count < count')%nat -> dot b x < dot b x')
    /\ (count <= count' <= count + fuel)%nat /\ (norm2 r' <= atol \/ count' = (count + fuel)%nat)
    /\ exists P', length P' = (length P + (count' - count))%nat /\ pairwise P' /\
         (forall q, In q P' -> V q /\ q <> vzero N) /\ annih P' r'.
  Proof.
    intros Ha. induction fuel as [|fuel IH]; intros count P x r p sold x' r' count' HI Hpw Hnz; cbn [cg_loop].
    - intros [= <- <- <-]. destruct HI. repeat split; auto; try lra; try lia. exists P. repeat split; auto. lia.
    - destruct (Rlt_dec atol (norm2 r)) as [Hn|Hn].
      + assert (Hr0 : r <> vzero N) by (eapply r_nonzero; [exact Ha| |exact Hn]; destruct HI; assumption).
        pose proof (cg_step P x r p sold HI Hr0) as (HI' & Hal & Hs & Hb). cbn zeta in *.
        intros E. eapply IH in E; [|exact HI'| |].
        * destruct E as (E1 & E2 & E3 & E4 & E5 & E6 & E7 & P' & E8 & E9).
          assert (0 < sold / dot p (A p) * sold) by (apply Rmult_lt_0_compat; assumption).
          repeat split; auto; try lra; try lia; [destruct E7; [left; assumption|right; lia]|].
          exists P'. split; [cbn [length] in E8; lia|assumption].
        * cbn. split; [|assumption]. intros q Hq. destruct HI. split; [auto|]. rewrite A_sym; auto.
        * intros q [<-|Hq]; [|auto]. destruct HI. intros ->. rewrite dot_zero_r in ci_rp0. lra.
      + intros [= <- <- <-]. destruct HI. repeat split; auto; try lra; try lia. exists P. repeat split; auto. lia.
  Qed.
End CG.

(** ** More vectors than dimensions are linearly dependent *)
Fixpoint lincomb (n : nat) (L : list (R * vec)) : vec :=
  match L with [] => vzero n | (c, v) :: L' => vadd (vscale c v) (lincomb n L') end.
Lemma lincomb_length n L : (forall c v, In (c, v) L -> length v = n) -> length (lincomb n L) = n.
Proof.
  induction L as [|[c v] L IH]; intros H; cbn [lincomb]; [apply vzero_length|].
  rewrite vadd_length, vscale_length; [apply (H c v); left; reflexivity|].
  rewrite vscale_length, IH; [apply (H c v); left; reflexivity|intros; eapply H; right; eassumption].
Qed.
Lemma lincomb_nth n L i : (forall c v, In (c, v) L -> length v = n) ->
  nth i (lincomb n L) 0 = fold_right (fun cv s => fst cv * nth i (snd cv) 0 + s) 0 L.
Proof.
  induction L as [|[c v] L IH]; intros H; cbn [lincomb fold_right]; [apply nth_zero|].
  assert (H' : forall c v, In (c, v) L -> length v = n) by (intros; eapply H; right; eassumption).
  assert (E : length v = n) by (apply (H c v); left; reflexivity).
  rewrite nth_vadd' by (rewrite vscale_length, lincomb_length; assumption).
  rewrite nth_vscale, IH by assumption. reflexivity.
Qed.
Definition wsum {X} (f : X -> R) (L : list (R * X)) : R := fold_right (fun cx s => fst cx * f (snd cx) + s) 0 L.
Lemma wsum_sub {X} (f g : X -> R) k (L : list (R * X)) : wsum (fun x => f x - g x * k) L = wsum f L - wsum g L * k.
Proof. induction L as [|[c x] L IH]; cbn in *; [ring|]. unfold wsum in *. rewrite IH. ring. Qed.
Lemma wsum_zero {X} (f : X -> R) (L : list (R * X)) : (forall c x, In (c, x) L -> f x = 0) -> wsum f L = 0.
Proof.
  induction L as [|[c x] L IH]; intros H; cbn; [reflexivity|]. unfold wsum in IH. rewrite IH by (intros; eapply H; right; eassumption).
  rewrite (H c x) by (left; reflexivity). ring.
Qed.
Lemma wsum_ext {X} (f g : X -> R) (L : list (R * X)) : (forall c x, In (c, x) L -> f x = g x) -> wsum f L = wsum g L.
Proof.
  induction L as [|[c x] L IH]; intros H; cbn; [reflexivity|]. unfold wsum in IH.
  rewrite IH, (H c x); [reflexivity|left; reflexivity|intros; eapply H; right; eassumption].
Qed.
Lemma dependent : forall n {X} (f : X -> vec) (L : list X), (forall x, In x L -> length (f x) = n) -> (n < length L)%nat ->
  exists L', Permutation L (map snd L') /\ (exists c x, In (c, x) L' /\ c <> 0) /\
    (forall i, (i < n)%nat -> wsum (fun x => nth i (f x) 0) L' = 0).
Proof.
  induction n as [|n IH]; intros X f L HL Hn.
  - destruct L as [|v L]; [cbn in Hn; lia|]. exists (map (fun v => (1, v)) (v :: L)). rewrite map_map, map_id.
    split; [reflexivity|]. split; [|intros i Hi; lia]. exists 1, v. split; [left; reflexivity|lra].
  - destruct (Forall_Exists_dec (fun x => nth 0 (f x) 0 = 0) (fun v => Req_EM_T _ _) L) as [Hz|Hz].
    + destruct (IH X (fun x => tl (f x)) L) as (L' & HP & Hnz & Hs).
      { intros v Hv. specialize (HL v Hv). destruct (f v); cbn in *; lia. }
      { lia. }
      exists L'. split; [assumption|]. split; [assumption|]. intros [|i] Hi.
      * apply wsum_zero. intros c x Hx. rewrite Forall_forall in Hz. apply Hz.
        eapply Permutation_in; [symmetry; exact HP|]. apply in_map_iff. exists (c, x). auto.
      * etransitivity; [|apply (Hs i); lia]. apply wsum_ext. intros c x Hx. destruct (f x); [destruct i|]; reflexivity.
    + apply Exists_exists in Hz as (v & Hv & Hv0). apply in_split in Hv as (L1 & L2 & ->).
      assert (HP0 : Permutation (L1 ++ v :: L2) (v :: L1 ++ L2)) by (symmetry; apply Permutation_middle).
      set (K := L1 ++ L2) in *.
      assert (HK : forall u, In u K -> length (f u) = S n) by (intros u Hu; apply HL; eapply Permutation_in; [symmetry; exact HP0|right; exact Hu]).
      assert (Hlv : length (f v) = S n) by (apply HL; eapply Permutation_in; [symmetry; exact HP0|left; reflexivity]).
      set (red := fun u => vsub (f u) (vscale (nth 0 (f u) 0 / nth 0 (f v) 0) (f v))).
      assert (Hred : forall u, In u K -> length (red u) = S n).
      { intros u Hu. unfold red; rewrite vsub_length; [apply HK; assumption|rewrite vscale_length, HK; congruence]. }
      destruct (IH X (fun u => tl (red u)) K) as (L' & HP & (c & w & Hin & Hc) & Hs).
      { intros u Hu. specialize (Hred u Hu). destruct (red u); cbn in *; lia. }
      { apply Permutation_length in HP0. rewrite HP0 in Hn. cbn in Hn. lia. }
      exists ((- wsum (fun u => nth 0 (f u) 0) L' / nth 0 (f v) 0, v) :: L'). split; [|split].
      * cbn. rewrite HP0. constructor. assumption.
      * exists c, w. split; [right; assumption|assumption].
      * intros i Hi. cbn [wsum fold_right fst snd]. fold (wsum (fun u => nth i (f u) 0) L').
        enough (E : wsum (fun u => nth i (f u) 0 - nth 0 (f u) 0 * (nth i (f v) 0 / nth 0 (f v) 0)) L' = 0).
        { rewrite wsum_sub in E. change (fold_right _ 0 L') with (wsum (fun u => nth i (f u) 0) L').
          replace (wsum (fun u => nth i (f u) 0) L') with (wsum (fun u : X => nth 0 (f u) 0) L' * (nth i (f v) 0 / nth 0 (f v) 0)) by lra.
          field. assumption. }
        destruct i as [|i].
        -- apply wsum_zero. intros c' x _. field. assumption.
        -- etransitivity; [|apply (Hs i); lia]. apply wsum_ext. intros c' x Hx.
           assert (Hxk : In x K) by (eapply Permutation_in; [symmetry; exact HP|apply in_map_iff; exists (c', x); auto]).
           transitivity (nth (S i) (red x) 0); [|specialize (Hred x Hxk); destruct (red x); [discriminate|reflexivity]].
           unfold red. rewrite nth_vsub', nth_vscale; [unfold Rdiv; ring|rewrite vscale_length, HK; congruence].
Qed.

Section Exact.
  Context (N : nat) (V : vec -> Prop) (A : vec -> vec).
  Hypothesis V_len : forall v, V v -> length v = N.
  Hypothesis A_V : forall v, V v -> V (A v).
  Hypothesis A_pos : forall v, V v -> v <> vzero N -> 0 < dot v (A v).
  Lemma dot_lincomb u (L : list (R * vec)) : (forall c v, In (c, v) L -> length v = N) ->
    dot u (lincomb N L) = wsum (dot u) L.
  Proof.
    induction L as [|[c v] L IH]; intros H; cbn [lincomb]; [apply dot_zero_r|].
    assert (H' : forall c v, In (c, v) L -> length v = N) by (intros; eapply H; right; eassumption).
    assert (E : length v = N) by (apply (H c v); left; reflexivity).
    rewrite dot_vadd_r by (rewrite vscale_length, lincomb_length; assumption).
    rewrite dot_vscale_r, IH by assumption. reflexivity.
  Qed.
  (** There are at most [N] mutually conjugate non-zero directions. *)
  Lemma conj_bound (P : list vec) : pairwise A P -> (forall q, In q P -> V q /\ q <> vzero N) -> (length P <= N)%nat.
  Proof.
    intros Hpw HP. destruct (le_lt_dec (length P) N) as [|Hlt]; [assumption|exfalso].
    destruct (dependent N (fun v => v) P (fun v Hv => V_len v (proj1 (HP v Hv))) Hlt) as (L & HL & (c & p & Hin & Hc) & Hs).
    assert (HLV : forall c v, In (c, v) L -> V v /\ v <> vzero N).
    { intros c' v Hv. apply HP. eapply Permutation_in; [symmetry; exact HL|]. apply in_map_iff. exists (c', v). auto. }
    assert (HLlen : forall c v, In (c, v) L -> length v = N) by (intros; apply V_len; eapply HLV; eassumption).
    assert (Ez : lincomb N L = vzero N).
    { apply vec_ext; [rewrite vzero_length; apply lincomb_length; assumption|]. intros i Hi.
      rewrite lincomb_length in Hi by assumption. rewrite nth_zero, lincomb_nth by assumption. apply (Hs i Hi). }
    destruct (HLV _ _ Hin) as [Vp Np].
    assert (E : dot (A p) (lincomb N L) = c * dot (A p) p).
    { rewrite dot_lincomb by assumption.
      apply in_split in Hin as (L1 & L2 & ->).
      assert (Hpw' : pairwise A (p :: map snd L1 ++ map snd L2)).
      { eapply pairwise_perm; [|exact Hpw]. rewrite HL, map_app. cbn. symmetry. apply Permutation_middle. }
      destruct Hpw' as [Hpw' _].
      unfold wsum. rewrite fold_right_app. cbn [fold_right fst snd].
      fold (wsum (dot (A p)) L2). rewrite (wsum_zero (dot (A p)) L2).
      2:{ intros c' x Hx. destruct (Hpw' x) as [_ E]; [apply in_or_app; right; apply in_map_iff; exists (c', x); auto|].
          rewrite dot_comm. exact E. }
      assert (G : forall L0 s, (forall c' x, In (c', x) L0 -> dot (A p) x = 0) ->
         fold_right (fun (cx : R * vec) s => fst cx * dot (A p) (snd cx) + s) s L0 = s).
      { clear. induction L0 as [|[c x] L0 IH]; intros s H; cbn; [reflexivity|].
        rewrite IH, (H c x); [ring|left; reflexivity|intros; eapply H; right; eassumption]. }
      rewrite G; [ring|]. intros c' x Hx. destruct (Hpw' x) as [_ E]; [apply in_or_app; left; apply in_map_iff; exists (c', x); auto|].
      rewrite dot_comm. exact E. }
    rewrite Ez, dot_zero_r, (dot_comm (A p) p) in E. pose proof (A_pos p Vp Np). nra.
  Qed.
End Exact.
