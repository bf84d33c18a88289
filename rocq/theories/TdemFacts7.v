From Verif Require Import Py Vec VecDeriv Joint CplxFacts SolveDeriv RichardsFacts RichardsFacts2 RichardsFacts3 DcFacts DcFacts4 Tdem SpecTdem TdemFacts TdemFacts2 TdemFacts3 TdemFacts4 TdemFacts5 TdemFacts6.
From Verif Require JointFacts JointFacts3 LinSimFacts.
From Coq Require Import Reals Lra Lia.
Local Open Scope R_scope.

Fixpoint dots (a b : list vec) : R := match a, b with x :: a', y :: b' => dot x y + dots a' b' | _, _ => 0 end.
Lemma dots_concat n a : forall b, Forall (fun x => length x = n) a -> Forall (fun x => length x = n) b -> dot (concat a) (concat b) = dots a b.
Proof.
  induction a as [|x a IH]; intros [|y b] HA HB; cbn [concat dots]; [reflexivity|apply (dot_zero_l 0)| |]; inversion HA; subst.
  - destruct (x ++ concat a); reflexivity.
  - inversion HB; subst. rewrite dot_app' by congruence. rewrite IH by assumption. reflexivity.
Qed.
Lemma dots_zip n a : forall b c, Forall (fun x => length x = n) a -> Forall (fun x => length x = n) b -> Forall (fun x => length x = n) c -> length a = length b -> dots (zip2 vadd a b) c = dots a c + dots b c.
Proof.
  induction a as [|x a IH]; intros [|y b] c HA HB HC L; try discriminate; [cbn; lra|]. destruct c as [|z c]; [cbn; lra|]. inversion HA; inversion HB; inversion HC; subst. cbn [zip2 dots].
  rewrite dot_vadd_l by congruence. rewrite IH by (try assumption; cbn in L; lia). ring.
Qed.
Lemma dots_zero n k c : dots (repeat (vzero n) k) c = 0.
Proof. revert c. induction k; intros [|y c]; cbn [repeat dots]; try reflexivity. rewrite dot_zero_l, IHk. ring. Qed.
Lemma nth_Forall n (l : list vec) k : length l = k -> (forall i, (i < k)%nat -> length (nth i l []) = n) -> Forall (fun x => length x = n) l.
Proof. intros <- H. apply Forall_forall. intros x I. destruct (In_nth _ _ [] I) as (i & Hi & <-). apply H. exact Hi. Qed.
Lemma Forall_zip2 n a : forall b, Forall (fun x => length x = n) a -> Forall (fun x => length x = n) b -> Forall (fun x => length x = n) (zip2 vadd a b).
Proof. induction a as [|x a IH]; intros [|y b] HA HB; cbn [zip2]; try constructor; inversion HA; inversion HB; subst; [apply ln_add; congruence|apply IH; assumption]. Qed.
Lemma len_zip2 {A} (f : A -> A -> A) a : forall b, length a = length b -> length (zip2 f a b) = length a.
Proof. induction a as [|x a IH]; intros [|y b] H; try discriminate; cbn [zip2 length]; [reflexivity|]. rewrite IH by (cbn in H; lia). reflexivity. Qed.
Lemma concat_chunks n k : forall w, length w = (k * n)%nat -> concat (chunks n k w) = w.
Proof. induction k; intros w L; cbn [chunks concat]; [destruct w; [reflexivity|discriminate]|]. rewrite IHk by (rewrite skipn_length; lia). apply firstn_skipn. Qed.

Lemma dot_opp_l a b : dot (vopp a) b = - dot a b.
Proof. revert b. induction a; intros [|y b]; cbn; try lra. rewrite IHa. lra. Qed.
Lemma dot_opp_r a b : dot a (vopp b) = - dot a b.
Proof. rewrite dot_comm, dot_opp_l, dot_comm. reflexivity. Qed.
Lemma dot_scale_l c a b : dot (vscale c a) b = c * dot a b.
Proof. revert b. induction a; intros [|y b]; cbn; try lra. rewrite IHa. lra. Qed.
Lemma dot_scale_r c a b : dot a (vscale c b) = c * dot a b.
Proof. rewrite dot_comm, dot_scale_l, dot_comm. reflexivity. Qed.
Lemma dot_sub_l n a b c : length a = n -> length b = n -> dot (vsub a b) c = dot a c - dot b c.
Proof. intros La Lb. subst n. revert b c Lb. induction a; intros [|y b] [|z c] L; cbn in *; try discriminate; try lra. unfold vsub in IHa. rewrite IHa by lia. lra. Qed.
Lemma dot_sub_r n a b c : length b = n -> length c = n -> dot a (vsub b c) = dot a b - dot a c.
Proof. intros. rewrite dot_comm, (dot_sub_l n), !(dot_comm a) by assumption. reflexivity. Qed.
Lemma dot_add_r n a b c : length b = n -> length c = n -> dot a (vadd b c) = dot a b + dot a c.
Proof. intros. apply dot_vadd_r. congruence. Qed.
Lemma dot_add_l n a b c : length b = n -> length c = n -> dot (vadd b c) a = dot b a + dot c a.
Proof. intros. apply dot_vadd_l. congruence. Qed.

Section Adjoint.
  Context (s : td) (srcs : list source) (ST : setup_ok s srcs).
  Let SZ : sizes s := proj1 ST.
  Context (m v : vec) (OK : solvable s m) (Lv : length v = t_p s).
  Let Lm : length m = t_p s := proj1 OK.
  (** ** Adjoints of the pieces *)
  Lemma curlT_dot a b : length a = t_nE s -> length b = t_nF s -> dot a (curlT s b) = dot (curl s a) b.
  Proof. intros. rewrite dot_comm, <- (curl_dot s SZ) by assumption. apply dot_comm. Qed.
  Lemma du_dot x y z : no_field s x = None -> length y = locs s x -> length z = dim s -> dot y (field_du s m x z) = dot (field_duT s m x y) z.
  Proof.
    clearbody SZ Lm. intros NF Ly Lz. pose proof (curl_dot s SZ) as CD. pose proof curlT_dot as CT. unfold no_field, gloc, locs, on_edges, gloc, field_du, field_duT, dim in *. destruct (t_form s) eqn:K; destruct x; try discriminate; cbn [negb] in *; lens s SZ K;
      repeat first [rewrite dot_opp_r | rewrite <- dot_vmul | rewrite CD by ln | rewrite CT by ln]; rewrite ?dot_opp_l; reflexivity.
  Qed.
  Lemma len_duT x y : no_field s x = None -> length y = locs s x -> length (field_duT s m x y) = dim s.
  Proof.
    clearbody SZ Lm. intros NF Ly. unfold no_field, gloc, locs, on_edges, gloc, field_duT, dim in *. destruct (t_form s) eqn:K; destruct x; try discriminate; cbn [negb] in *; lens s SZ K; ln.
  Qed.
  Lemma len_dmT src k x u y : length (field_dmT s m m src k x u y) = t_p s.
  Proof.
    clearbody SZ Lm. pose proof (len_SdT s SZ m) as L1. pose proof (len_SIdT s SZ m) as L2. unfold field_dmT, eB_dmT. destruct (t_form s) eqn:K; destruct x; try apply vzero_length; try (apply L1; exact Lm); try (apply L2; exact Lm);
      try (apply ln_opp; first [apply L1; exact Lm|apply L2; exact Lm]). apply ln_add; [apply L1; exact Lm|apply L2; exact Lm].
  Qed.
  Lemma dm_dot src k x u y : src_ok s src -> no_field s x = None -> length y = locs s x -> length u = dim s -> dot y (field_dm s m m src k x u v) = dot (field_dmT s m m src k x u y) v.
  Proof.
    clearbody SZ Lm. intros SO NF Ly Lu. pose proof (len_s_e s SZ src (time s k) SO) as LE. pose proof (curl_dot s SZ) as CD. pose proof curlT_dot as CT. pose proof (fun u w Hu Hw => Sd_dot s SZ m u v w Lm Hu Lv Hw) as SD. pose proof (fun u w Hu Hw => SId_dot s SZ m u v w Lm Hu Lv Hw) as SID.
    pose proof (len_SdT s SZ m) as L1. pose proof (len_SIdT s SZ m) as L2.
    unfold no_field, gloc, locs, on_edges, gloc, field_dm, field_dmT, eB_dm, eB_dmT, dim in *. unfold getfield. destruct (t_form s) eqn:K; destruct x; try discriminate; cbn [negb] in *; lens s SZ K; cbv zeta;
      try (rewrite dot_zero_r, dot_zero_l; reflexivity); set (se := s_e s src (time s k)) in *;
      try solve [repeat first [rewrite dot_opp_r | rewrite <- dot_vmul | rewrite CD by (first [apply H7; ln | apply H8; ln | ln]) | rewrite CT by (first [apply H7; ln | apply H8; ln | ln]) | rewrite SD by ln | rewrite SID by ln]; rewrite ?dot_opp_l; reflexivity].
    rewrite <- dot_vmul. rewrite (dot_add_r (t_nE s)) by (first [apply H7; ln | apply ln_mul; [ln | apply H8; ln]]). rewrite (dot_add_l (t_p s)) by (first [apply L1; exact Lm | apply L2; exact Lm]).
    rewrite <- dot_vmul. rewrite SD, SID by ln. reflexivity.
  Qed.
  (** ** The right-hand sides *)
  Lemma over2_dual src x (SO : src_ok s src) (NF : no_field s x = None) ys : forall k us dus acc, length us = length ys -> length dus = length ys -> Forall (fun y => length y = locs s x) ys -> Forall (fun u => length u = dim s) us -> Forall (fun u => length u = dim s) dus -> length acc = t_p s ->
    let a := fold_left vadd (over2 (fun k u y => field_dmT s m m src k x u y) k us ys) acc in
    length a = t_p s /\ dots ys (over2 (df s m v src x) k us dus) = dots (map (field_duT s m x) ys) dus + dot a v - dot acc v.
  Proof.
    induction ys as [|y ys IH]; intros k us dus acc L1 L2 HY HU HD La; destruct us as [|u us], dus as [|du dus]; try discriminate; [cbn; split; [assumption|lra]|].
    inversion HY; inversion HU; inversion HD; subst. cbn [over2 fold_left dots map]. cbv zeta.
    destruct (IH (S k) us dus (vadd acc (field_dmT s m m src k x u y)) ltac:(cbn in L1; lia) ltac:(cbn in L2; lia) ltac:(assumption) ltac:(assumption) ltac:(assumption) ltac:(apply ln_add; [assumption|apply len_dmT])) as [I1 I2].
    split; [exact I1|]. cbv zeta in I2. rewrite I2. unfold df. rewrite (dot_add_r (locs s x)) by (first [apply (len_field_du s srcs ST); assumption | apply (len_field_dm s srcs ST); assumption]).
    rewrite du_dot, (dm_dot src k x u y SO) by assumption. rewrite (dot_add_l (t_p s)) by (try assumption; apply len_dmT). lra.
  Qed.
  Lemma rx_adjoint_dual src us dus (SO : src_ok s src) : length us = S (nT s) -> length dus = S (nT s) -> Forall (fun u => length u = dim s) us -> Forall (fun u => length u = dim s) dus ->
    forall rs w, Forall (rx_ok s) rs -> length w = list_sum (map r_nD rs) ->
    exists ds acc, rx_adjoint s m m src us rs w = Ok (ds, acc) /\ length ds = S (nT s) /\ Forall (fun d => length d = dim s) ds /\ length acc = t_p s /\
      dot w (concat (map (JT_rx s m v src us dus) rs)) = dots ds dus + dot acc v.
  Proof.
    intros Lu Ld HU HD. induction rs as [|r rs IH]; intros w HR Lw.
    - exists (repeat (vzero (dim s)) (S (nT s))), (vzero (t_p s)). split; [reflexivity|]. split; [apply repeat_length|]. split; [apply Forall_forall; intros x I; apply repeat_spec in I; subst; apply vzero_length|]. split; [apply vzero_length|].
      rewrite dots_zero, dot_zero_l. cbn [map concat]. destruct w; [cbn; lra|discriminate].
    - inversion HR as [|? ? RO HR']; subst. pose proof RO as (_ & _ & NF). change (list_sum (map r_nD (r :: rs))) with (r_nD r + list_sum (map r_nD rs))%nat in Lw.
      destruct (IH (skipn (r_nD r) w) HR' ltac:(rewrite skipn_length; lia)) as (ds & acc & E & L1 & F1 & L2 & Q). cbn [rx_adjoint]. unfold no_deriv. rewrite NF.
      assert (G : exists b, gloc s (r_field r) = Ok b) by (unfold no_field in NF; destruct (gloc s (r_field r)); [eauto|discriminate]). destruct G as [b G]. rewrite G, E. cbn [bind fst snd].
      set (n := locs s (r_field r)). pose proof (rxP_mat s r RO) as PM. fold n in PM. set (w1 := firstn (r_nD r) w). assert (Lw1 : length w1 = r_nD r) by (unfold w1; rewrite firstn_length; lia).
      set (q := mtv (S (nT s) * n) (rxP s r) w1). assert (Lq : length q = (S (nT s) * n)%nat) by (eapply mtv_length; apply PM).
      set (ys := chunks n (S (nT s)) q). assert (Ly : length ys = S (nT s)) by apply JointFacts3.chunks_length. assert (FY : Forall (fun y => length y = n) ys) by (apply JointFacts3.chunks_len; exact Lq).
      destruct (over2_dual src (r_field r) SO NF ys 0 us dus acc ltac:(congruence) ltac:(congruence) FY HU HD L2) as [A1 A2]. cbv zeta in A1, A2.
      eexists _, _. split; [reflexivity|]. assert (FM : Forall (fun d => length d = dim s) (map (field_duT s m (r_field r)) ys)).
      { apply Forall_forall. intros d I. apply in_map_iff in I. destruct I as (y & <- & I). apply len_duT; [exact NF|]. rewrite Forall_forall in FY. apply FY. exact I. }
      split; [rewrite len_zip2 by (rewrite map_length; congruence); exact L1|]. split; [apply Forall_zip2; assumption|]. split; [exact A1|].
      cbn [map concat]. rewrite <- (firstn_skipn (r_nD r) w). fold w1. assert (LJ : length (JT_rx s m v src us dus r) = r_nD r) by (unfold JT_rx; rewrite mv_length; apply PM).
      rewrite dot_app' by congruence. rewrite Q. rewrite (dots_zip (dim s)) by (try assumption; rewrite map_length; congruence).
      unfold JT_rx. set (fs := over2 _ 0 us dus). assert (FF : Forall (fun f => length f = n) fs).
      { unfold fs. rewrite over2_seq by congruence. apply Forall_forall. intros f I. apply in_map_iff in I. destruct I as (i & <- & I). apply in_seq in I. apply (len_df s srcs ST); [exact SO|exact NF| |].
        - rewrite Forall_forall in HU. apply HU. apply nth_In. lia.
        - rewrite Forall_forall in HD. apply HD. apply nth_In. lia. }
      assert (LF : length fs = S (nT s)) by (unfold fs; rewrite over2_seq by congruence; rewrite map_length, seq_length; exact Lu).
      rewrite (mv_mtv_adjoint (r_nD r) (S (nT s) * n)) by (try exact PM; try exact Lw1; rewrite (concat_length_eq n) by exact FF; rewrite LF; lia).
      fold q. rewrite <- (concat_chunks n (S (nT s)) q Lq). fold ys. rewrite (dots_concat n) by assumption. fold fs in A2. rewrite A2. lra.
  Qed.
End Adjoint.
