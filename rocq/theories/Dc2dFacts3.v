(** 2.5D DC: data, sensitivities and adjoints as sums over the wavenumbers. *)
From Coq Require Import Reals Lra Lia.
From Verif Require Import Py Vec VecDeriv Frechet Joint JointFacts Richards RichardsFacts RichardsFacts2 RichardsFacts3 SolveDeriv Dc SpecDc DcFacts DcFacts3 Dc2d SpecDc2d Dc2dFacts Dc2dFacts2.
Local Open Scope R_scope.

(** ** Weighted sums *)
Lemma nth_vzero t k : nth t (vzero k) 0 = 0.
Proof. revert t; induction k; intros [|t]; cbn; auto. Qed.
Section Sum.
  Context (w : nat -> R).
  Definition Sm (k : nat) (l : list nat) (g : nat -> vec) : vec := fold_right (fun i acc => vadd (vscale (w i) (g i)) acc) (vzero k) l.
  Lemma Sm_len k l g : (forall i, In i l -> length (g i) = k) -> length (Sm k l g) = k.
  Proof. induction l as [|i l IH]; intros H; cbn; [apply vzero_length|]. assert (length (g i) = k) by (apply H; now left). assert (length (Sm k l g) = k) by (apply IH; intros; apply H; now right). apply ln_add; [ln|assumption]. Qed.
  Lemma Sm_ext k l g h : (forall i, In i l -> g i = h i) -> Sm k l g = Sm k l h.
  Proof. induction l as [|i l IH]; intros H; cbn; [reflexivity|]. rewrite H by now left. f_equal. apply IH. intros; apply H; now right. Qed.
  Lemma vadd_app a b c d : length a = length c -> vadd (a ++ b) (c ++ d) = vadd a c ++ vadd b d.
  Proof. revert c. induction a as [|x a IH]; intros [|y c] H; cbn in *; try discriminate; [reflexivity|]. unfold vadd in *. cbn. f_equal. apply IH. lia. Qed.
  Lemma vscale_app c a b : vscale c (a ++ b) = vscale c a ++ vscale c b. Proof. unfold vscale. apply map_app. Qed.
  Lemma vzero_app a b : vzero (a + b) = vzero a ++ vzero b. Proof. induction a; cbn; [reflexivity|]. f_equal. exact IHa. Qed.
  Lemma Sm_app k1 k2 l g h : (forall i, In i l -> length (g i) = k1) -> Sm (k1 + k2) l (fun i => g i ++ h i) = Sm k1 l g ++ Sm k2 l h.
  Proof.
    induction l as [|i l IH]; intros H; cbn [Sm fold_right]; [apply vzero_app|]. fold (Sm (k1 + k2) l (fun i => g i ++ h i)) (Sm k1 l g) (Sm k2 l h). rewrite IH by (intros; apply H; now right).
    rewrite vscale_app. apply vadd_app. rewrite Sm_len by (intros; apply H; now right). assert (length (g i) = k1) by (apply H; now left). ln.
  Qed.
  Lemma Sm_concat {A} (l : list nat) (size : A -> nat) (g : A -> nat -> vec) (xs : list A) : (forall x i, In x xs -> In i l -> length (g x i) = size x) ->
    concat (map (fun x => Sm (size x) l (g x)) xs) = Sm (list_sum (map size xs)) l (fun i => concat (map (fun x => g x i) xs)).
  Proof.
    induction xs as [|x xs IH]; intros H; cbn [map concat list_sum fold_right].
    - symmetry. apply length_zero_iff_nil. apply Sm_len. reflexivity.
    - change (fold_right Nat.add 0%nat) with list_sum. rewrite IH by (intros; apply H; [now right|assumption]). symmetry. apply (Sm_app (size x) (list_sum (map size xs)) l (g x) (fun i => concat (map (fun x => g x i) xs))). intros; apply H; [now left|assumption].
  Qed.
  Lemma Sm_nth k l g t : (forall i, In i l -> length (g i) = k) -> (t < k)%nat -> nth t (Sm k l g) 0 = vsum (map (fun i => w i * nth t (g i) 0) l).
  Proof.
    intros H Ht. induction l as [|i l IH]; cbn [Sm fold_right map vsum]; [apply nth_vzero|]. fold (Sm k l g). assert (length (g i) = k) by (apply H; now left). assert (length (Sm k l g) = k) by (apply Sm_len; intros; apply H; now right).
    rewrite (nA k) by (auto; ln). rewrite nth_vscale. rewrite IH by (intros; apply H; now right). reflexivity.
  Qed.
  Lemma Sm_left k l g : forall acc, length acc = k -> (forall i, In i l -> length (g i) = k) -> fold_left (fun acc i => vadd acc (vscale (w i) (g i))) l acc = vadd acc (Sm k l g).
  Proof.
    induction l as [|i l IH]; intros acc La H; cbn [fold_left Sm fold_right]; [rewrite vadd_zero_r; congruence|]. fold (Sm k l g).
    assert (Lg : length (g i) = k) by (apply H; now left). assert (LS : length (Sm k l g) = k) by (apply Sm_len; intros; apply H; now right).
    rewrite IH by (try ln; intros; apply H; now right). vext k. ring.
  Qed.
  Lemma Sm_vderiv k l (g : R -> nat -> vec) g' : (forall i, In i l -> vderiv k (fun t => g t i) 0 (g' i)) -> vderiv k (fun t => Sm k l (g t)) 0 (Sm k l g').
  Proof.
    induction l as [|i l IH]; intros H; cbn [Sm fold_right]; [apply vderiv_const, vzero_length|].
    apply (vderiv_add k (fun t => vscale (w i) (g t i)) (fun t => Sm k l (g t))); [apply vderiv_scale; apply H; now left|]. apply IH. intros; apply H; now right.
  Qed.
  Lemma Sm_dot k l g x : length x = k -> (forall i, In i l -> length (g i) = k) -> dot x (Sm k l g) = vsum (map (fun i => w i * dot x (g i)) l).
  Proof.
    intros Lx H. induction l as [|i l IH]; cbn [Sm fold_right map vsum]; [apply dot_zero_r|]. fold (Sm k l g). assert (length (g i) = k) by (apply H; now left). assert (length (Sm k l g) = k) by (apply Sm_len; intros; apply H; now right).
    rewrite dot_vadd_r by (transitivity k; [ln|symmetry; assumption]). rewrite dot_vscale_r, IH by (intros; apply H; now right). reflexivity.
  Qed.
End Sum.

Lemma vdiv_inv (a g : vec) : vdiv a g = vmul (map Rinv g) a.
Proof. unfold vdiv, vmul. revert g; induction a as [|x a IH]; intros [|y g]; cbn; try reflexivity. rewrite IH. f_equal. unfold Rdiv. ring. Qed.

Section Data.
  Context (s : dc2) (bc : bct) (SZ : sizes2 s) (BC : bc_ok s bc).
  Let n := e_n s.
  Let K := length (e_ks s).
  Let w i := nth i (e_ws s) 0.
  Lemma src_in c : In c (e_srcs s) -> length (c_q c) = n /\ forall r, In r (c_rx c) -> rx_size s r.
  Proof. intros H. destruct SZ as (_ & _ & _ & _ & _ & _ & _ & _ & F). rewrite Forall_forall in F. destruct (F c H) as [A B]. split; [exact A|]. rewrite Forall_forall in B. exact B. Qed.
  Lemma Ls A b : length b = n -> length (e_solve s A b) = n. Proof. apply SZ. Qed.
  Lemma eval_deriv r u : rx_size s r -> rx2_eval r u = rx2_deriv r u.
  Proof.
    intros [HP Hg]. unfold rx2_eval, rx2_deriv. destruct (x_g r) as [g|]; [|reflexivity]. apply vdiv_inv.
  Qed.
  Lemma rx_lin r : rx_size s r -> lin_map n (rx2_nD r) (rx2_deriv r).
  Proof.
    intros [HP Hg]. unfold rx2_deriv, rx2_nD. destruct (x_g r) as [g|]; [|apply lin_mv; exact HP]. destruct Hg as [Lg _].
    apply (lin_comp _ (length (x_P r)) _ (mv (x_P r)) (vmul (map Rinv g))); [apply lin_mv; exact HP|apply lin_vmul; ln].
  Qed.
  Lemma rx_adj r u y : rx_size s r -> length u = n -> length y = rx2_nD r -> length (rx2_derivT s r y) = n /\ dot y (rx2_deriv r u) = dot (rx2_derivT s r y) u.
  Proof.
    intros [HP Hg] Lu Ly. unfold rx2_deriv, rx2_derivT, rx2_nD in *. fold n. pose proof (proj1 HP) as LP. destruct (x_g r) as [g|].
    - destruct Hg as [Lg _]. split; [eapply mtv_length; exact HP|]. rewrite diag_sym. apply (mv_mtv_adjoint (length (x_P r)) n); auto. ln.
    - split; [eapply mtv_length; exact HP|]. apply (mv_mtv_adjoint (length (x_P r)) n); auto.
  Qed.
  (** the readings of all receivers at one wavenumber *)
  Definition all (X : src2 -> vec) : vec := concat (map (fun c => concat (map (fun r => rx2_deriv r (X c)) (c_rx c))) (e_srcs s)).
  Lemma block_len (X : src2 -> vec) c : In c (e_srcs s) -> length (X c) = n -> length (concat (map (fun r => rx2_deriv r (X c)) (c_rx c))) = src2_nD c.
  Proof.
    intros Hc LX. unfold src2_nD. destruct (src_in c Hc) as [_ Hr]. induction (c_rx c) as [|r rs IH]; [reflexivity|]. cbn [map concat list_sum fold_right]. rewrite app_length.
    rewrite IH by (intros; apply Hr; now right). f_equal. apply (rx_lin r); [apply Hr; now left|exact LX].
  Qed.
  Lemma all_len X : (forall c, In c (e_srcs s) -> length (X c) = n) -> length (all X) = nD2 s.
  Proof.
    intros H. unfold all, nD2. assert (H' : forall c, In c (e_srcs s) -> length (concat (map (fun r => rx2_deriv r (X c)) (c_rx c))) = src2_nD c) by (intros c Hc; apply block_len; auto). clear H.
    induction (e_srcs s) as [|c cs IH]; [reflexivity|]. cbn [map concat list_sum fold_right]. rewrite app_length, H' by now left. f_equal. apply IH. intros; apply H'; now right.
  Qed.
  Lemma up_len m i c : In c (e_srcs s) -> length (up s bc m i c) = n.
  Proof. intros H. apply Ls. apply src_in. exact H. Qed.
  Definition FF (m : vec) : vec := Sm w (nD2 s) (ks_idx s) (fun i => all (up s bc m i)).
  Lemma wsum_eq k m j c r : rx_size s r -> nth_error (e_srcs s) j = Some c -> k = rx2_nD r ->
    wsum s k (map (rx2_eval r) (column (fP s bc m) j)) = Sm w k (ks_idx s) (fun i => rx2_deriv r (up s bc m i c)).
  Proof.
    intros Hr Hj ->. unfold column, fP. rewrite !map_map.
    rewrite (map_ext _ (fun i => rx2_deriv r (up s bc m i c))).
    2:{ intros i. rewrite eval_deriv by exact Hr. f_equal. assert (Q : nth_error (map (up s bc m i) (e_srcs s)) j = Some (up s bc m i c)) by (rewrite nth_error_map, Hj; reflexivity). apply nth_error_nth with (d := []) in Q. exact Q. }
    unfold wsum, Sm, ks_idx. assert (LW : length (e_ws s) = length (e_ks s)) by apply SZ. unfold w. rewrite <- LW. clear.
    assert (G : forall ws a (wf : nat -> R), (forall i, (i < length ws)%nat -> wf (a + i)%nat = nth i ws 0) ->
      fold_right (fun wc acc => vadd (vscale (fst wc) (snd wc)) acc) (vzero (rx2_nD r)) (combine ws (map (fun i => rx2_deriv r (up s bc m i c)) (seq a (length ws)))) =
      fold_right (fun i acc => vadd (vscale (wf i) (rx2_deriv r (up s bc m i c))) acc) (vzero (rx2_nD r)) (seq a (length ws))).
    { induction ws as [|x ws IH]; intros a wf H; [reflexivity|]. cbn [length seq map combine fold_right fst snd]. rewrite (IH (S a) wf).
      - specialize (H 0%nat ltac:(cbn; lia)). rewrite Nat.add_0_r in H. rewrite H. reflexivity.
      - intros i Hi. specialize (H (S i) ltac:(cbn; lia)). replace (S a + i)%nat with (a + S i)%nat by lia. exact H. }
    apply (G _ 0%nat (fun i => nth i (e_ws s) 0)). intros; reflexivity.
  Qed.
  Lemma predict_eq m : predict2 s (fP s bc m) = FF m.
  Proof.
    unfold predict2, FF, all. assert (IX : forall j c, In (j, c) (combine (seq 0 (length (e_srcs s))) (e_srcs s)) -> nth_error (e_srcs s) j = Some c).
    { intros j c H. apply In_nth_error in H. destruct H as [t Ht]. assert (Q : forall (l : list src2) a t, nth_error (combine (seq a (length l)) l) t = Some (j, c) -> j = (a + t)%nat /\ nth_error l t = Some c).
      { clear. induction l as [|x l IH]; intros a [|t] H; cbn in H; try discriminate; [injection H as <- <-; split; [lia|reflexivity]|]. destruct (IH (S a) t H) as [-> E]. split; [lia|exact E]. }
      destruct (Q _ _ _ Ht) as [-> E]. exact E. }
    transitivity (concat (map (fun c => Sm w (src2_nD c) (ks_idx s) (fun i => concat (map (fun r => rx2_deriv r (up s bc m i c)) (c_rx c)))) (e_srcs s))).
    - rewrite (map_ext_in _ (fun jc : nat * src2 => Sm w (src2_nD (snd jc)) (ks_idx s) (fun i => concat (map (fun r => rx2_deriv r (up s bc m i (snd jc))) (c_rx (snd jc)))))).
      + f_equal. clear IX. generalize 0%nat. induction (e_srcs s) as [|c cs IH]; intros a; [reflexivity|]. cbn [length seq combine map snd]. f_equal. apply IH.
      + intros [j c] H. cbn [fst snd]. pose proof (IX j c H) as E. pose proof (nth_error_In _ _ E) as Hc. destruct (src_in c Hc) as [_ Hr].
        rewrite (map_ext_in _ (fun r => Sm w (rx2_nD r) (ks_idx s) (fun i => rx2_deriv r (up s bc m i c)))) by (intros r Hrr; apply wsum_eq; auto).
        apply (Sm_concat w (ks_idx s) rx2_nD (fun r i => rx2_deriv r (up s bc m i c))). intros r i Hrr _. apply rx_lin; [auto|]. apply up_len. exact Hc.
    - apply (Sm_concat w (ks_idx s) src2_nD (fun c i => concat (map (fun r => rx2_deriv r (up s bc m i c)) (c_rx c)))). intros c i Hc _. apply block_len; [exact Hc|apply up_len; exact Hc].
  Qed.
  Definition du2 (m v : vec) (i : nat) (c : src2) : vec := e_solve s (Ap s bc m i) (vopp (dA s bc i m (up s bc m i c) v)).
  Lemma du_len m v i c : length m = e_p s -> In c (e_srcs s) -> length (du2 m v i c) = n.
  Proof. intros Lm Hc. apply Ls. pose proof (dA_length s bc SZ BC i m (up s bc m i c) v Lm (up_len m i c Hc)). fold n in H. ln. Qed.
  Lemma JvP_eq m v : length m = e_p s -> JvP s bc m v (ks_idx s) (vzero (nD2 s)) = Sm w (nD2 s) (ks_idx s) (fun i => all (du2 m v i)).
  Proof.
    intros Lm. assert (H : forall i, length (all (du2 m v i)) = nD2 s) by (intros i; apply all_len; intros; apply du_len; assumption).
    unfold JvP. rewrite (Sm_left (w_ s) (nD2 s) (ks_idx s) (fun i => all (du2 m v i))) by (try apply vzero_length; intros; apply H).
    assert (L : length (Sm (w_ s) (nD2 s) (ks_idx s) (fun i => all (du2 m v i))) = nD2 s) by (apply Sm_len; intros; apply H). change w with (w_ s). rewrite vadd_zero_l; [reflexivity|exact L].
  Qed.
  Lemma all_vderiv (X : R -> src2 -> vec) X' : (forall c, In c (e_srcs s) -> vderiv n (fun t => X t c) 0 (X' c)) -> vderiv (nD2 s) (fun t => all (X t)) 0 (all X').
  Proof.
    intros H. unfold all, nD2. assert (H' : forall c, In c (e_srcs s) -> vderiv (src2_nD c) (fun t => concat (map (fun r => rx2_deriv r (X t c)) (c_rx c))) 0 (concat (map (fun r => rx2_deriv r (X' c)) (c_rx c)))).
    { intros c Hc. unfold src2_nD. destruct (src_in c Hc) as [_ Hr]. specialize (H c Hc). induction (c_rx c) as [|r rs IH]; [cbn; apply (vderiv_const 0 []); reflexivity|].
      cbn [map concat list_sum fold_right]. apply vderiv_app; [|apply IH; intros; apply Hr; now right]. apply (vderiv_lin n _ (rx2_deriv r) (fun t => X t c)); [apply rx_lin, Hr; now left|exact H]. }
    clear H. induction (e_srcs s) as [|c cs IH]; [cbn; apply (vderiv_const 0 []); reflexivity|]. cbn [map concat list_sum fold_right]. apply vderiv_app; [apply H'; now left|]. apply IH. intros; apply H'; now right.
  Qed.
  Lemma FF_jac m : regular2 s bc m -> has_jacobian (e_p s) (nD2 s) FF m (fun v => Sm w (nD2 s) (ks_idx s) (fun i => all (du2 m v i))).
  Proof.
    intros RG v Lv. unfold FF. apply (Sm_vderiv w (nD2 s) (ks_idx s) (fun t i => all (up s bc (vadd m (vscale t v)) i))). intros i Hi.
    apply (all_vderiv (fun t => up s bc (vadd m (vscale t v)) i)). intros c Hc. apply solve_jac2; [exact SZ|exact BC|exact RG|apply ks_lt; exact Hi|exact Lv|apply src_in; exact Hc].
  Qed.
  (** ** The adjoint *)
  Context (m : vec) (Lm : length m = e_p s) (SV : solves2 s bc m) (SY : symmetric2 s bc m).
  Lemma du_adj i c x v : (i < K)%nat -> In c (e_srcs s) -> length x = n -> length v = e_p s ->
    length (dAT s bc i m (up s bc m i c) (e_solve s (Ap s bc m i) x)) = e_p s /\ dot x (du2 m v i c) = - dot (dAT s bc i m (up s bc m i c) (e_solve s (Ap s bc m i) x)) v.
  Proof.
    intros Hi Hc Lx Lv. pose proof (up_len m i c Hc) as Lu. destruct (dA_adjoint s bc SZ BC i m (up s bc m i c) v (e_solve s (Ap s bc m i) x) Lm Lu Lv (Ls _ _ Lx)) as [L1 E].
    split; [exact L1|]. unfold du2. pose proof (dA_length s bc SZ BC i m (up s bc m i c) v Lm Lu) as Ld.
    rewrite (sym_solve2 s bc SZ i m Lm (SV i Hi) (SY i Hi)) by (auto; fold n in Ld; ln). rewrite dot_vopp_r. f_equal. exact E.
  Qed.
  Lemma rx_sum rs : (forall r, In r rs -> rx_size s r) -> forall y, length y = list_sum (map rx2_nD rs) ->
    let sum := fold_right (fun rw acc => vadd (rx2_derivT s (fst rw) (snd rw)) acc) (vzero n) (combine rs (cut (map rx2_nD rs) y)) in
    length sum = n /\ forall u, length u = n -> dot y (concat (map (fun r => rx2_deriv r u) rs)) = dot sum u.
  Proof.
    induction rs as [|r rs IH]; intros Hr y Ly; cbn [map cut combine fold_right fst snd concat].
    - split; [apply vzero_length|]. intros u Lu. destruct y; [|discriminate]. rewrite dot_zero_l. reflexivity.
    - cbn [map list_sum fold_right] in Ly. change (fold_right Nat.add 0%nat) with list_sum in Ly.
      assert (Lf : length (firstn (rx2_nD r) y) = rx2_nD r) by (rewrite firstn_length; lia). assert (Hr0 : rx_size s r) by (apply Hr; now left).
      destruct (IH (fun r h => Hr r (or_intror h)) (skipn (rx2_nD r) y) ltac:(rewrite skipn_length; lia)) as [L1 E1].
      pose proof (proj1 (rx_adj r (vzero n) (firstn (rx2_nD r) y) Hr0 (vzero_length _) Lf)) as L2. split; [apply ln_add; assumption|].
      intros u Lu. rewrite <- (firstn_skipn (rx2_nD r) y) at 1. rewrite dot_app' by (rewrite Lf; symmetry; apply rx_lin; assumption).
      rewrite dot_vadd_l by congruence. rewrite E1 by exact Lu. f_equal. apply rx_adj; assumption.
  Qed.
  Lemma jt1_ok i c y : (i < K)%nat -> In c (e_srcs s) -> length y = src2_nD c ->
    length (jt1 s bc m i y c) = e_p s /\ forall v, length v = e_p s -> dot (jt1 s bc m i y c) v = dot y (concat (map (fun r => rx2_deriv r (du2 m v i c)) (c_rx c))).
  Proof.
    intros Hi Hc Ly. destruct (src_in c Hc) as [_ Hr]. destruct (rx_sum (c_rx c) Hr y Ly) as [L1 E1]. unfold jt1. fold n.
    set (sum := fold_right _ (vzero n) _) in *. clearbody sum. destruct (du_adj i c sum (vzero (e_p s)) Hi Hc L1 (vzero_length _)) as [L2 _]. unfold dAT in L2.
    split; [ln|]. intros v Lv. rewrite E1 by (apply du_len; assumption). rewrite (proj2 (du_adj i c sum v Hi Hc L1 Lv)). rewrite dot_vopp_l. reflexivity.
  Qed.
  Lemma jt_all i cs : (i < K)%nat -> incl cs (e_srcs s) -> forall y acc, length y = list_sum (map src2_nD cs) -> length acc = e_p s ->
    let out := fold_left (fun acc x => vadd acc (vscale (w_ s i) x)) (map (fun wc => jt1 s bc m i (fst wc) (snd wc)) (combine (cut (map src2_nD cs) y) cs)) acc in
    length out = e_p s /\ forall v, length v = e_p s -> dot out v = dot acc v + w i * dot y (concat (map (fun c => concat (map (fun r => rx2_deriv r (du2 m v i c)) (c_rx c))) cs)).
  Proof.
    intros Hi. induction cs as [|c cs IH]; intros HI y acc Ly La; cbn [map cut combine fold_left fst snd concat].
    - split; [exact La|]. intros v Lv. destruct y; [|discriminate]. cbn. ring.
    - cbn [map list_sum fold_right] in Ly. change (fold_right Nat.add 0%nat) with list_sum in Ly.
      assert (Lf : length (firstn (src2_nD c) y) = src2_nD c) by (rewrite firstn_length; lia). assert (Hc : In c (e_srcs s)) by (apply HI; now left).
      destruct (jt1_ok i c (firstn (src2_nD c) y) Hi Hc Lf) as [L1 E1].
      destruct (IH (fun x h => HI x (or_intror h)) (skipn (src2_nD c) y) (vadd acc (vscale (w_ s i) (jt1 s bc m i (firstn (src2_nD c) y) c))) ltac:(rewrite skipn_length; lia) ltac:(ln)) as [L2 E2].
      split; [exact L2|]. intros v Lv. rewrite E2 by exact Lv. rewrite dot_vadd_l by (transitivity (e_p s); [assumption|symmetry; ln]). rewrite dot_vscale_l, E1 by exact Lv.
      rewrite <- (firstn_skipn (src2_nD c) y) at 3. rewrite dot_app' by (rewrite Lf; symmetry; apply (block_len (du2 m v i)); [exact Hc|apply du_len; assumption]). unfold w, w_. ring.
  Qed.
  Lemma JtP_ok y : length y = nD2 s -> forall l acc, (forall i, In i l -> (i < K)%nat) -> length acc = e_p s ->
    length (JtP s bc m y l acc) = e_p s /\ forall v, length v = e_p s -> dot (JtP s bc m y l acc) v = dot acc v + dot y (Sm w (nD2 s) l (fun i => all (du2 m v i))).
  Proof.
    intros Ly. induction l as [|i l IH]; intros acc Hl La; cbn [JtP fold_left Sm fold_right].
    - split; [exact La|]. intros. rewrite dot_zero_r. ring.
    - destruct (jt_all i (e_srcs s) (Hl i (or_introl eq_refl)) (incl_refl _) y acc Ly La) as [L1 E1]. set (out := fold_left _ _ acc) in *. clearbody out.
      destruct (IH out (fun j h => Hl j (or_intror h)) L1) as [L2 E2]. split; [exact L2|]. intros v Lv. unfold JtP in E2. rewrite E2 by exact Lv. rewrite E1 by exact Lv. fold (all (du2 m v i)).
      assert (LA : forall i, length (all (du2 m v i)) = nD2 s) by (intros; apply all_len; intros; apply du_len; assumption).
      fold (Sm w (nD2 s) l (fun i => all (du2 m v i))). assert (LS : length (Sm w (nD2 s) l (fun i => all (du2 m v i))) = nD2 s) by (apply Sm_len; intros; apply LA).
      pose proof (LA i). rewrite dot_vadd_r by (transitivity (nD2 s); [ln|symmetry; exact LS]). rewrite dot_vscale_r. ring.
  Qed.
  (** ** The sensitivity matrix *)
  Lemma rows_mat r : rx_size s r -> is_mat (rx2_nD r) n (rx2_rows r) /\ forall u, mv (rx2_rows r) u = rx2_deriv r u.
  Proof.
    intros [[_ HP] Hg]. unfold rx2_rows, rx2_deriv, rx2_nD. destruct (x_g r) as [g|]; [|split; [split; [reflexivity|exact HP]|reflexivity]]. destruct Hg as [Lg _].
    revert g Lg. induction (x_P r) as [|row P IH]; intros [|x g] Lg; cbn in Lg; try discriminate; [split; [split; [reflexivity|constructor]|reflexivity]|].
    inversion HP as [|? ? H1 H2]; subst. destruct (IH H2 g ltac:(lia)) as [[L1 F1] E1]. split.
    - split; [cbn; f_equal; exact L1|]. cbn [combine map fst snd]. constructor; [rewrite vscale_length; exact H1|exact F1].
    - intros u. unfold mv in *. cbn [combine map fst snd]. rewrite dot_vscale_l. specialize (E1 u). rewrite E1. reflexivity.
  Qed.
  Lemma j1_ok i c : (i < K)%nat -> In c (e_srcs s) -> is_mat (src2_nD c) (e_p s) (j1 s bc m i c) /\
    forall v, length v = e_p s -> mv (j1 s bc m i c) v = vscale (w i) (concat (map (fun r => rx2_deriv r (du2 m v i c)) (c_rx c))).
  Proof.
    intros Hi Hc. destruct (src_in c Hc) as [_ Hr]. unfold j1, src2_nD. fold (dAT s bc i m (up s bc m i c)). induction (c_rx c) as [|r rs IH].
    - split; [split; [reflexivity|constructor]|reflexivity].
    - destruct (IH (fun r h => Hr r (or_intror h))) as [[L1 F1] E1]. destruct (rows_mat r (Hr r (or_introl eq_refl))) as [[L2 F2] E2]. rewrite Forall_forall in F2.
      cbn [map concat list_sum fold_right]. split.
      + split; [rewrite app_length, map_length; f_equal; [exact L2|exact L1]|]. apply Forall_app. split; [|exact F1]. apply Forall_forall. intros x Hx. apply in_map_iff in Hx. destruct Hx as (row & <- & Hrow).
        rewrite vscale_length. apply (du_adj i c row (vzero (e_p s)) Hi Hc (F2 row Hrow) (vzero_length _)).
      + intros v Lv. unfold mv in *. rewrite map_app, E1 by exact Lv. rewrite vscale_app. f_equal. rewrite <- E2. rewrite map_map. unfold vscale at 2. rewrite map_map. apply map_ext_in. intros row Hrow.
        rewrite dot_vscale_l. rewrite (proj2 (du_adj i c row v Hi Hc (F2 row Hrow) Lv)). unfold w, w_, dAT. ring.
  Qed.
  Lemma j1_all i cs : (i < K)%nat -> incl cs (e_srcs s) -> is_mat (list_sum (map src2_nD cs)) (e_p s) (concat (map (j1 s bc m i) cs)) /\
    forall v, length v = e_p s -> mv (concat (map (j1 s bc m i) cs)) v = vscale (w i) (concat (map (fun c => concat (map (fun r => rx2_deriv r (du2 m v i c)) (c_rx c))) cs)).
  Proof.
    intros Hi. induction cs as [|c cs IH]; intros HI; [split; [split; [reflexivity|constructor]|reflexivity]|].
    destruct (IH (fun x h => HI x (or_intror h))) as [[L1 F1] E1]. destruct (j1_ok i c Hi (HI c (or_introl eq_refl))) as [[L2 F2] E2]. cbn [map concat list_sum fold_right]. split.
    - split; [rewrite app_length; f_equal; assumption|]. apply Forall_app. split; assumption.
    - intros v Lv. unfold mv in *. rewrite map_app, E1, E2 by exact Lv. rewrite vscale_app. reflexivity.
  Qed.
  Lemma madd2_ok k p A B : is_mat k p A -> is_mat k p B -> is_mat k p (madd A B) /\ forall v, mv (madd A B) v = vadd (mv A v) (mv B v).
  Proof.
    intros [LA FA] [LB FB]. revert B k LA LB FB. induction A as [|a A IH]; intros [|b B] k LA LB FB; cbn in LA, LB; subst k; try discriminate; [split; [split; [reflexivity|constructor]|reflexivity]|].
    apply Forall_inv_tail in FA as HA2; apply Forall_inv_tail in FB as HB2; apply Forall_inv in FA; apply Forall_inv in FB. destruct (IH HA2 B (length A) eq_refl ltac:(lia) HB2) as [[L F] E]. unfold madd in *. cbn [combine map fst snd]. split.
    - split; [cbn; f_equal; exact L|]. constructor; [|exact F]. apply ln_add; [assumption|congruence].
    - intros v. unfold mv in *. cbn [map]. rewrite E. rewrite dot_vadd_l by congruence. reflexivity.
  Qed.
  Lemma JP2_ok : forall l acc, (forall i, In i l -> (i < K)%nat) -> is_mat (nD2 s) (e_p s) acc -> is_mat (nD2 s) (e_p s) (JP2 s bc m l acc) /\
    forall v, length v = e_p s -> mv (JP2 s bc m l acc) v = vadd (mv acc v) (Sm w (nD2 s) l (fun i => all (du2 m v i))).
  Proof.
    induction l as [|i l IH]; intros acc Hl HA; cbn [JP2 fold_left Sm fold_right].
    - split; [exact HA|]. intros v Lv. rewrite vadd_zero_r; [reflexivity|]. rewrite mv_length. apply HA.
    - destruct (j1_all i (e_srcs s) (Hl i (or_introl eq_refl)) (incl_refl _)) as [M1 E1]. destruct (madd2_ok _ _ acc _ HA M1) as [M2 E2].
      destruct (IH _ (fun j h => Hl j (or_intror h)) M2) as [M3 E3]. split; [exact M3|]. intros v Lv. unfold JP2 in E3. rewrite E3, E2, E1 by exact Lv. fold (all (du2 m v i)).
      assert (LA : forall i, length (all (du2 m v i)) = nD2 s) by (intros; apply all_len; intros; apply du_len; assumption). pose proof (LA i).
      fold (Sm w (nD2 s) l (fun i => all (du2 m v i))). assert (LS : length (Sm w (nD2 s) l (fun i => all (du2 m v i))) = nD2 s) by (apply Sm_len; intros; apply LA).
      pose proof (proj1 HA) as L0. assert (length (mv acc v) = nD2 s) by ln. vext (nD2 s). ring.
  Qed.
  Lemma JJ_ok : is_mat (nD2 s) (e_p s) (JJ s bc m) /\ forall v, length v = e_p s -> mv (JJ s bc m) v = Sm w (nD2 s) (ks_idx s) (fun i => all (du2 m v i)).
  Proof.
    assert (Z : is_mat (nD2 s) (e_p s) (repeat (vzero (e_p s)) (nD2 s))).
    { split; [apply repeat_length|]. apply Forall_forall. intros x Hx. apply repeat_spec in Hx. subst x. apply vzero_length. }
    destruct (JP2_ok (ks_idx s) _ (ks_lt s) Z) as [M E]. split; [exact M|]. intros v Lv. unfold JJ. rewrite E by exact Lv.
    assert (LA : forall i, length (all (du2 m v i)) = nD2 s) by (intros; apply all_len; intros; apply du_len; assumption).
    assert (LS : length (Sm w (nD2 s) (ks_idx s) (fun i => all (du2 m v i))) = nD2 s) by (apply Sm_len; intros; apply LA).
    replace (mv (repeat (vzero (e_p s)) (nD2 s)) v) with (vzero (nD2 s)).
    - rewrite vadd_zero_l; [reflexivity|exact LS].
    - unfold mv. clear. induction (nD2 s) as [|k IH]; [reflexivity|]. cbn [repeat map]. rewrite dot_zero_l. cbn. f_equal. exact IH.
  Qed.
End Data.
