(** Proofs about sensitivity weights. *)
From Coq Require Import Lra Permutation.
From Verif Require Import Py Vec SensW SpecSensW.
Local Open Scope R_scope.

Lemma fold_max_spec r : forall x, In (fold_left Rmax r x) (x :: r) /\ forall y, In y (x :: r) -> y <= fold_left Rmax r x.
Proof.
  induction r as [|a r IH]; intros x; cbn [fold_left]; [cbn; split; [auto|intros y [->|[]]; lra]|].
  destruct (IH (Rmax x a)) as [H1 H2]. split.
  - destruct H1 as [H1|H1]; [|right; right; exact H1]. rewrite <- H1. unfold Rmax. destruct (Rle_dec x a); cbn; auto.
  - assert (HM : Rmax x a <= fold_left Rmax r (Rmax x a)) by (apply H2; left; reflexivity).
    pose proof (Rmax_l x a). pose proof (Rmax_r x a). intros y [<-|[<-|Hy]]; [lra|lra|]. apply H2. right. exact Hy.
Qed.
Lemma fold_min_spec r : forall x, In (fold_left Rmin r x) (x :: r) /\ forall y, In y (x :: r) -> fold_left Rmin r x <= y.
Proof.
  induction r as [|a r IH]; intros x; cbn [fold_left]; [cbn; split; [auto|intros y [->|[]]; lra]|].
  destruct (IH (Rmin x a)) as [H1 H2]. split.
  - destruct H1 as [H1|H1]; [|right; right; exact H1]. rewrite <- H1. unfold Rmin. destruct (Rle_dec x a); cbn; auto.
  - assert (HM : fold_left Rmin r (Rmin x a) <= Rmin x a) by (apply H2; left; reflexivity).
    pose proof (Rmin_l x a). pose proof (Rmin_r x a). intros y [<-|[<-|Hy]]; [lra|lra|]. apply H2. right. exact Hy.
Qed.
Lemma vmax_greatest v : v <> [] -> greatest v (vmax v).
Proof. destruct v as [|x r]; [congruence|]. intros _. apply fold_max_spec. Qed.
Lemma vmin_least v : v <> [] -> least v (vmin v).
Proof. destruct v as [|x r]; [congruence|]. intros _. apply fold_min_spec. Qed.
Lemma insert_perm x l : Permutation (insert x l) (x :: l).
Proof.
  induction l as [|y l IH]; cbn; [reflexivity|]. destruct (Rle_dec x y); [reflexivity|]. rewrite IH. apply perm_swap.
Qed.
Lemma rsort_perm l : Permutation (rsort l) l.
Proof. induction l as [|x l IH]; cbn; [reflexivity|]. rewrite insert_perm, IH. reflexivity. Qed.
Lemma int_part_bounds h n : 0 <= h -> h <= INR n -> (Z.to_nat (Int_part h) <= n)%nat /\ 0 <= h - INR (Z.to_nat (Int_part h)) < 1.
Proof.
  intros H0 H1. destruct (base_Int_part h) as [B1 B2]. assert (Z0 : (0 <= Int_part h)%Z).
  { apply Z.lt_pred_le. apply lt_IZR. change (Z.pred 0) with (-1)%Z. cbn. lra. }
  rewrite INR_IZR_INZ, Z2Nat.id by assumption. split; [|lra].
  apply Nat2Z.inj_le. rewrite Z2Nat.id by assumption. apply le_IZR. rewrite <- INR_IZR_INZ. lra.
Qed.
Lemma percentile_range v q : v <> [] -> 0 <= q <= 100 -> exists c, percentile v q = Ok c /\ vmin v <= c <= vmax v.
Proof.
  intros Hv Hq. unfold percentile. destruct (Rlt_dec q 0) as [G|_]; [lra|]. destruct (Rlt_dec 100 q) as [G|_]; [lra|]. eexists. split; [reflexivity|].
  set (n := (length v - 1)%nat). set (h := q / 100 * INR n). assert (Hn : (n < length v)%nat) by (unfold n; destruct v; [congruence|cbn; lia]).
  pose proof (pos_INR n) as Pn. assert (H0 : 0 <= h) by (unfold h; apply Rmult_le_pos; lra). assert (H1 : h <= INR n) by (unfold h; nra).
  destruct (int_part_bounds h n H0 H1) as [L F]. set (lo := Z.to_nat (Int_part h)) in *.
  assert (In' : forall i, (i <= n)%nat -> In (nth i (rsort v) 0) v).
  { intros i Hi. apply Permutation_in with (rsort v); [apply rsort_perm|]. apply nth_In. rewrite (Permutation_length (rsort_perm v)). lia. }
  pose proof (In' lo L) as A. pose proof (In' (Nat.min (S lo) n) ltac:(lia)) as B.
  destruct (vmax_greatest v Hv) as [_ M]. destruct (vmin_least v Hv) as [_ m]. pose proof (M _ A). pose proof (M _ B). pose proof (m _ A). pose proof (m _ B).
  set (a := nth lo (rsort v) 0) in *. set (b := nth _ (rsort v) 0) in *. set (f := h - INR lo) in *. split; nra.
Qed.
Lemma clip_spec c v y : In y (clip_min c v) -> c <= y /\ (y = c \/ In y v).
Proof. unfold clip_min. intros H. apply in_map_iff in H as (x & <- & Hx). destruct (Rlt_dec x c); [lra|split; [lra|auto]]. Qed.
Lemma nonempty_max w : some_sensitivity w -> w <> [] /\ 0 < vmax w.
Proof.
  intros [H (x & Hx & P)]. assert (w <> []) by (intros ->; destruct Hx). split; [assumption|]. destruct (vmax_greatest w H0) as [_ M]. specialize (M x Hx). lra.
Qed.
Lemma map_nonempty {A B} (f : A -> B) l : l <> [] -> map f l <> [].
Proof. destruct l; cbn; congruence. Qed.
(** A monotone map of the array maps its maximum to the maximum, and likewise the minimum. *)
Lemma vmax_mono f w : w <> [] -> (forall x y, In x w -> In y w -> x <= y -> f x <= f y) -> vmax (map f w) = f (vmax w).
Proof.
  intros Hw Hf. destruct (vmax_greatest w Hw) as [A B]. destruct (vmax_greatest (map f w) (map_nonempty f w Hw)) as [C D].
  apply Rle_antisym; [|apply D, in_map, A]. apply in_map_iff in C as (x & E & Hx). rewrite <- E. apply Hf; auto.
Qed.
Lemma vmin_mono f w : w <> [] -> (forall x y, In x w -> In y w -> x <= y -> f x <= f y) -> vmin (map f w) = f (vmin w).
Proof.
  intros Hw Hf. destruct (vmin_least w Hw) as [A B]. destruct (vmin_least (map f w) (map_nonempty f w Hw)) as [C D].
  apply Rle_antisym; [apply D, in_map, A|]. apply in_map_iff in C as (x & E & Hx). rewrite <- E. apply Hf; auto.
Qed.
(** What a threshold does to one entry. *)
Definition tfun (meth : tmeth) (t : R) (w : vec) (f : R -> R) : Prop :=
  threshold meth t w = Ok (map f w) /\ (forall x y, x <= y -> f x <= f y) /\ (forall x, 0 <= x -> x <= f x) /\
  match meth with
  | Global => forall x, f x = x + t
  | Percentile => f (vmax w) = vmax w
  | Amplitude => (forall x, In x w -> t * vmax w <= f x) /\ (t <= 1 -> f (vmax w) = vmax w) /\ (1 <= t -> forall x, In x w -> f x = t * vmax w)
  end.
Lemma threshold_ok meth t w : some_sensitivity w -> usable meth t -> exists f, tfun meth t w f.
Proof.
  intros Hw [Ht Hp]. destruct (nonempty_max w Hw) as [Hn Pm]. destruct meth.
  - exists (fun x => x + t). repeat split; intros; lra.
  - destruct (percentile_range w t Hn) as (c & E & B); [split; [assumption|apply Hp; reflexivity]|].
    exists (fun x => if Rlt_dec x c then c else x). unfold tfun. cbn [threshold]. rewrite E. cbn [bind]. split; [reflexivity|]. split; [|split].
    + intros x y H. destruct (Rlt_dec x c), (Rlt_dec y c); lra.
    + intros x H. destruct (Rlt_dec x c); lra.
    + destruct (Rlt_dec (vmax w) c); [lra|reflexivity].
  - exists (fun x => if Rlt_dec x (t * vmax w) then t * vmax w else x). unfold tfun. cbn [threshold]. destruct (length w) eqn:El; [destruct w; [congruence|discriminate]|]. cbn [Nat.eqb].
    split; [reflexivity|]. destruct (vmax_greatest w Hn) as [_ M]. split; [|split; [|split; [|split]]].
    + intros x y H. destruct (Rlt_dec x (t * vmax w)), (Rlt_dec y (t * vmax w)); lra.
    + intros x H. destruct (Rlt_dec x (t * vmax w)); lra.
    + intros x _. destruct (Rlt_dec x (t * vmax w)); lra.
    + intros H1. destruct (Rlt_dec (vmax w) (t * vmax w)); [nra|reflexivity].
    + intros H1 x Hx. specialize (M x Hx). destruct (Rlt_dec x (t * vmax w)); [reflexivity|nra].
Qed.
Lemma length_ne {A} (l : list A) : l <> [] -> Nat.eqb (length l) 0 = false.
Proof. destruct l; cbn; congruence. Qed.
Lemma div_le_1 x m : 0 < m -> x <= m -> x / m <= 1.
Proof. intros P H. apply Rmult_le_reg_r with m; [exact P|]. unfold Rdiv. rewrite Rmult_assoc, Rinv_l by lra. lra. Qed.
Lemma div_le_mono x y m : 0 < m -> x <= y -> x / m <= y / m.
Proof. intros P H. unfold Rdiv. apply Rmult_le_compat_r; [left; apply Rinv_0_lt_compat, P|exact H]. Qed.
(** Maximum normalisation. *)
Lemma max_normal meth t w : some_sensitivity w -> usable meth t -> exists f, tfun meth t w f /\ 0 < f (vmax w) /\
  finish_weights meth t NMax w = Ok (Some (map (fun x => f x / f (vmax w)) w)).
Proof.
  intros Hw Hu. destruct (threshold_ok meth t w Hw Hu) as (f & Tf). exists f. split; [exact Tf|]. destruct Tf as (E & Mono & Ge & _). destruct (nonempty_max w Hw) as [Hn Pm].
  assert (P : 0 < f (vmax w)) by (specialize (Ge (vmax w)); lra). split; [exact P|].
  unfold finish_weights. rewrite E. cbn [bind normalise]. rewrite (length_ne (map f w)) by (apply map_nonempty, Hn).
  rewrite (vmax_mono f w Hn) by (intros; apply Mono; assumption). destruct (Req_EM_T (f (vmax w)) 0); [lra|]. rewrite map_map. reflexivity.
Qed.
Lemma max_range meth t w : some_sensitivity w -> usable meth t -> exists v, finish_weights meth t NMax w = Ok (Some v) /\ length v = length w /\
  greatest v 1 /\ (forall x, In x v -> 0 <= x) /\ (meth = Amplitude -> forall x, In x v -> Rmin t 1 <= x).
Proof.
  intros Hw Hu. destruct (max_normal meth t w Hw Hu) as (f & (_ & Mono & Ge & Am) & P & E). exists (map (fun x => f x / f (vmax w)) w). split; [exact E|].
  split; [apply map_length|]. destruct (nonempty_max w Hw) as [Hn Pm]. destruct (vmax_greatest w Hn) as [A B]. destruct Hw as [H0 _]. split; [split|split].
  - apply in_map_iff. exists (vmax w). split; [field; lra|exact A].
  - intros y Hy. apply in_map_iff in Hy as (x & <- & Hx). apply div_le_1; [exact P|]. apply Mono, B, Hx.
  - intros y Hy. apply in_map_iff in Hy as (x & <- & Hx). unfold Rdiv. apply Rmult_le_pos; [|left; apply Rinv_0_lt_compat, P]. specialize (Ge x (H0 x Hx)). specialize (H0 x Hx). lra.
  - intros -> y Hy. apply in_map_iff in Hy as (x & <- & Hx). destruct Am as (A1 & A2 & A3). destruct (Rle_dec t 1) as [L|L].
    + rewrite Rmin_left by exact L. rewrite A2 by exact L. specialize (A1 x Hx). apply Rmult_le_reg_r with (vmax w); [lra|]. unfold Rdiv. rewrite Rmult_assoc, Rinv_l by lra. lra.
    + rewrite Rmin_right by lra. rewrite (A3 ltac:(lra) x Hx), (A3 ltac:(lra) _ A). right. field. destruct Hu. nra.
Qed.
Lemma order_kept meth t w nm v i j : some_sensitivity w -> usable meth t -> finish_weights meth t nm w = Ok (Some v) ->
  (i < length w)%nat -> (j < length w)%nat -> nth i w 0 <= nth j w 0 -> nth i v 0 <= nth j v 0.
Proof.
  intros Hw Hu E Hi Hj H. destruct (threshold_ok meth t w Hw Hu) as (f & Et & Mono & Ge & _). unfold finish_weights in E. rewrite Et in E. cbn [bind] in E.
  destruct (nonempty_max w Hw) as [Hn Pm]. pose proof (map_nonempty f w Hn) as Hm. destruct nm; cbn [normalise] in E; rewrite ?(length_ne _ Hm) in E.
  - destruct (Req_EM_T (vmax (map f w)) 0); [discriminate|]. injection E as <-. rewrite !map_map, !map_nth_lt by assumption. apply div_le_mono; [|apply Mono, H].
    rewrite (vmax_mono f w Hn) by (intros; apply Mono; assumption). specialize (Ge (vmax w)). lra.
  - destruct (Req_EM_T (vmin (map f w)) 0) as [|Z]; [discriminate|]. injection E as <-. rewrite !map_map, !map_nth_lt by assumption. apply div_le_mono; [|apply Mono, H].
    rewrite (vmin_mono f w Hn) in * by (intros; apply Mono; assumption). destruct (vmin_least w Hn) as [A _]. destruct Hw as [H0 _]. specialize (H0 _ A). specialize (Ge _ H0). lra.
  - injection E as <-. rewrite !map_nth_lt by assumption. apply Mono, H.
Qed.
(** Minimum normalisation, and positivity, when the threshold is positive. *)
Lemma threshold_pos meth t w : some_sensitivity w -> 0 < t -> meth <> Percentile -> exists f, tfun meth t w f /\ forall x, In x w -> 0 < f x.
Proof.
  intros Hw Ht Hp. assert (Hu : usable meth t) by (split; [lra|congruence]). destruct (threshold_ok meth t w Hw Hu) as (f & Tf). exists f. split; [exact Tf|].
  destruct Tf as (_ & _ & Ge & Am). destruct (nonempty_max w Hw) as [_ P]. destruct Hw as [H0 _]. intros x Hx. specialize (H0 x Hx). destruct meth; [rewrite Am; lra|congruence|]. destruct Am as (A1 & _). specialize (A1 x Hx). nra.
Qed.
Lemma min_range meth t w : some_sensitivity w -> 0 < t -> meth <> Percentile -> exists v, finish_weights meth t NMin w = Ok (Some v) /\ length v = length w /\ least v 1.
Proof.
  intros Hw Ht Hp. destruct (threshold_pos meth t w Hw Ht Hp) as (f & (E & Mono & _) & P). destruct (nonempty_max w Hw) as [Hn Pm]. destruct (vmin_least w Hn) as [A B].
  exists (map (fun x => f x / f (vmin w)) w). unfold finish_weights. rewrite E. cbn [bind normalise]. rewrite (length_ne (map f w)) by (apply map_nonempty, Hn).
  rewrite (vmin_mono f w Hn) by (intros; apply Mono; assumption). pose proof (P _ A) as Q. destruct (Req_EM_T (f (vmin w)) 0); [lra|]. rewrite map_map. split; [reflexivity|].
  split; [apply map_length|]. split.
  - apply in_map_iff. exists (vmin w). split; [field; lra|exact A].
  - intros y Hy. apply in_map_iff in Hy as (x & <- & Hx). apply Rmult_le_reg_r with (f (vmin w)); [exact Q|]. unfold Rdiv. rewrite Rmult_assoc, Rinv_l by lra. specialize (Mono _ _ (B x Hx)). lra.
Qed.
Lemma all_positive meth t nm w : some_sensitivity w -> 0 < t -> meth <> Percentile -> exists v, finish_weights meth t nm w = Ok (Some v) /\ forall x, In x v -> 0 < x.
Proof.
  intros Hw Ht Hp. destruct (threshold_pos meth t w Hw Ht Hp) as (f & (E & Mono & _) & P). destruct (nonempty_max w Hw) as [Hn Pm]. destruct (vmin_least w Hn) as [A _]. destruct (vmax_greatest w Hn) as [A' _].
  unfold finish_weights. rewrite E. cbn [bind]. destruct nm; cbn [normalise]; rewrite ?(length_ne (map f w)) by (apply map_nonempty, Hn).
  - rewrite (vmax_mono f w Hn) by (intros; apply Mono; assumption). pose proof (P _ A'). destruct (Req_EM_T (f (vmax w)) 0); [lra|]. eexists; split; [reflexivity|].
    rewrite map_map. intros y Hy. apply in_map_iff in Hy as (x & <- & Hx). apply Rdiv_lt_0_compat; auto.
  - rewrite (vmin_mono f w Hn) by (intros; apply Mono; assumption). pose proof (P _ A). destruct (Req_EM_T (f (vmin w)) 0); [lra|]. eexists; split; [reflexivity|].
    rewrite map_map. intros y Hy. apply in_map_iff in Hy as (x & <- & Hx). apply Rdiv_lt_0_compat; auto.
  - eexists; split; [reflexivity|]. intros y Hy. apply in_map_iff in Hy as (x & <- & Hx). auto.
Qed.
(** ** Raw weights *)
Lemma colsq_nth n M j : (j < n)%nat -> nth j (colsq n M) 0 = vsum (map (fun r => nth j r 0 ^ 2) M).
Proof.
  intros H. unfold colsq. erewrite nth_indep by (rewrite map_length, seq_length; exact H). rewrite (map_nth (fun j => vsum (map (fun r => nth j r 0 * nth j r 0) M)) (seq 0 n) O j).
  rewrite seq_nth by exact H. cbn [plus]. f_equal. apply map_ext. intros r. ring.
Qed.
Lemma diag_len n s : sens_len n s -> length (sens_diag n s) = n.
Proof. destruct s; cbn; [auto|]. intros _. unfold colsq. rewrite map_length, seq_length. reflexivity. Qed.
Lemma jtj_nth n l j : Forall (sens_len n) l -> (j < n)%nat -> length (jtj n l) = n /\ nth j (jtj n l) 0 = diag_at l j.
Proof.
  intros Hl Hj. unfold jtj. assert (G : forall a, length a = n -> length (fold_left (fun a s => vadd a (sens_diag n s)) l a) = n /\
    nth j (fold_left (fun a s => vadd a (sens_diag n s)) l a) 0 = nth j a 0 + diag_at l j).
  { induction Hl as [|s l Hs Hl IH]; intros a La; cbn [fold_left]; [split; [assumption|cbn; lra]|]. pose proof (diag_len n s Hs) as Ls.
    destruct (IH (vadd a (sens_diag n s))) as [I1 I2]; [rewrite vadd_length; congruence|]. split; [exact I1|]. rewrite I2. unfold vadd. rewrite zipw_nth by (rewrite ?La; congruence || exact Hj).
    destruct s as [d|M]; cbn [sens_diag diag_at]; [lra|]. rewrite colsq_nth by exact Hj. lra. }
  destruct (G (vzero n) (vzero_length n)) as [G1 G2]. split; [exact G1|]. rewrite G2. unfold vzero, vconst. rewrite nth_repeat. lra.
Qed.
Lemma by_volume_nth vol v w i : by_volume vol v = Ok w -> (i < length v)%nat -> length w = length v /\ nth i w 0 = nth i v 0 / nth (i mod length vol) vol 0 ^ 2.
Proof.
  unfold by_volume. destruct (Nat.eqb _ 0); [|discriminate]. intros [= <-] Hi. assert (L : length (combine (seq 0 (length v)) v) = length v) by (rewrite combine_length, seq_length; lia).
  split; [rewrite map_length; exact L|].
  rewrite (nth_indep _ 0 ((fun p => snd p / nth (fst p mod length vol) vol 0 ^ 2) (O, 0))) by (rewrite map_length, L; exact Hi).
  rewrite (map_nth (fun p : nat * R => snd p / nth (fst p mod length vol) vol 0 ^ 2)), combine_nth by apply seq_length. cbn [fst snd]. rewrite seq_nth by exact Hi. reflexivity.
Qed.
Lemma by_volume_len vol v w : by_volume vol v = Ok w -> length w = length v.
Proof. unfold by_volume. destruct (Nat.eqb _ 0); [|discriminate]. intros [= <-]. rewrite map_length, combine_length, seq_length. lia. Qed.
Lemma projT_nth n idx w j : (j < n)%nat -> nth j (projT n idx w) 0 = vsum (map (fun p => if Nat.eqb (fst p) j then snd p else 0) (combine idx w)).
Proof.
  intros H. unfold projT. set (g := fun j => vsum _). erewrite nth_indep by (rewrite map_length, seq_length; exact H). rewrite (map_nth g (seq 0 n) O j), seq_nth by exact H. reflexivity.
Qed.
Lemma projT_none idx w j : ~ In j idx -> vsum (map (fun p : nat * R => if Nat.eqb (fst p) j then snd p else 0) (combine idx w)) = 0.
Proof.
  revert w; induction idx as [|k idx IH]; intros [|x w] H; cbn; try reflexivity. destruct (Nat.eqb_spec k j); [exfalso; apply H; left; assumption|]. rewrite IH; [lra|]. intros H'; apply H; right; assumption.
Qed.
Lemma projT_own idx : forall w i j, NoDup idx -> nth_error idx i = Some j -> length w = length idx ->
  vsum (map (fun p : nat * R => if Nat.eqb (fst p) j then snd p else 0) (combine idx w)) = nth i w 0.
Proof.
  induction idx as [|k idx IH]; intros [|x w] i j Hd Hi Hl; try discriminate; [destruct i; discriminate|]. inversion Hd as [|? ? Hk Hd']; subst. destruct i as [|i]; cbn in Hi |- *.
  - injection Hi as ->. rewrite Nat.eqb_refl, projT_none by assumption. lra.
  - destruct (Nat.eqb_spec k j) as [->|]; [exfalso; apply Hk; eapply nth_error_In; eassumption|]. rewrite (IH w i j Hd' Hi) by (cbn in Hl; congruence). lra.
Qed.
Lemma projT_length n idx w : length (projT n idx w) = n.
Proof. unfold projT. rewrite map_length, seq_length. reflexivity. Qed.
Lemma add_err n jj regs e : fold_left (add_reg n jj) regs (Err e) = Err e.
Proof. induction regs; cbn; [reflexivity|assumption]. Qed.
Lemma regs_none n jj j : (j < n)%nat -> forall regs a w, (forall r, In (Some r) regs -> ~ In j (r_idx r)) -> length a = n ->
  fold_left (add_reg n jj) regs (Ok a) = Ok w -> length w = n /\ nth j w 0 = nth j a 0.
Proof.
  intros Hj regs. induction regs as [|[r|] regs IH]; intros a w Hn La H; cbn [fold_left add_reg bind] in H.
  - injection H as <-. auto.
  - destruct (by_volume _ _) as [x|e] eqn:E; [|cbn [bind] in H; rewrite add_err in H; discriminate]. cbn [bind] in H.
    destruct (IH (vadd a (projT n (r_idx r) x)) w) as [I1 I2]; [intros q Hq; apply Hn; right; exact Hq|rewrite vadd_length; [exact La|rewrite projT_length; exact La]|exact H|].
    split; [exact I1|]. rewrite I2. unfold vadd. rewrite zipw_nth by (rewrite ?La, ?projT_length; reflexivity || exact Hj). rewrite projT_nth, projT_none by (exact Hj || apply Hn; left; reflexivity). lra.
  - apply (IH a w); [intros q Hq; apply Hn; right; exact Hq|exact La|exact H].
Qed.
Lemma proj_nth idx v i j : nth_error idx i = Some j -> nth i (proj idx v) 0 = nth j v 0.
Proof. revert i; induction idx as [|k idx IH]; intros [|i] H; cbn in *; try discriminate; [injection H as ->; reflexivity|apply IH, H]. Qed.
Lemma raw_ok n l regs1 r regs2 w i j : Forall (sens_len n) l -> (j < n)%nat -> owns r i j -> 0 < nth (i mod length (r_vol r)) (r_vol r) 0 ->
  (forall q, In (Some q) (regs1 ++ regs2) -> ~ In j (r_idx q)) ->
  raw_weights n l (regs1 ++ Some r :: regs2) = Ok w -> nth j w 0 = sqrt (diag_at l j) / nth (i mod length (r_vol r)) (r_vol r) 0.
Proof.
  intros Hl Hj [Ho Hd] Hv Hq H. unfold raw_weights in H. rewrite fold_left_app in H. destruct (jtj_nth n l j Hl Hj) as [Lj Dj].
  destruct (fold_left (add_reg n (jtj n l)) regs1 (Ok (vzero n))) as [a|e] eqn:E1; [|cbn [fold_left add_reg bind] in H; rewrite add_err in H; discriminate].
  apply (regs_none n (jtj n l) j Hj) in E1 as [La Na]; [|intros q Hi; apply Hq, in_or_app; left; exact Hi|apply vzero_length].
  cbn [fold_left add_reg bind] in H. destruct (by_volume _ _) as [x|e] eqn:E; [|cbn [bind] in H; rewrite add_err in H; discriminate]. cbn [bind] in H.
  destruct (fold_left _ regs2 _) as [b|e] eqn:E2; [|discriminate]. cbn [bind] in H. injection H as <-.
  assert (Lp : length (proj (r_idx r) (jtj n l)) = length (r_idx r)) by apply map_length.
  assert (Hi : (i < length (proj (r_idx r) (jtj n l)))%nat) by (rewrite Lp; apply nth_error_Some; congruence).
  destruct (by_volume_nth _ _ _ i E Hi) as [Lx Nx].
  apply (regs_none n (jtj n l) j Hj) in E2 as [Lb Nb]; [|intros q Hi'; apply Hq, in_or_app; right; exact Hi'|rewrite vadd_length; [exact La|rewrite projT_length; exact La]].
  rewrite map_nth_lt by (rewrite Lb; exact Hj). rewrite Nb. unfold vadd. rewrite zipw_nth by (rewrite ?La, ?projT_length; reflexivity || exact Hj).
  rewrite Na, projT_nth by exact Hj. unfold vzero, vconst. rewrite nth_repeat. rewrite (projT_own (r_idx r) x i j Hd Ho) by congruence. rewrite Nx, (proj_nth _ _ _ j Ho), Dj.
  set (v := nth (i mod _) _ _) in *. rewrite Rplus_0_l.
  destruct (Rle_dec 0 (diag_at l j)) as [P|P].
  - rewrite sqrt_div_alt by (apply pow_lt, Hv). f_equal. replace (v ^ 2) with (Rsqr v) by (unfold Rsqr; ring). apply sqrt_Rsqr. lra.
  - rewrite !sqrt_neg_0; [unfold Rdiv; ring|lra|]. apply Rmult_le_reg_r with (v ^ 2); [apply pow_lt, Hv|]. unfold Rdiv. rewrite Rmult_assoc, Rinv_l by (apply pow_nonzero; lra). lra.
Qed.
