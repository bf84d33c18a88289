From Verif Require Import Py Vec VecDeriv Optim OptimFacts Bfgs SpecBfgs.
Local Open Scope R_scope.

Section Rec.
  Context (N : nat) (H0 : vec -> vec).
  Hypothesis H0_len : forall d, length d = N -> length (H0 d) = N.
  Hypothesis H0_sym : forall u v, length u = N -> length v = N -> dot u (H0 v) = dot v (H0 u).
  Hypothesis H0_pos : forall u, length u = N -> u <> vzero N -> 0 < dot u (H0 u).
  Hypothesis H0_lin : forall a u v, length u = N -> length v = N -> H0 (vadd u (vscale a v)) = vadd (H0 u) (vscale a (H0 v)).
  Context (S Y : list vec) (n nn : nat).
  Definition khat (k : nat) : nat := if Nat.eqb nn 0 then 0%nat else ((n - nn + k) mod nn)%nat.
  Definition good_cols (K : nat) := forall k, (k < K)%nat ->
    length (col S (khat k)) = N /\ length (col Y (khat k)) = N /\ 0 < dot (col Y (khat k)) (col S (khat k)).
  Notation B := (bfgsrec H0 S Y n nn).

  Lemma bfgsrec_length K : good_cols K -> forall d, length d = N -> length (B K d) = N.
  Proof.
    induction K as [|k IH]; intros HG d Ld; [apply H0_len; assumption|].
    cbn [bfgsrec]. fold (khat k). destruct (HG k ltac:(lia)) as (Ls & Ly & _).
    assert (HG' : good_cols k) by (intros j Hj; apply HG; lia).
    assert (L1 : length (vsub d (vscale (dot (col S (khat k)) d / dot (col Y (khat k)) (col S (khat k))) (col Y (khat k)))) = N)
      by (rewrite vsub_length; rewrite ?vscale_length; congruence).
    rewrite vadd_length; [apply IH; assumption|]. rewrite vscale_length, IH; auto.
  Qed.
  Lemma bfgsrec_form k : good_cols (Datatypes.S k) -> forall u v, length u = N -> length v = N ->
    let s := col S (khat k) in let y := col Y (khat k) in
    let gu := dot s u / dot y s in let gv := dot s v / dot y s in
    dot u (B (Datatypes.S k) v) = dot (vsub u (vscale gu y)) (B k (vsub v (vscale gv y))) + gu * gv * dot y s.
  Proof.
    intros HG u v Lu Lv s y gu gv. destruct (HG k ltac:(lia)) as (Ls & Ly & Hpos).
    assert (HG' : good_cols k) by (intros j Hj; apply HG; lia).
    cbn [bfgsrec]. fold (khat k). fold s y. fold gv.
    fold s in Ls, Hpos. fold y in Ly, Hpos.
    assert (Lv1 : length (vsub v (vscale gv y)) = N) by (rewrite vsub_length; rewrite ?vscale_length; congruence).
    set (d2 := B k (vsub v (vscale gv y))).
    assert (L2 : length d2 = N) by (apply bfgsrec_length; assumption).
    rewrite dot_vadd_r, dot_vscale_r by (rewrite vscale_length; congruence).
    rewrite dot_vsub_l, dot_vscale_l by (rewrite vscale_length; congruence).
    assert (E : dot u s = gu * dot y s). { unfold gu. rewrite (dot_comm u s). field. lra. }
    rewrite E. field. lra.
  Qed.
  Lemma bfgsrec_sym K : good_cols K -> forall u v, length u = N -> length v = N -> dot u (B K v) = dot v (B K u).
  Proof.
    induction K as [|k IH]; intros HG u v Lu Lv; [apply H0_sym; assumption|].
    destruct (HG k ltac:(lia)) as (Ls & Ly & Hpos).
    rewrite !bfgsrec_form by assumption. rewrite IH; [ring| | |].
    - intros j Hj; apply HG; lia.
    - rewrite vsub_length; rewrite ?vscale_length; congruence.
    - rewrite vsub_length; rewrite ?vscale_length; congruence.
  Qed.
  Lemma bfgsrec_pos K : good_cols K -> forall u, length u = N -> u <> vzero N -> 0 < dot u (B K u).
  Proof.
    induction K as [|k IH]; intros HG u Lu Hu; [apply H0_pos; assumption|].
    destruct (HG k ltac:(lia)) as (Ls & Ly & Hpos).
    assert (HG' : good_cols k) by (intros j Hj; apply HG; lia).
    rewrite bfgsrec_form by assumption.
    set (s := col S (khat k)) in *. set (y := col Y (khat k)) in *. set (g := dot s u / dot y s).
    assert (L1 : length (vsub u (vscale g y)) = N) by (rewrite vsub_length; rewrite ?vscale_length; congruence).
    destruct (list_eq_dec Req_EM_T (vsub u (vscale g y)) (vzero N)) as [Ez|Hz].
    - (* u = g y, so g <> 0 *)
      assert (Hg : g <> 0).
      { intros Hg. rewrite Hg in Ez. apply Hu. rewrite <- Ez. rewrite vscale_0, vsub_as_add, vscale_vzero, vadd_zero_r; congruence. }
      rewrite Ez, dot_zero_l. assert (0 < g * g) by nra. nra.
    - assert (0 < dot (vsub u (vscale g y)) (B k (vsub u (vscale g y)))) by (apply IH; assumption).
      assert (0 <= g * g) by nra. nra.
  Qed.
  Lemma bfgsrec_zero K : good_cols K -> B K (vzero N) = vzero N.
  Proof.
    assert (H00 : H0 (vzero N) = vzero N).
    { assert (E := H0_lin (-1) (vzero N) (vzero N) (vzero_length N) (vzero_length N)).
      rewrite vscale_vzero, vadd_zero_r in E by apply vzero_length.
      rewrite E. apply vec_ext.
      - rewrite vadd_length; rewrite ?vscale_length, ?H0_len; auto using vzero_length.
      - intros i Hi. rewrite nth_vadd, nth_vscale, nth_zero; [ring| |].
        + revert Hi. rewrite vadd_length; rewrite ?vscale_length; auto.
        + rewrite vscale_length; reflexivity. }
    induction K as [|k IH]; intros HG; [exact H00|].
    cbn [bfgsrec]. fold (khat k). destruct (HG k ltac:(lia)) as (Ls & Ly & Hpos).
    set (s := col S (khat k)) in *. set (y := col Y (khat k)) in *.
    assert (E0 : dot s (vzero N) / dot y s = 0) by (rewrite dot_zero_r; unfold Rdiv; ring).
    rewrite E0, vscale_0, Ly, vsub_as_add, vscale_vzero, vadd_zero_r by apply vzero_length.
    rewrite IH by (intros j Hj; apply HG; lia).
    assert (E1 : 0 - dot y (vzero N) / dot y s = 0) by (rewrite dot_zero_r; unfold Rdiv; ring).
    rewrite E1, vscale_0, Ls. apply vadd_zero_r, vzero_length.
  Qed.
  Lemma bfgsrec_secant k : good_cols (Datatypes.S k) -> B (Datatypes.S k) (col Y (khat k)) = col S (khat k).
  Proof.
    intros HG. cbn [bfgsrec]. fold (khat k). destruct (HG k ltac:(lia)) as (Ls & Ly & Hpos).
    set (s := col S (khat k)) in *. set (y := col Y (khat k)) in *.
    assert (E1 : dot s y / dot y s = 1) by (rewrite (dot_comm s y); field; lra).
    rewrite E1, vscale_1.
    assert (E2 : vsub y y = vzero N).
    { apply vec_ext; [rewrite vsub_length, vzero_length; auto|]. intros i Hi. rewrite vsub_length in Hi by reflexivity.
      rewrite nth_vsub, nth_zero by auto. ring. }
    rewrite E2, bfgsrec_zero by (intros j Hj; apply HG; lia). rewrite dot_zero_r.
    unfold Rdiv. rewrite Rmult_0_l, Rminus_0_r, vscale_1, vadd_zero_l; auto.
  Qed.
End Rec.

(** ** The memory over any run of the hook *)
Definition bfgs_inv (N nb : nat) (b : bfgsst) : Prop :=
  length (bf_S b) = nb /\ length (bf_Y b) = nb /\
  forall k, (k < Nat.min nb (bf_cnt b))%nat ->
    length (col (bf_S b) k) = N /\ length (col (bf_Y b) k) = N /\ 0 < dot (col (bf_Y b) k) (col (bf_S b) k).
Lemma set_nth_length {A} (l : list A) i x : length (set_nth l i x) = length l.
Proof. revert i; induction l as [|a l IH]; intros [|i]; cbn; auto. Qed.
Lemma nth_set_nth {A} (l : list A) i j x d : (i < length l)%nat -> nth j (set_nth l i x) d = if Nat.eqb j i then x else nth j l d.
Proof.
  revert i j; induction l as [|a l IH]; intros [|i] [|j] Hi; cbn in *; try lia; auto. rewrite IH by lia. reflexivity.
Qed.
(** Events with vectors of size [N]. *)
Definition ev_ok (N : nat) (e : nat * vec * vec * vec) := let '(_, g, xc, xt) := e in length g = N /\ length xc = N /\ length xt = N.
Lemma bfgs_startup_inv N nb : bfgs_inv N nb (bfgs_startup nb N).
Proof. split; [apply repeat_length|]. split; [apply repeat_length|]. cbn. intros k Hk. rewrite Nat.min_0_r in Hk. lia. Qed.
Lemma bfgs_hook_inv N nb i g xc xt b : (0 < nb)%nat -> bfgs_inv N nb b -> (i = 0%nat \/ length (bf_glast b) = N) ->
  length g = N -> length xc = N -> length xt = N ->
  bfgs_inv N nb (bfgs_hook nb i g xc xt b) /\ bf_glast (bfgs_hook nb i g xc xt b) = g.
Proof.
  intros Hnb (LS & LY & HI) Hgl Lg Lxc Lxt. unfold bfgs_hook. destruct i as [|i]; [split; [split; auto|reflexivity]|].
  destruct Hgl as [?|Hgl]; [discriminate|].
  destruct (Rlt_dec 0 _) as [Hp|]; [|split; [split; auto|reflexivity]].
  split; [|reflexivity].
  set (kt := (bf_cnt b mod nb)%nat). assert (Hkt : (kt < nb)%nat) by (apply Nat.mod_upper_bound; lia).
  split; [rewrite <- LS; apply set_nth_length|]. split; [rewrite <- LY; apply set_nth_length|].
  cbn [bf_cnt bf_S bf_Y]. intros k Hk. unfold col. rewrite !nth_set_nth by lia.
  destruct (Nat.eqb_spec k kt) as [->|Hne].
  - rewrite !vsub_length by congruence. auto.
  - apply HI. assert (k <> bf_cnt b); [|lia]. intros ->. apply Hne. unfold kt. symmetry; apply Nat.mod_small. lia.
Qed.
Lemma bfgs_run_inv N nb evs : (0 < nb)%nat -> Forall (ev_ok N) evs ->
  (forall e evs', evs = e :: evs' -> fst (fst (fst e)) = 0%nat) ->
  bfgs_inv N nb (bfgs_run nb evs (bfgs_startup nb N)).
Proof.
  intros Hnb HF Hfirst. destruct evs as [|[[[i g] xc] xt] evs]; [apply bfgs_startup_inv|].
  specialize (Hfirst _ _ eq_refl). cbn in Hfirst. subst i. inversion HF as [|? ? Hev HF']; subst. destruct Hev as (Lg & Lxc & Lxt). subst N.
  unfold bfgs_run. cbn [fold_left].
  assert (G : forall evs b, Forall (ev_ok (length g)) evs -> bfgs_inv (length g) nb b -> length (bf_glast b) = length g ->
            bfgs_inv (length g) nb (fold_left (fun b e => let '(i, g, xc, xt) := e in bfgs_hook nb i g xc xt b) evs b)).
  { clear - Hnb. induction evs as [|[[[i h] xc] xt] evs IH]; intros b HF HI Hl; [exact HI|]. cbn [fold_left].
    inversion HF as [|? ? Hev HF']; subst. destruct Hev as (L1 & L2 & L3).
    destruct (bfgs_hook_inv (length g) nb i h xc xt b Hnb HI (or_intror Hl) L1 L2 L3) as [HI' E]. apply IH; auto. rewrite E; assumption. }
  apply G; auto.
  destruct (bfgs_hook_inv (length g) nb 0 g xc xt (bfgs_startup nb (length g)) Hnb (bfgs_startup_inv _ _) (or_introl eq_refl) eq_refl Lxc Lxt) as [HI' E]. exact HI'.
Qed.
(** All columns that [bfgs] reads have been stored. *)
Lemma bfgs_cols N nb b : (0 < nb)%nat -> bfgs_inv N nb b -> forall n, bf_cnt b = Datatypes.S n ->
  good_cols N (bf_S b) (bf_Y b) n (Nat.min nb n) (Datatypes.S (Nat.min nb n)).
Proof.
  intros Hnb (_ & _ & HI) n En k Hk. apply HI. rewrite En. unfold khat.
  destruct (Nat.eqb_spec (Nat.min nb n) 0) as [E|E]; [lia|].
  assert ((n - Nat.min nb n + k) mod Nat.min nb n < Nat.min nb n)%nat by (apply Nat.mod_upper_bound; lia). lia.
Qed.

Section Top.
  Context (N nb : nat) (H0 : vec -> vec) (Hnb : (0 < nb)%nat).
  Hypothesis H0_len : forall d, length d = N -> length (H0 d) = N.
  Hypothesis H0_sym : forall u v, length u = N -> length v = N -> dot u (H0 v) = dot v (H0 u).
  Hypothesis H0_pos : forall u, length u = N -> u <> vzero N -> 0 < dot u (H0 u).
  Context (evs : list (nat * vec * vec * vec)).
  Hypothesis Hevs : Forall (ev_ok N) evs.
  Hypothesis Hfirst : forall e evs', evs = e :: evs' -> fst (fst (fst e)) = 0%nat.
  Notation b := (bfgs_run nb evs (bfgs_startup nb N)).
  Lemma bfgs_spd :
    (forall u v, length u = N -> length v = N -> dot u (bfgs H0 nb b v) = dot v (bfgs H0 nb b u)) /\
    (forall u, length u = N -> u <> vzero N -> 0 < dot u (bfgs H0 nb b u)) /\
    (forall u, length u = N -> length (bfgs H0 nb b u) = N).
  Proof.
    pose proof (bfgs_run_inv N nb evs Hnb Hevs Hfirst) as HI. unfold bfgs.
    destruct (bf_cnt b) as [|n] eqn:En; [auto|].
    pose proof (bfgs_cols N nb b Hnb HI n En) as HG.
    split; [|split]; intros.
    - apply (bfgsrec_sym N H0 H0_len H0_sym); assumption.
    - apply (bfgsrec_pos N H0 H0_len H0_pos); assumption.
    - apply (bfgsrec_length N H0 H0_len); assumption.
  Qed.
  Lemma vopp_nonzero g : length g = N -> g <> vzero N -> vopp g <> vzero N.
  Proof.
    intros Lg Hg E. apply Hg. apply (f_equal (vscale (-1))) in E. rewrite vopp_scale, vscale_vscale, vscale_vzero in E.
    replace (-1 * -1) with 1 in E by ring. rewrite vscale_1 in E. exact E.
  Qed.
  Lemma bfgs_descent g : length g = N -> g <> vzero N -> dot g (bfgs_direction H0 nb b g) < 0.
  Proof.
    intros Lg Hg. unfold bfgs_direction. destruct bfgs_spd as (_ & Hp & _).
    assert (Lo : length (vopp g) = N) by (rewrite vopp_length; assumption).
    pose proof (Hp (vopp g) Lo (vopp_nonzero g Lg Hg)) as H.
    rewrite dot_vopp_l in H. lra.
  Qed.
  Hypothesis H0_lin : forall a u v, length u = N -> length v = N -> H0 (vadd u (vscale a v)) = vadd (H0 u) (vscale a (H0 v)).
  (** Once the memory is full the latest pair satisfies the secant equation. *)
  Lemma bfgs_secant_full n : bf_cnt b = Datatypes.S n -> (n = 0 \/ nb <= n)%nat ->
    bfgs H0 nb b (col (bf_Y b) (n mod nb)) = col (bf_S b) (n mod nb).
  Proof.
    intros En Hn. pose proof (bfgs_run_inv N nb evs Hnb Hevs Hfirst) as HI.
    pose proof (bfgs_cols N nb b Hnb HI n En) as HG. unfold bfgs. rewrite En.
    assert (E : khat n (Nat.min nb n) (Nat.min nb n) = (n mod nb)%nat).
    { unfold khat. destruct (Nat.eqb_spec (Nat.min nb n) 0) as [Ez|Ez].
      - assert (n = 0%nat) by lia. subst n. rewrite Nat.mod_0_l; lia.
      - rewrite Nat.min_l by lia. f_equal. lia. }
    rewrite <- E. apply (bfgsrec_secant N H0 H0_len H0_lin). exact HG.
  Qed.
End Top.

(** ** Findings *)
Definition idgrad (x : vec) : vec := x.
Lemma hook_store nb i g gl xc xt c S Y : 0 < (g - gl) * (xc - xt) ->
  bfgs_hook nb (Datatypes.S i) [g] [xc] [xt] (mkBfgs c S Y [gl]) =
  mkBfgs (Datatypes.S c) (set_nth S (c mod nb) [xc - xt]) (set_nth Y (c mod nb) [g - gl]) [g].
Proof.
  intros H. unfold bfgs_hook. cbn [bf_glast bf_cnt bf_S bf_Y]. destruct (Rlt_dec 0 _) as [|Hn]; [reflexivity|].
  exfalso. apply Hn. cbn. lra.
Qed.
Lemma hook_first nb g xc xt c S Y gl : bfgs_hook nb 0 g xc xt (mkBfgs c S Y gl) = mkBfgs c S Y g.
Proof. reflexivity. Qed.
Lemma secant_refuted : exists evs, evs = history idgrad 0 [0] [[2]; [1]; [3]] /\
  let b := bfgs_run 10 evs (bfgs_startup 10 1) in
  bf_cnt b = 2%nat /\ bfgs (fun d => d) 10 b (latest_y 10 b) <> latest_s 10 b.
Proof.
  eexists; split; [reflexivity|]. cbn zeta.
  unfold bfgs_run, history, idgrad, bfgs_startup. cbn [fold_left]. rewrite hook_first.
  rewrite hook_store by lra. rewrite hook_store by lra. split; [reflexivity|].
  unfold latest_y, latest_s, bfgs, col. cbn.
  replace (2 - 0) with 2 by ring. replace (1 - 2) with (-1) by ring. replace (2 - 1) with 1 by ring. replace (1 - 3) with (-2) by ring.
  intros [= H]. field_simplify in H. lra.
Qed.
Lemma pair_mismatch_refuted : exists xs, let b := bfgs_run 10 (history idgrad 0 [0] xs) (bfgs_startup 10 1) in
  (0 < bf_cnt b)%nat /\ latest_y 10 b <> latest_s 10 b.
Proof.
  exists [[2]; [1]]. cbn zeta.
  unfold bfgs_run, history, idgrad, bfgs_startup. cbn [fold_left]. rewrite hook_first.
  rewrite hook_store by lra. split; [cbn; lia|]. unfold latest_y, latest_s, col. cbn. intros [= H]. lra.
Qed.
Lemma same_direction_skipped nb (g : R -> R) : (forall a b, a < b -> g a < g b) -> forall x xs, marching x xs ->
  bf_cnt (bfgs_run nb (history (fun v => map g v) 0 [x] (map (fun y => [y]) xs)) (bfgs_startup nb 1)) = 0%nat.
Proof.
  intros Hg x xs Hm. destruct xs as [|y xs]; [reflexivity|].
  unfold bfgs_run. cbn [history map fold_left bfgs_hook bf_cnt bf_S bf_Y bfgs_startup].
  destruct Hm as [Hlt Hm].
  assert (G : forall xs i y x S Y, marching y xs -> y < x ->
     bf_cnt (fold_left (fun b e => let '(i, g, xc, xt) := e in bfgs_hook nb i g xc xt b)
               (history (fun v => map g v) (Datatypes.S i) [y] (map (fun y => [y]) xs)) (mkBfgs 0 S Y [g x])) = 0%nat).
  { clear - Hg. induction xs as [|z xs IH]; intros i y x S Y Hm Hlt; [reflexivity|]. destruct Hm as [Hz Hm].
    cbn [history map fold_left]. unfold bfgs_hook at 2. cbn [bf_glast bf_cnt bf_S bf_Y].
    destruct (Rlt_dec 0 _) as [H|H].
    - exfalso. cbn in H. specialize (Hg _ _ Hlt). nra.
    - apply IH; assumption. }
  apply G; assumption.
Qed.
