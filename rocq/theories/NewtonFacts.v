(** Proofs about NewtonRoot, and the findings about ProjectedGNCG. *)
From Verif Require Import Py Vec VecDeriv Optim SpecOptim OptimFacts Gncg SpecGncg CgFacts GncgFacts.
Local Open Scope R_scope.

Section N.
  Context (fn newton : vec -> vec) (o : nropts).
  Lemma nr_ls_ok fuel : forall x dh xt mu y, nr_ls fn o fuel x dh xt mu = Some y ->
    norm2 (fn y) <= norm2 (fn x) \/ norm2 (fn y) < nr_tol o.
  Proof.
    induction fuel as [|fuel IH]; intros x dh xt mu y; cbn [nr_ls].
    - destruct (Rle_dec _ _); [intros [= <-]; left; assumption|].
      destruct (Rlt_dec _ _); [intros [= <-]; right; assumption|]. intros [=].
    - destruct (Rle_dec _ _); [intros [= <-]; left; assumption|].
      destruct (Rlt_dec _ _); [intros [= <-]; right; assumption|]. apply IH.
  Qed.
  (** A broken line search has tried (and rejected) every shortened step. *)
  Lemma nr_ls_fail fuel : forall x dh mu, nr_ls fn o fuel x dh (vadd x (vscale mu dh)) mu = None ->
    forall j, (j <= fuel)%nat -> let y := vadd x (vscale (mu * nr_stepDcr o ^ j) dh) in
      norm2 (fn x) < norm2 (fn y) /\ nr_tol o <= norm2 (fn y).
  Proof.
    induction fuel as [|fuel IH]; intros x dh mu; cbn [nr_ls];
      destruct (Rle_dec _ _) as [H1|H1]; try discriminate; destruct (Rlt_dec _ _) as [H2|H2]; try discriminate; intros E j Hj.
    - replace j with 0%nat by lia. cbn. rewrite Rmult_1_r. split; lra.
    - destruct j as [|j]; [cbn; rewrite Rmult_1_r; split; lra|].
      specialize (IH x dh _ E j ltac:(lia)). cbn [pow]. rewrite <- Rmult_assoc. exact IH.
  Qed.
  Lemma nr_loop_spec fuel : forall iter x xs r, nr_loop fn newton o fuel iter x = Some (xs, r) ->
    (nr_doLS o = true -> forall i, (S i < length (x :: xs))%nat ->
       norm2 (fn (nth (S i) (x :: xs) x)) <= norm2 (fn (nth i (x :: xs) x)) \/ norm2 (fn (nth (S i) (x :: xs) x)) < nr_tol o) /\
    (forall i, (S i < length xs)%nat -> nr_tol o <= norm2 (fn (nth i xs x))) /\
    match r with
    | Converged y => y = last xs x /\ xs <> [] /\ norm2 (fn y) < nr_tol o
    | IterLimit y => y = last xs x /\ (nr_maxIter o < iter + length xs)%nat /\ nr_tol o <= norm2 (fn y)
    | LSBreak => nr_doLS o = true /\ (xs <> [] -> nr_tol o <= norm2 (fn (last xs x))) /\
        exists dh, dh = newton (last xs x) /\ nr_ls fn o (nr_maxLS o - 1) (last xs x) dh (vadd (last xs x) dh) 1 = None
    end.
  Proof.
    induction fuel as [|fuel IH]; intros iter x xs r; cbn [nr_loop]; [discriminate|].
    destruct (if nr_doLS o then nr_ls fn o (nr_maxLS o - 1) x (newton x) (vadd x (newton x)) 1 else Some (vadd x (newton x))) as [xt|] eqn:E.
    - assert (Hx : nr_doLS o = true -> norm2 (fn xt) <= norm2 (fn x) \/ norm2 (fn xt) < nr_tol o).
      { intros Hd. rewrite Hd in E. eapply nr_ls_ok; exact E. }
      destruct (Rlt_dec _ _) as [Hc|Hc].
      + intros [= <- <-]. repeat split; auto; [|cbn; intros; lia|discriminate].
        intros Hd i Hi. destruct i; cbn in *; [auto|lia].
      + destruct (Nat.ltb_spec (nr_maxIter o) (S iter)) as [Hm|Hm].
        * intros [= <- <-]. repeat split; auto; try lra; [|cbn; intros; lia|cbn; lia].
          intros Hd i Hi. destruct i; cbn in *; [auto|lia].
        * destruct (nr_loop fn newton o fuel (S iter) xt) as [[ys r']|] eqn:El; [|discriminate].
          intros [= <- <-]. apply IH in El as (I1 & I2 & I3).
          split; [|split].
          -- intros Hd i Hi. destruct i as [|i]; [cbn; auto|]. cbn [nth].
             specialize (I1 Hd i). cbn [length] in *. specialize (I1 ltac:(lia)).
             rewrite (nth_indep ys x xt) by lia.
             change (match i with 0%nat => xt | S m => nth m ys x end) with (nth i (xt :: ys) x).
             rewrite (nth_indep (xt :: ys) x xt) by (cbn; lia). exact I1.
          -- intros i Hi. cbn [length] in Hi. destruct i as [|i]; [cbn; lra|]. cbn [nth].
             rewrite (nth_indep ys x xt) by lia. apply I2. lia.
          -- assert (El : forall d, last (xt :: ys) d = last ys xt).
             { intros d. apply last_cons_default. }
             destruct r' as [y|y|]; rewrite El.
             ++ destruct I3 as (-> & _ & H3). repeat split; auto. discriminate.
             ++ destruct I3 as (-> & H2 & H3). repeat split; auto. cbn. lia.
             ++ destruct I3 as (H1 & H2 & H3). split; [assumption|]. split; [|assumption].
                intros _. destruct ys as [|y ys]; [cbn; lra|]. apply H2. discriminate.
    - intros [= <- <-]. destruct (nr_doLS o) eqn:Hd; [|discriminate].
      repeat split; try (cbn; intros; lia); [congruence|]. exists (newton x). split; [reflexivity|exact E].
  Qed.
  Lemma nr_loop_total fuel : forall iter x, (iter <= nr_maxIter o < iter + fuel)%nat -> nr_loop fn newton o fuel iter x <> None.
  Proof.
    induction fuel as [|fuel IH]; intros iter x Hf; cbn [nr_loop].
    - exfalso. lia.
    - destruct (if nr_doLS o then _ else _) as [xt|]; [|discriminate].
      destruct (Rlt_dec _ _); [discriminate|]. destruct (Nat.ltb_spec (nr_maxIter o) (S iter)); [discriminate|].
      specialize (IH (S iter) xt ltac:(lia)). destruct (nr_loop fn newton o fuel (S iter) xt) as [[? ?]|]; [discriminate|congruence].
  Qed.
End N.

Lemma nr_terminates fn newton o x : exists xs r, nr_root fn newton o x = Some (xs, r).
Proof.
  unfold nr_root. pose proof (nr_loop_total fn newton o (S (nr_maxIter o)) 0 x ltac:(lia)).
  destruct (nr_loop _ _ _ _ _ _) as [[xs r]|]; [eauto|congruence].
Qed.
(** Monotone residuals when the start is not already below the tolerance. *)
Lemma nr_monotone fn newton o x xs r : nr_root fn newton o x = Some (xs, r) -> nr_doLS o = true ->
  nr_tol o <= norm2 (fn x) ->
  forall i, (S i < length (x :: xs))%nat -> norm2 (fn (nth (S i) (x :: xs) x)) <= norm2 (fn (nth i (x :: xs) x)).
Proof.
  intros E Hd Hx i Hi. apply nr_loop_spec in E as (I1 & I2 & _). destruct (I1 Hd i Hi) as [H|H]; [assumption|].
  assert (Hi2 : nr_tol o <= norm2 (fn (nth i (x :: xs) x))); [|lra].
  destruct i as [|i]; [exact Hx|]. cbn [nth length] in *. apply I2. lia.
Qed.
Lemma nr_reports fn newton o x xs r : nr_root fn newton o x = Some (xs, r) ->
  match r with
  | Converged y => y = last xs x /\ norm2 (fn y) < nr_tol o
  | IterLimit y => y = last xs x /\ length xs = S (nr_maxIter o) /\ nr_tol o <= norm2 (fn y)
  | LSBreak => nr_doLS o = true /\ forall j, (S j < nr_maxLS o \/ j = 0)%nat ->
      let z := last xs x in let y := vadd z (vscale (nr_stepDcr o ^ j) (newton z)) in
      norm2 (fn z) < norm2 (fn y) /\ nr_tol o <= norm2 (fn y)
  end.
Proof.
  intros E. assert (Hlen : (length xs <= S (nr_maxIter o))%nat).
  { unfold nr_root in E. revert E. generalize (S (nr_maxIter o)) 0%nat x xs. clear.
    induction n as [|n IH]; intros it x xs; cbn [nr_loop]; [discriminate|].
    destruct (if nr_doLS o then _ else _) as [xt|]; [|intros [= <- <-]; cbn; lia].
    destruct (Rlt_dec _ _); [intros [= <- <-]; cbn; lia|]. destruct (Nat.ltb _ _); [intros [= <- <-]; cbn; lia|].
    destruct (nr_loop fn newton o n (S it) xt) as [[ys r']|] eqn:El; [|discriminate].
    intros [= <- <-]. apply IH in El. cbn. lia. }
  apply nr_loop_spec in E as (_ & _ & I3). destruct r as [y|y|].
  - tauto.
  - destruct I3 as (H1 & H2 & H3). repeat split; auto. lia.
  - destruct I3 as (H1 & _ & dh & -> & E). split; [assumption|]. intros j Hj. cbn zeta.
    assert (E' : nr_ls fn o (nr_maxLS o - 1) (last xs x) (newton (last xs x)) (vadd (last xs x) (vscale 1 (newton (last xs x)))) 1 = None)
      by (rewrite vscale_1; exact E).
    pose proof (nr_ls_fail fn o _ _ _ _ E' j ltac:(lia)) as Hf. cbn zeta in Hf. rewrite Rmult_1_l in Hf. exact Hf.
Qed.

(** ** Findings *)
Definition nobounds := mkBounds NoBound NoBound.
Definition opts2 (m : nat) := mkCg m 0 0 false 0.
(** Hessian diag(1, 2). *)
Definition H12 (v : vec) : vec := mv [[1; 0]; [0; 2]] v.
Lemma norm2_pos (v : vec) x : In x v -> x <> 0 -> 0 < norm2 v.
Proof.
  intros Hin Hx. unfold norm2. apply sqrt_lt_R0.
  assert (G : forall v, In x v -> 0 < dot v v).
  { clear - Hx. induction v as [|y v IH]; intros Hin; [destruct Hin|]. cbn. pose proof (dot_self_nonneg v).
    destruct Hin as [->|Hin]; [assert (0 < x * x) by nra; lra|]. specialize (IH Hin). nra. }
  apply G. assumption.
Qed.
Lemma mv2_spd a b d : 0 < a -> 0 < a * d - b * b -> spd 2 (mv [[a; b]; [b; d]]).
Proof.
  intros Ha Hd. split; [|split; [|split]].
  - reflexivity.
  - intros c [|u1 [|u2 [|? ?]]] [|v1 [|v2 [|? ?]]]; cbn; intros; try lia. f_equal; [|f_equal]; ring.
  - intros [|u1 [|u2 [|? ?]]] [|v1 [|v2 [|? ?]]]; cbn; intros; try lia; ring.
  - intros [|u1 [|u2 [|? ?]]] Hl Hz; cbn in Hl; try lia. cbn.
    assert (E : a * (u1 * (a * u1 + (b * u2 + 0)) + (u2 * (b * u1 + (d * u2 + 0)) + 0)) = (a * u1 + b * u2) * (a * u1 + b * u2) + (a * d - b * b) * (u2 * u2)) by ring.
    assert (0 <= (a * u1 + b * u2) * (a * u1 + b * u2)) by apply Rle_0_sqr.
    apply (Rmult_lt_reg_l a); [assumption|]. rewrite E, Rmult_0_r.
    destruct (Req_dec u2 0) as [->|Hu].
    + assert (u1 <> 0) by (intros ->; apply Hz; reflexivity). assert (0 < (a * u1) * (a * u1)) by (apply Rsqr_pos_lt, Rmult_integral_contrapositive_currified; lra). rewrite !Rmult_0_r, !Rplus_0_r. assumption.
    + assert (0 < u2 * u2) by (apply Rsqr_pos_lt; assumption). assert (0 < (a * d - b * b) * (u2 * u2)) by (apply Rmult_lt_0_compat; assumption). lra.
Qed.
Lemma id_spd n : spd n (fun v => v).
Proof.
  split; [auto|]. split; [|split].
  - intros c u v _ _. reflexivity.
  - intros u v _ _. apply dot_comm.
  - intros u Lu Hz. pose proof (dot_self_nonneg u). destruct (Req_dec (dot u u) 0) as [E|E]; [|lra].
    apply dot_self_zero in E. congruence.
Qed.
(** The view returned by the default preconditioner: two CG iterations do not solve a
    2x2 system (they would with a preconditioner returning a fresh array). *)
Lemma view_refuted : exists step, gncg_direction nobounds (opts2 2) H12 PView [0; 0] [-1; -1] = (step, 2%nat) /\
  step = [13 / 15; 7 / 15] /\ H12 step <> [1; 1].
Proof.
  eexists. split; [|split].
  - unfold gncg_direction, gncg_cg, nobounds, opts2. cbn -[Rmax norm2 dot H12 Rdiv vadd vsub vscale maxabs mask].
    rewrite Rmult_0_l, Rmax_left by lra. replace (- -1) with 1 by ring. change (mask [true; true] [1; 1]) with [1; 1].
    destruct (Rlt_dec 0 (norm2 [1; 1])) as [_|Hn]; [|exfalso; apply Hn, (norm2_pos _ 1); [left; reflexivity|lra]].
    replace (mask [true; true] ((H12 [1; 1]))) with [1; 2] by (cbn; f_equal; [|f_equal]; field).
    replace (dot [1; 1] [1; 1] / dot [1; 1] [1; 2]) with (2 / 3) by (cbn; field).
    replace (vsub [1; 1] (vscale (2 / 3) [1; 2])) with [1 / 3; - (1 / 3)] by (cbn; f_equal; [|f_equal]; field).
    destruct (Rlt_dec 0 (norm2 [1 / 3; - (1 / 3)])) as [_|Hn]; [|exfalso; apply Hn, (norm2_pos _ (1 / 3)); [left; reflexivity|lra]].
    replace (vadd [1 / 3; - (1 / 3)] (vscale (dot [1 / 3; - (1 / 3)] [1 / 3; - (1 / 3)] / dot [1; 1] [1; 1]) [1 / 3; - (1 / 3)]))
      with [10 / 27; - (10 / 27)] by (cbn; f_equal; [|f_equal]; field).
    replace (mask [true; true] ((H12 [10 / 27; - (10 / 27)]))) with [10 / 27; - (20 / 27)] by (cbn; f_equal; [|f_equal]; field).
    replace (dot [1 / 3; - (1 / 3)] [1 / 3; - (1 / 3)] / dot [10 / 27; - (10 / 27)] [10 / 27; - (20 / 27)]) with (27 / 50) by (cbn; field).
    reflexivity.
  - cbn. f_equal; [|f_equal]; field.
  - cbn. intros [= E _]. field_simplify in E. lra.
Qed.
(** A preconditioner that couples free and active components turns the direction
    uphill. *)
Lemma coupling_refuted : exists B H M xc g, wf_bounds 2 B /\ feasible B xc /\ spd 2 H /\ spd 2 M /\
  let '(step, count) := gncg_direction B (opts2 1) H (POp M) xc g in count = 1%nat /\ 0 < dot g step.
Proof.
  exists (mkBounds (Array [-10; 0]) NoBound), (mv [[1; -2]; [-2; 5]]), (mv [[1; 1]; [1; 2]]), [0; 0], [-1; 1].
  split; [|split; [|split; [|split]]].
  - split; [|split]; cbn.
    + intros l [= <-]. reflexivity.
    + discriminate.
    + intros; discriminate.
  - intros i Hi. destruct i as [|[|i]]; cbn in *; try lia; split; auto; lra.
  - apply mv2_spd; lra.
  - apply mv2_spd; lra.
  - unfold gncg_direction, gncg_cg, opts2. cbn -[Rmax norm2 dot mv Rdiv vadd vsub vscale maxabs].
    unfold Rleb. repeat (destruct (Rle_dec _ _); try (exfalso; lra)). cbn -[Rmax norm2 dot mv Rdiv vadd vsub vscale maxabs].
    rewrite Rmult_0_l, Rmax_left by lra.
    destruct (Rlt_dec 0 _) as [_|Hn]; [|exfalso; apply Hn, (norm2_pos _ (- -1)); [left; reflexivity|lra]].
    split; [reflexivity|]. cbn. field_simplify; lra.
Qed.
