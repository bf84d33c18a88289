From Verif Require Import Py Vec VecDeriv Joint Cplx SolveDeriv RichardsFacts RichardsFacts2 RichardsFacts3 DcFacts.
From Coq Require Import Reals Lra Lia.
Local Open Scope R_scope.

(** ** Entries of complex vectors *)
Definition cre (i : nat) (z : cvec) : R := nth i (fst z) 0.
Definition cim (i : nat) (z : cvec) : R := nth i (snd z) 0.
Lemma c_ext k a b : clen k a -> clen k b -> (forall i, (i < k)%nat -> cre i a = cre i b /\ cim i a = cim i b) -> a = b.
Proof.
  destruct a as [a a'], b as [b b']. unfold clen, cre, cim. cbn. intros [A A'] [B B'] H.
  f_equal; apply vec_ext; try congruence; intros i Hi; apply H; congruence.
Qed.
Lemma len_add k a b : clen k a -> clen k b -> clen k (cadd a b).
Proof. intros [? ?] [? ?]. split; cbn; ln. Qed.
Lemma len_sub k a b : clen k a -> clen k b -> clen k (csub a b).
Proof. intros [? ?] [? ?]. split; cbn; ln. Qed.
Lemma len_opp k a : clen k a -> clen k (copp a).
Proof. intros [? ?]. split; cbn; ln. Qed.
Lemma len_cI k w a : clen k a -> clen k (cI w a).
Proof. intros [? ?]. split; cbn; ln. Qed.
Lemma len_divI k w a : clen k a -> clen k (cdivI w a).
Proof. intros [? ?]. split; cbn; ln. Qed.
Lemma len_cmul k a b : clen k a -> clen k b -> clen k (cmul a b).
Proof. intros [? ?] [? ?]. split; cbn; ln. Qed.
Lemma len_real k v : length v = k -> clen k (creal v).
Proof. intros. split; cbn; [assumption|rewrite vzero_length; assumption]. Qed.
Lemma len_zero k : clen k (czero k).
Proof. split; apply vzero_length. Qed.
Lemma len_cmap n k f a : (forall v, length v = n -> length (f v) = k) -> clen n a -> clen k (cmap f a).
Proof. intros H [? ?]. split; cbn; auto. Qed.
Lemma len_diag k d a : length d = k -> clen k a -> clen k (cmap (vmul d) a).
Proof. intros. apply (len_cmap k); [|assumption]. intros. ln. Qed.
Lemma len_pair k a b : length a = k -> length b = k -> clen k (a, b).
Proof. intros. split; assumption. Qed.
Create HintDb cln.
#[export] Hint Resolve len_add len_sub len_opp len_cI len_divI len_cmul len_real len_zero len_diag len_pair : cln.
#[export] Hint Resolve ln_add ln_sub ln_mul ln_scale ln_opp ln_map vzero_length vconst_length : cln.
Ltac cln := auto 20 with cln.
Section Entries.
  Context (k i : nat) (Hi : (i < k)%nat).
  Lemma re_add a b : clen k a -> clen k b -> cre i (cadd a b) = cre i a + cre i b.
  Proof. intros [? ?] [? ?]. unfold cre. cbn. apply (nA k); auto. Qed.
  Lemma im_add a b : clen k a -> clen k b -> cim i (cadd a b) = cim i a + cim i b.
  Proof. intros [? ?] [? ?]. unfold cim. cbn. apply (nA k); auto. Qed.
  Lemma re_sub a b : clen k a -> clen k b -> cre i (csub a b) = cre i a - cre i b.
  Proof. intros [? ?] [? ?]. unfold cre. cbn. apply (nS k); auto. Qed.
  Lemma im_sub a b : clen k a -> clen k b -> cim i (csub a b) = cim i a - cim i b.
  Proof. intros [? ?] [? ?]. unfold cim. cbn. apply (nS k); auto. Qed.
  Lemma re_diag d a : length d = k -> clen k a -> cre i (cmap (vmul d) a) = nth i d 0 * cre i a.
  Proof. intros ? [? ?]. unfold cre. cbn. apply (nM k); auto. Qed.
  Lemma im_diag d a : length d = k -> clen k a -> cim i (cmap (vmul d) a) = nth i d 0 * cim i a.
  Proof. intros ? [? ?]. unfold cim. cbn. apply (nM k); auto. Qed.
End Entries.
Lemma re_opp i a : cre i (copp a) = - cre i a. Proof. apply nO. Qed.
Lemma im_opp i a : cim i (copp a) = - cim i a. Proof. apply nO. Qed.
Lemma re_cI i w a : cre i (cI w a) = - w * cim i a. Proof. unfold cre, cim. cbn. apply nth_vscale. Qed.
Lemma im_cI i w a : cim i (cI w a) = w * cre i a. Proof. unfold cre, cim. cbn. apply nth_vscale. Qed.
Lemma re_divI i w a : cre i (cdivI w a) = / w * cim i a. Proof. unfold cre, cim. cbn. apply nth_vscale. Qed.
Lemma im_divI i w a : cim i (cdivI w a) = - / w * cre i a. Proof. unfold cre, cim. cbn. apply nth_vscale. Qed.
Lemma re_zero i k : cre i (czero k) = 0. Proof. apply nth_zero. Qed.
Lemma im_zero i k : cim i (czero k) = 0. Proof. apply nth_zero. Qed.
Lemma re_real i v : cre i (creal v) = nth i v 0. Proof. reflexivity. Qed.
Lemma im_real i v : cim i (creal v) = 0. Proof. apply nth_zero. Qed.
Ltac cent k := repeat first
  [ rewrite (re_add k) by (first [assumption | solve [cln]]) | rewrite (im_add k) by (first [assumption | solve [cln]])
  | rewrite (re_sub k) by (first [assumption | solve [cln]]) | rewrite (im_sub k) by (first [assumption | solve [cln]])
  | rewrite (re_diag k) by (first [assumption | solve [cln]]) | rewrite (im_diag k) by (first [assumption | solve [cln]])
  | rewrite re_opp | rewrite im_opp | rewrite re_cI | rewrite im_cI | rewrite re_divI | rewrite im_divI
  | rewrite re_zero | rewrite im_zero | rewrite re_real | rewrite im_real ].
Ltac cext k := let i := fresh "i" in let Hi := fresh "Hi" in
  apply (c_ext k); [solve [cln]|solve [cln]|intros i Hi; cent k].

(** ** Linear operators *)
Section Lin.
  Context (n k : nat) (f : vec -> vec) (L : lin_map n k f).
  Lemma len_lin a : clen n a -> clen k (cmap f a).
  Proof. apply len_cmap. apply L. Qed.
  Lemma cmap_add a b : clen n a -> clen n b -> cmap f (cadd a b) = cadd (cmap f a) (cmap f b).
  Proof. intros [? ?] [? ?]. unfold cmap, cadd. cbn. f_equal; apply L; assumption. Qed.
  Lemma cmap_sub a b : clen n a -> clen n b -> cmap f (csub a b) = csub (cmap f a) (cmap f b).
  Proof. intros [? ?] [? ?]. unfold cmap, csub. cbn. f_equal; apply (lin_sub n k); assumption. Qed.
  Lemma cmap_opp a : clen n a -> cmap f (copp a) = copp (cmap f a).
  Proof. intros [? ?]. unfold copp, cmap. cbn. f_equal; apply (lin_opp n k); assumption. Qed.
  Lemma cmap_cI w a : clen n a -> cmap f (cI w a) = cI w (cmap f a).
  Proof. intros [? ?]. unfold cmap, cI. cbn. f_equal; apply L; assumption. Qed.
  Lemma cmap_divI w a : clen n a -> cmap f (cdivI w a) = cdivI w (cmap f a).
  Proof. intros [? ?]. unfold cmap, cdivI. cbn. f_equal; apply L; assumption. Qed.
  Lemma cmap_zero : cmap f (czero n) = czero k.
  Proof. unfold cmap, czero. cbn. rewrite (lin_zero n k) by exact L. reflexivity. Qed.
  Lemma cmap_real v : length v = n -> cmap f (creal v) = creal (f v).
  Proof. intros H. unfold cmap, creal. cbn. rewrite H. rewrite (lin_zero n k) by exact L. f_equal. rewrite (proj1 L) by exact H. reflexivity. Qed.
End Lin.

(** ** Derivatives at 0 *)
Definition cderiv (n : nat) (f : R -> cvec) (f' : cvec) : Prop := vderiv n (fun t => fst (f t)) 0 (fst f') /\ vderiv n (fun t => snd (f t)) 0 (snd f').
Lemma cderiv_len n f f' : cderiv n f f' -> (forall t, clen n (f t)) /\ clen n f'.
Proof. intros [(A & A' & _) (B & B' & _)]. split; [intros t; split; [apply A|apply B]|split; assumption]. Qed.
Lemma cderiv_eq n f a b : a = b -> cderiv n f a -> cderiv n f b. Proof. intros ->. auto. Qed.
Lemma cderiv_ext n f g d : (forall t, f t = g t) -> cderiv n f d -> cderiv n g d.
Proof. intros E [A B]. split; [eapply vderiv_ext; [|exact A]|eapply vderiv_ext; [|exact B]]; intros t; cbv beta; rewrite E; reflexivity. Qed.
Lemma cderiv_const n z : clen n z -> cderiv n (fun _ => z) (czero n).
Proof. intros [? ?]. split; apply vderiv_const; assumption. Qed.
Lemma cderiv_add n f g f' g' : cderiv n f f' -> cderiv n g g' -> cderiv n (fun t => cadd (f t) (g t)) (cadd f' g').
Proof. intros [? ?] [? ?]. split; cbn; apply vderiv_add; assumption. Qed.
Lemma cderiv_sub n f g f' g' : cderiv n f f' -> cderiv n g g' -> cderiv n (fun t => csub (f t) (g t)) (csub f' g').
Proof. intros [? ?] [? ?]. split; cbn; apply vderiv_sub; assumption. Qed.
Lemma cderiv_lin n k g f f' : lin_map n k g -> cderiv n f f' -> cderiv k (fun t => cmap g (f t)) (cmap g f').
Proof. intros L [? ?]. split; cbn; apply (vderiv_lin n k g); assumption. Qed.
Lemma cderiv_opp n f f' : cderiv n f f' -> cderiv n (fun t => copp (f t)) (copp f').
Proof.
  apply cderiv_lin. split; [intros; ln|]. split; intros.
  - vext n. ring.
  - vext n. ring.
Qed.
Lemma cderiv_cI n w f f' : cderiv n f f' -> cderiv n (fun t => cI w (f t)) (cI w f').
Proof. intros [? ?]. split; cbn; apply vderiv_scale; assumption. Qed.
Lemma cderiv_divI n w f f' : cderiv n f f' -> cderiv n (fun t => cdivI w (f t)) (cdivI w f').
Proof. intros [? ?]. split; cbn; apply vderiv_scale; assumption. Qed.
Lemma cderiv_real n f f' : vderiv n f 0 f' -> cderiv n (fun t => creal (f t)) (creal f').
Proof.
  intros D. pose proof D as (L & L' & _). split; cbn; [exact D|]. rewrite L'. apply (vderiv_ext n (fun _ => vzero n)); [intros t; rewrite L; reflexivity|].
  apply vderiv_const. apply vzero_length.
Qed.
Lemma vmul_comm' a b : vmul a b = vmul b a.
Proof. unfold vmul, zipw. revert b. induction a as [|x a IH]; intros [|y b]; cbn; auto. rewrite IH, Rmult_comm. reflexivity. Qed.
(** Product with a real diagonal *)
Lemma cderiv_diag n d d' f f' : vderiv n d 0 d' -> cderiv n f f' ->
  cderiv n (fun t => cmap (vmul (d t)) (f t)) (cadd (cmap (vmul (d 0)) f') (cmap (fun x => vmul x d') (f 0))).
Proof.
  intros D [A B]. pose proof D as (Ld & Ld' & _). pose proof A as (LA & LA' & _). pose proof B as (LB & LB' & _). pose proof (Ld 0). pose proof (LA 0). pose proof (LB 0). cbv beta in *.
  split; cbn.
  - eapply vderiv_eq; [|apply vderiv_mul; [exact D|exact A]]. cbv beta. rewrite (vmul_comm' d'). vext n. ring.
  - eapply vderiv_eq; [|apply vderiv_mul; [exact D|exact B]]. cbv beta. rewrite (vmul_comm' d'). vext n. ring.
Qed.

(** ** Systems with a right-hand side that changes *)
Section SolveRhs.
  Context (n : nat) (A : R -> vec -> vec) (A' S : vec -> vec) (u q : R -> vec) (q' : vec).
  Hypothesis LA : forall t, lin_map n n (A t).
  Hypothesis DA : forall y, length y = n -> vderiv n (fun t => A t y) 0 (A' y).
  Hypothesis LS : lin_map n n S.
  Hypothesis HS : forall y, length y = n -> S (A 0 y) = y.
  Hypothesis Lu : forall t, length (u t) = n.
  Hypothesis Dq : vderiv n q 0 q'.
  Context (e : R) (He : 0 < e) (Hu : forall t, Rabs t < e -> A t (u t) = q t).
  (** One more unknown, equal to one *)
  Let B (t : R) (y : vec) : vec := hd 0 y :: vsub (A t (tl y)) (vscale (hd 0 y) (q t)).
  Let B' (y : vec) : vec := 0 :: vsub (A' (tl y)) (vscale (hd 0 y) q').
  Let T (y : vec) : vec := hd 0 y :: S (vadd (tl y) (vscale (hd 0 y) (q 0))).
  Let Lq t : length (q t) = n. Proof. apply Dq. Qed.
  Let len_tl (y : vec) : length y = Datatypes.S n -> length (tl y) = n. Proof. destruct y; cbn; congruence. Qed.
  Lemma LB t : lin_map (Datatypes.S n) (Datatypes.S n) (B t).
  Proof.
    destruct (LA t) as (L1 & L2 & L3). pose proof (Lq t). unfold B. split; [|split].
    - intros v Hv. cbn [length]. f_equal. pose proof (len_tl v Hv). pose proof (L1 _ H0). ln.
    - intros a b Ha Hb. destruct a as [|x a], b as [|y b]; try discriminate. cbn in Ha, Hb. injection Ha as Ha. injection Hb as Hb. unfold vadd, zipw. cbn [combine map hd tl fst snd].
      fold (zipw Rplus a b). fold (vadd a b). f_equal. fold (zipw Rplus (vsub (A t a) (vscale x (q t))) (vsub (A t b) (vscale y (q t)))). fold (vadd (vsub (A t a) (vscale x (q t))) (vsub (A t b) (vscale y (q t)))).
      rewrite L2 by assumption. pose proof (L1 a Ha). pose proof (L1 b Hb). vext n. ring.
    - intros c a Ha. destruct a as [|x a]; [discriminate|]. cbn in Ha. injection Ha as Ha. change (vscale c (x :: a)) with (c * x :: vscale c a). cbn [hd tl]. match goal with |- _ = vscale c (_ :: ?w) => change (vscale c (x :: w)) with (c * x :: vscale c w) end. f_equal. fold (vscale c (vsub (A t a) (vscale x (q t)))).
      rewrite L3 by assumption. pose proof (L1 a Ha). vext n. ring.
  Qed.
  Lemma DB y : length y = Datatypes.S n -> vderiv (Datatypes.S n) (fun t => B t y) 0 (B' y).
  Proof.
    intros Ly. destruct y as [|x y]; [discriminate|]. cbn in Ly. injection Ly as Ly. unfold B, B'. cbn [hd tl].
    assert (D : vderiv n (fun t => vsub (A t y) (vscale x (q t))) 0 (vsub (A' y) (vscale x q'))) by (apply vderiv_sub; [apply DA; exact Ly|apply vderiv_scale; exact Dq]).
    destruct D as (D1 & D2 & D3). split; [intros t; cbn [length]; rewrite D1; reflexivity|]. split; [cbn [length]; rewrite D2; reflexivity|].
    intros [|i] Hi; cbn [nth]; [apply dpl_const|]. apply D3. lia.
  Qed.
  Lemma LT : lin_map (Datatypes.S n) (Datatypes.S n) T.
  Proof.
    destruct LS as (L1 & L2 & L3). pose proof (Lq 0). unfold T. split; [|split].
    - intros v Hv. cbn [length]. f_equal. pose proof (len_tl v Hv). apply L1. ln.
    - intros a b Ha Hb. destruct a as [|x a], b as [|y b]; try discriminate. cbn in Ha, Hb. injection Ha as Ha. injection Hb as Hb. unfold vadd, zipw. cbn [combine map hd tl fst snd].
      f_equal. fold (zipw Rplus a b). fold (vadd a b). fold (zipw Rplus (vadd a b) (vscale (x + y) (q 0))). fold (vadd (vadd a b) (vscale (x + y) (q 0))).
      fold (zipw Rplus a (vscale x (q 0))). fold (vadd a (vscale x (q 0))). fold (zipw Rplus b (vscale y (q 0))). fold (vadd b (vscale y (q 0))).
      fold (zipw Rplus (S (vadd a (vscale x (q 0)))) (S (vadd b (vscale y (q 0))))). fold (vadd (S (vadd a (vscale x (q 0)))) (S (vadd b (vscale y (q 0))))).
      rewrite <- L2 by ln. f_equal. vext n. ring.
    - intros c a Ha. destruct a as [|x a]; [discriminate|]. cbn in Ha. injection Ha as Ha. change (vscale c (x :: a)) with (c * x :: vscale c a). cbn [hd tl]. match goal with |- _ = vscale c (_ :: ?w) => change (vscale c (x :: w)) with (c * x :: vscale c w) end. f_equal.
      fold (vscale c (S (vadd a (vscale x (q 0))))). rewrite <- L3 by ln. f_equal. vext n. ring.
  Qed.
  Lemma solve_deriv_rhs : vderiv n u 0 (S (vadd (vopp (A' (u 0))) q')).
  Proof.
    assert (D : vderiv (Datatypes.S n) (fun t => 1 :: u t) 0 (T (vopp (B' (1 :: u 0))))).
    { apply (solve_deriv (Datatypes.S n) B B' T (fun t => 1 :: u t) (1 :: vzero n)) with (e := e).
      - apply LB.
      - apply DB.
      - apply LT.
      - intros y Hy. destruct y as [|x y]; [discriminate|]. cbn in Hy. injection Hy as Hy. unfold T, B. cbn [hd tl]. f_equal.
        rewrite <- (HS y Hy) at 2. f_equal. pose proof (Lq 0). pose proof (proj1 (LA 0) y Hy). vext n. ring.
      - intros t. cbn [length]. rewrite Lu. reflexivity.
      - exact He.
      - intros t Ht. unfold B. cbn [hd tl]. f_equal. rewrite (Hu t Ht). pose proof (Lq t). vext n. ring. }
    apply (vderiv_tl n) in D. cbn [tl T] in D. eapply vderiv_eq; [|exact D]. f_equal. unfold B'. cbn [hd tl].
    pose proof (DA (u 0) (Lu 0)) as (_ & LA' & _). pose proof Dq as (_ & Lq' & _). pose proof (Lq 0) as Lq0. cbn [vopp map tl hd].
    fold (vopp (vsub (A' (u 0)) (vscale 1 q'))). rewrite Ropp_0. vext n. ring.
  Qed.
End SolveRhs.
