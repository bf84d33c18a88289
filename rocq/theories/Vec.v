(** Real vectors as lists and matrices as lists of rows: the exact-arithmetic
    counterpart of the 1-D numpy arrays and (sparse) matrices of the code.
    Floating-point rounding is not modelled. *)
From Coq Require Export Reals Lra.
From Verif Require Export Py.
Local Open Scope R_scope.

Notation vec := (list R).
Notation mat := (list (list R)).

(** Element-wise combination; lengths are expected to agree (numpy would raise or
    broadcast otherwise; every use states the lengths). *)
Fixpoint zipw (f : R -> R -> R) (a b : vec) : vec :=
  match a, b with
  | x :: a', y :: b' => f x y :: zipw f a' b'
  | _, _ => []
  end.
Definition vadd := zipw Rplus.
Definition vsub := zipw Rminus.
Definition vmul := zipw Rmult.
Definition vdiv := zipw Rdiv.
Definition vscale (c : R) (a : vec) : vec := map (Rmult c) a.
Definition vopp (a : vec) : vec := map Ropp a.
Definition vconst (n : nat) (c : R) : vec := repeat c n.
Definition vzero (n : nat) : vec := vconst n 0.
Fixpoint vsum (a : vec) : R := match a with [] => 0 | x :: a' => x + vsum a' end.
Fixpoint dot (a b : vec) : R :=
  match a, b with
  | x :: a', y :: b' => x * y + dot a' b'
  | _, _ => 0
  end.
Definition mv (M : mat) (v : vec) : vec := map (fun r => dot r v) M.
(** Transposed product: sum of the rows weighted by [w]; [n] is the column count. *)
Fixpoint mtv (n : nat) (M : mat) (w : vec) : vec :=
  match M, w with
  | r :: M', x :: w' => vadd (vscale x r) (mtv n M' w')
  | _, _ => vzero n
  end.
(** [M] has [m] rows of length [n]. *)
Definition is_mat (m n : nat) (M : mat) : Prop := length M = m /\ Forall (fun r => length r = n) M.

Lemma zipw_length f a b : length a = length b -> length (zipw f a b) = length a.
Proof. revert b; induction a as [|x a IH]; intros [|y b]; cbn; intros; try lia; auto. Qed.
Lemma vadd_length a b : length a = length b -> length (vadd a b) = length a.
Proof. apply zipw_length. Qed.
Lemma vsub_length a b : length a = length b -> length (vsub a b) = length a.
Proof. apply zipw_length. Qed.
Lemma vmul_length a b : length a = length b -> length (vmul a b) = length a.
Proof. apply zipw_length. Qed.
Lemma vdiv_length a b : length a = length b -> length (vdiv a b) = length a.
Proof. apply zipw_length. Qed.
Lemma vscale_length c a : length (vscale c a) = length a.
Proof. apply map_length. Qed.
Lemma vopp_length a : length (vopp a) = length a.
Proof. apply map_length. Qed.
Lemma vconst_length n c : length (vconst n c) = n.
Proof. apply repeat_length. Qed.
Lemma vzero_length n : length (vzero n) = n.
Proof. apply repeat_length. Qed.
Lemma mv_length M v : length (mv M v) = length M.
Proof. apply map_length. Qed.
Lemma mtv_length m n M w : is_mat m n M -> length (mtv n M w) = n.
Proof.
  intros [_ H]. revert w; induction H as [|r M Hr HM IH]; cbn; intros w; [apply vzero_length|].
  destruct w as [|x w]; [apply vzero_length|].
  rewrite vadd_length; rewrite vscale_length; [assumption|]. rewrite IH; assumption.
Qed.

Lemma dot_comm a b : dot a b = dot b a.
Proof. revert b; induction a as [|x a IH]; intros [|y b]; cbn; auto. rewrite IH; ring. Qed.
Lemma dot_vadd_l a b c : length a = length b -> dot (vadd a b) c = dot a c + dot b c.
Proof.
  revert b c; induction a as [|x a IH]; intros [|y b] [|z c]; cbn; intros; try lia; try ring.
  fold (vadd a b). rewrite IH by lia. ring.
Qed.
Lemma dot_vscale_l c a b : dot (vscale c a) b = c * dot a b.
Proof. revert b; induction a as [|x a IH]; intros [|y b]; cbn; try ring. fold (vscale c a). rewrite IH; ring. Qed.
Lemma dot_vadd_r a b c : length a = length b -> dot c (vadd a b) = dot c a + dot c b.
Proof. intros; rewrite dot_comm, dot_vadd_l, (dot_comm a), (dot_comm b); auto. Qed.
Lemma dot_vscale_r c a b : dot b (vscale c a) = c * dot b a.
Proof. rewrite dot_comm, dot_vscale_l, dot_comm; reflexivity. Qed.
Lemma dot_zero_l n a : dot (vzero n) a = 0.
Proof. revert a; induction n; intros [|x a]; cbn; auto. fold (vzero n). unfold vconst. rewrite IHn. ring. Qed.
Lemma dot_zero_r n a : dot a (vzero n) = 0.
Proof. rewrite dot_comm; apply dot_zero_l. Qed.
Lemma dot_self_nonneg a : 0 <= dot a a.
Proof. induction a; cbn; [lra|]. pose proof (Rle_0_sqr a); unfold Rsqr in *; lra. Qed.
Lemma dot_self_zero a : dot a a = 0 -> a = vzero (length a).
Proof.
  induction a as [|x a IH]; cbn; intros H; [reflexivity|].
  pose proof (dot_self_nonneg a). pose proof (Rle_0_sqr x) as Hx; unfold Rsqr in Hx.
  assert (x * x = 0) by lra. assert (dot a a = 0) by lra.
  f_equal; [|auto]. destruct (Rmult_integral _ _ H1); assumption.
Qed.
Lemma vsub_as_add a b : vsub a b = vadd a (vscale (-1) b).
Proof. revert b; induction a as [|x a IH]; intros [|y b]; cbn; auto. fold (vsub a b). rewrite IH. f_equal. ring. Qed.
Lemma vopp_scale a : vopp a = vscale (-1) a.
Proof. unfold vopp, vscale; apply map_ext; intros; ring. Qed.
Lemma dot_vsub_l a b c : length a = length b -> dot (vsub a b) c = dot a c - dot b c.
Proof. intros; rewrite vsub_as_add, dot_vadd_l, dot_vscale_l; [ring|rewrite vscale_length; auto]. Qed.
Lemma dot_vsub_r a b c : length a = length b -> dot c (vsub a b) = dot c a - dot c b.
Proof. intros; rewrite dot_comm, dot_vsub_l, (dot_comm a), (dot_comm b); auto. Qed.
Lemma dot_vopp_l a b : dot (vopp a) b = - dot a b.
Proof. rewrite vopp_scale, dot_vscale_l; ring. Qed.
Lemma dot_vopp_r a b : dot b (vopp a) = - dot b a.
Proof. rewrite dot_comm, dot_vopp_l, dot_comm; ring. Qed.

Lemma mv_vadd M a b : length a = length b -> mv M (vadd a b) = vadd (mv M a) (mv M b).
Proof. intros H; induction M as [|r M IH]; cbn; [reflexivity|]. f_equal; [apply dot_vadd_r; auto|exact IH]. Qed.
Lemma mv_vscale M c a : mv M (vscale c a) = vscale c (mv M a).
Proof. induction M as [|r M IH]; cbn; [reflexivity|]. f_equal; [apply dot_vscale_r|exact IH]. Qed.

(** Adjoint identity. *)
Lemma mv_mtv_adjoint m n M w v : is_mat m n M -> length w = m -> length v = n ->
  dot w (mv M v) = dot (mtv n M w) v.
Proof.
  intros [Hm HM]; revert m w Hm; induction HM as [|r M Hr HM IH]; cbn; intros m w Hm Hw Hv.
  - rewrite dot_zero_l. destruct w; reflexivity.
  - destruct w as [|x w]; cbn in *; [rewrite dot_zero_l; reflexivity|].
    rewrite dot_vadd_l, dot_vscale_l.
    + fold (mv M v). rewrite (IH (length M) w) by (first [reflexivity | assumption | lia]); reflexivity.
    + rewrite vscale_length, (mtv_length (length M) n); [assumption|split; auto].
Qed.

Lemma vadd_comm a b : vadd a b = vadd b a.
Proof. revert b; induction a as [|x a IH]; intros [|y b]; cbn; auto. fold (vadd a b) (vadd b a). rewrite IH; f_equal; ring. Qed.
Lemma vadd_assoc a b c : vadd a (vadd b c) = vadd (vadd a b) c.
Proof. revert b c; induction a as [|x a IH]; intros [|y b] [|z c]; cbn; auto.
  fold (vadd b c) (vadd a b). f_equal; [ring|apply IH]. Qed.
Lemma vadd_zero_r a n : length a = n -> vadd a (vzero n) = a.
Proof. intros <-; induction a as [|x a IH]; cbn; [reflexivity|]. f_equal; [ring|exact IH]. Qed.
Lemma vadd_zero_l a n : length a = n -> vadd (vzero n) a = a.
Proof. intros; rewrite vadd_comm; apply vadd_zero_r; auto. Qed.
Lemma vscale_vscale c d a : vscale c (vscale d a) = vscale (c * d) a.
Proof. unfold vscale; rewrite map_map; apply map_ext; intros; ring. Qed.
Lemma vscale_1 a : vscale 1 a = a.
Proof. unfold vscale; induction a as [|x a IH]; cbn; [reflexivity|rewrite IH; f_equal; ring]. Qed.
Lemma vscale_0 a : vscale 0 a = vzero (length a).
Proof. unfold vscale; induction a as [|x a IH]; cbn; [reflexivity|]. rewrite IH. f_equal; ring. Qed.
Lemma vscale_vadd c a b : vscale c (vadd a b) = vadd (vscale c a) (vscale c b).
Proof. revert b; induction a as [|x a IH]; intros [|y b]; cbn; auto. fold (vadd a b) (vscale c (vadd a b)).
  f_equal; [ring|apply IH]. Qed.
Lemma vscale_plus c d a : vscale (c + d) a = vadd (vscale c a) (vscale d a).
Proof. induction a as [|x a IH]; cbn; [reflexivity|]. f_equal; [ring|exact IH]. Qed.
Lemma vscale_vzero c n : vscale c (vzero n) = vzero n.
Proof. unfold vscale, vzero, vconst. induction n; cbn; [reflexivity|]. rewrite IHn; f_equal; ring. Qed.

Lemma zipw_nth f a b i : (i < length a)%nat -> length a = length b ->
  nth i (zipw f a b) 0 = f (nth i a 0) (nth i b 0).
Proof.
  revert b i; induction a as [|x a IH]; intros [|y b] i Hi H; cbn in *; try lia.
  destruct i; [reflexivity|]. apply IH; lia.
Qed.
Lemma map_nth_lt {A} (f : R -> A) a i d : (i < length a)%nat -> nth i (map f a) d = f (nth i a 0).
Proof. intros H. rewrite (nth_indep _ d (f 0)) by (rewrite map_length; assumption). apply map_nth. Qed.
Lemma mtv_vadd m n M a b : is_mat m n M -> length a = m -> length b = m ->
  mtv n M (vadd a b) = vadd (mtv n M a) (mtv n M b).
Proof.
  intros [Hm HM]; revert m a b Hm; induction HM as [|r M Hr HM IH]; cbn; intros m a b Hm Ha Hb.
  - rewrite vadd_zero_r; auto using vzero_length.
  - destruct a as [|x a], b as [|y b]; cbn in *; try lia.
    fold (vadd a b). rewrite (IH (length M)) by lia.
    rewrite vscale_plus.
    set (A := mtv n M a). set (B := mtv n M b). set (X := vscale x r). set (Y := vscale y r).
    rewrite <- !vadd_assoc. f_equal. rewrite !vadd_assoc. f_equal. apply vadd_comm.
Qed.
Lemma mtv_vscale m n M c a : is_mat m n M -> length a = m ->
  mtv n M (vscale c a) = vscale c (mtv n M a).
Proof.
  intros [Hm HM]; revert m a Hm; induction HM as [|r M Hr HM IH]; cbn [mtv]; intros m a Hm Ha.
  - symmetry; apply vscale_vzero.
  - destruct a as [|x a]; cbn [length] in *; [lia|].
    change (vscale c (x :: a)) with (c * x :: vscale c a). cbn [mtv].
    rewrite (IH (length M)) by lia. rewrite vscale_vadd, vscale_vscale. reflexivity.
Qed.

(** Two vectors of equal length agreeing at every index are equal. *)
Lemma vec_ext (a b : vec) : length a = length b -> (forall i, (i < length a)%nat -> nth i a 0 = nth i b 0) -> a = b.
Proof. intros H1 H2; apply (nth_ext a b 0 0); auto. Qed.

(** A vector determined by its dot products. *)
Lemma dot_ext a b : length a = length b -> (forall v, length v = length a -> dot a v = dot b v) -> a = b.
Proof.
  intros Hl H.
  assert (dot (vsub a b) (vsub a b) = 0) as H0.
  { rewrite dot_vsub_l by assumption. rewrite H; [ring|apply vsub_length; assumption]. }
  apply dot_self_zero in H0. rewrite (vsub_length a b Hl) in H0.
  clear H. revert b Hl H0; induction a as [|x a IH]; intros [|y b] Hl H0; cbn in *; try lia; auto.
  injection H0 as H1 H2. f_equal; [lra|]. apply IH; [lia|exact H2].
Qed.
