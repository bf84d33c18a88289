From Coq Require Import Reals Lra Field Lia.
From Verif Require Import Py Vec VecDeriv SolveDeriv Joint Cplx CplxFacts FdemFacts5 Mt1d Cx NsemRx SpecNsemRx NsemRxFacts.
Local Open Scope R_scope.

(** ** Projections *)
Lemma nth_mv_all P v i : nth i (mv P v) 0 = dot (nth i P []) v.
Proof.
  revert i. induction P as [|r P IH]; intros [|i]; cbn; try reflexivity. apply IH.
Qed.
Lemma at_pj P u i : at_ (pj P u) i = seen P u i.
Proof. unfold at_, pj, seen, cmap. cbn [fst snd]. now rewrite !nth_mv_all. Qed.
Lemma Eat_seen P F i : Eat P F i = seenE P F i. Proof. unfold Eat, at2, seenE. now rewrite !at_pj. Qed.
Lemma Hat_seen P F i : Hat P F i = seenH P F i. Proof. unfold Hat, at2, seenH. now rewrite !at_pj. Qed.

Lemma moves_at E F t dF P : moves E F t dF ->
  (is_mat (nD E) (ne E) P -> forall i, (i < nD E)%nat -> pdl (fun s => Eat P (F s) i) t (Eat P dF i)) /\
  (is_mat (nD E) (nh E) P -> forall i, (i < nD E)%nat -> pdl (fun s => Hat P (F s) i) t (Hat P dF i)).
Proof.
  intros M.
  assert (K : forall k (u : flds -> cvec), is_mat (nD E) k P -> vderiv k (fun s => fst (u (F s))) t (fst (u dF)) -> vderiv k (fun s => snd (u (F s))) t (snd (u dF)) ->
     forall i, (i < nD E)%nat -> cdl (fun s => at_ (pj P (u (F s))) i) t (at_ (pj P (u dF)) i)).
  { intros k u HP A B i Hi. destruct (vderiv_mv _ _ _ _ _ _ HP A) as (_ & _ & DA). destruct (vderiv_mv _ _ _ _ _ _ HP B) as (_ & _ & DB).
    split; cbn; [apply DA|apply DB]; exact Hi. }
  assert (Q := fun g k => M g k). cbn [In] in Q. split; intros HP i Hi; split; unfold Eat, Hat, at2; cbn [fst snd].
  - apply (K (ne E) e0); auto; [apply (Q (fun f => fst (e0 f)))|apply (Q (fun f => snd (e0 f)))]; tauto.
  - apply (K (ne E) e1); auto; [apply (Q (fun f => fst (e1 f)))|apply (Q (fun f => snd (e1 f)))]; tauto.
  - apply (K (nh E) h0); auto; [apply (Q (fun f => fst (h0 f)))|apply (Q (fun f => snd (h0 f)))]; tauto.
  - apply (K (nh E) h1); auto; [apply (Q (fun f => fst (h1 f)))|apply (Q (fun f => snd (h1 f)))]; tauto.
Qed.

(** ** Sums over the locations *)
Fixpoint sumn (k : nat) (f : nat -> R) : R := match k with O => 0 | S k' => sumn k' f + f k' end.
Lemma sumn_ext k f g : (forall i, (i < k)%nat -> f i = g i) -> sumn k f = sumn k g.
Proof. intros H. induction k as [|k IH]; [reflexivity|]. cbn. rewrite IH by (intros; apply H; lia). rewrite H by lia. reflexivity. Qed.
Lemma sumn_add k f g : sumn k f + sumn k g = sumn k (fun i => f i + g i).
Proof. induction k as [|k IH]; cbn; [ring|]. rewrite <- IH. ring. Qed.
Lemma sumn_scal k c f : c * sumn k f = sumn k (fun i => c * f i).
Proof. induction k as [|k IH]; cbn; [ring|]. rewrite <- IH. ring. Qed.
Lemma sumn_0 k : sumn k (fun _ => 0) = 0.
Proof. induction k as [|k IH]; cbn; [ring|]. rewrite IH. ring. Qed.
Lemma dot_snoc a b x y : length a = length b -> dot (a ++ [x]) (b ++ [y]) = dot a b + x * y.
Proof.
  revert b. induction a as [|p a IH]; intros [|q b] H; cbn in *; try lia; [ring|]. rewrite IH by lia. ring.
Qed.
Lemma dot_sumn k f g : dot (map f (seq 0 k)) (map g (seq 0 k)) = sumn k (fun i => f i * g i).
Proof.
  induction k as [|k IH]; [reflexivity|]. rewrite seq_S, !map_app. cbn [map]. rewrite dot_snoc by (now rewrite !map_length). rewrite IH. reflexivity.
Qed.
Lemma nth_tab {A} (f : nat -> A) n i d : (i < n)%nat -> nth i (map f (seq 0 n)) d = f i.
Proof.
  intros H. rewrite (nth_indep _ d (f 0%nat)) by (now rewrite map_length, seq_length). rewrite map_nth, seq_nth by exact H. reflexivity.
Qed.
Lemma as_map (v : vec) k : length v = k -> v = map (fun i => nth i v 0) (seq 0 k).
Proof.
  intros L. apply vec_ext; [now rewrite map_length, seq_length|]. intros i Hi. rewrite L in Hi.
  rewrite (nth_tab (fun i => nth i v 0)) by exact Hi. reflexivity.
Qed.
Lemma dot_as k v w : length v = k -> length w = k -> dot v w = sumn k (fun i => nth i v 0 * nth i w 0).
Proof. intros A B. rewrite (as_map v k A), (as_map w k B) at 1. apply dot_sumn. Qed.

Lemma lift k n P g d : is_mat k n P -> clen n d ->
  rdot (pjT n P (collect k g)) d = sumn k (fun i => Re (g i *x at_ (pj P d) i)).
Proof.
  intros HP [La Lb]. unfold rdot, pjT, cmap, collect. cbn [fst snd].
  rewrite <- (mv_mtv_adjoint k n P _ (fst d)) by (auto; now rewrite map_length, seq_length).
  rewrite <- (mv_mtv_adjoint k n P _ (snd d)) by (auto; now rewrite map_length, seq_length).
  rewrite (as_map (mv P (fst d)) k) by (rewrite mv_length; apply HP).
  rewrite (as_map (mv P (snd d)) k) by (rewrite mv_length; apply HP).
  rewrite !dot_sumn. replace (sumn k (fun i => Im (g i) * nth i (mv P (snd d)) 0)) with (- (-1 * sumn k (fun i => Im (g i) * nth i (mv P (snd d)) 0))) by ring.
  rewrite sumn_scal. unfold Rminus. rewrite Ropp_involutive, sumn_add. apply sumn_ext. intros i _. unfold xmul, at_, pj, cmap, Re, Im. cbn. ring.
Qed.
Lemma clen_pjT k n P z : is_mat k n P -> clen n (pjT n P z).
Proof. intros HP. split; cbn; eapply mtv_length; exact HP. Qed.

Lemma backT_len k n P g : is_mat k n P -> clen n (fst (backT k n P g)) /\ clen n (snd (backT k n P g)).
Proof. intros HP. split; cbn [backT fst snd]; eapply clen_pjT; exact HP. Qed.
(** The pairing of a pair of columns *)
Definition rdot2 (a b : cvec * cvec) : R := rdot (fst a) (fst b) + rdot (snd a) (snd b).
Definition len2 (n : nat) (a : cvec * cvec) : Prop := clen n (fst a) /\ clen n (snd a).
Lemma rdot2_backT k n P g d : is_mat k n P -> len2 n d ->
  rdot2 (backT k n P g) d = sumn k (fun i => Re (pdot (g i) (at2 P (fst d) (snd d) i))).
Proof.
  intros HP [A B]. unfold rdot2, backT. cbn [fst snd]. rewrite !lift by assumption. rewrite sumn_add. apply sumn_ext. intros i _.
  unfold pdot, at2. cbn [fst snd]. reflexivity.
Qed.
Lemma len2_add n a b : len2 n a -> len2 n b -> len2 n (add2 a b).
Proof. intros [A B] [C D]. split; cbn; apply len_add; assumption. Qed.
Lemma rdot2_add n a b d : len2 n a -> len2 n b -> len2 n d -> rdot2 (add2 a b) d = rdot2 a d + rdot2 b d.
Proof. intros [A B] [C D] [X Y]. unfold rdot2, add2. cbn [fst snd]. rewrite !(rdot_add_l n) by assumption. ring. Qed.
Lemma len2_zero n : len2 n (zero2 n). Proof. split; apply len_zero. Qed.
Lemma rdot2_zero n d : rdot2 (zero2 n) d = 0.
Proof. unfold rdot2, zero2. cbn [fst snd]. rewrite !(rdot_zero_l n). ring. Qed.
Lemma len2_conj n a : len2 n a -> len2 n (conj2 a).
Proof. intros [[A B] [C D]]. repeat split; cbn; rewrite vscale_length; assumption. Qed.
(** Real part of the product of a conjugate *)
Definition hdot (a b : cvec) : R := dot (fst a) (fst b) + dot (snd a) (snd b).
Lemma rdot_conj a b : rdot (vscale 2 (fst a), vscale (-2) (snd a)) b = 2 * hdot a b.
Proof. unfold rdot, hdot. cbn [fst snd]. rewrite !dot_vscale_l. ring. Qed.
Lemma lift_h k n P g d : is_mat k n P -> clen n d ->
  hdot (pjT n P (collect k g)) d = sumn k (fun i => Re (cconj (g i) *x at_ (pj P d) i)).
Proof.
  intros HP [La Lb]. unfold hdot, pjT, cmap, collect. cbn [fst snd].
  rewrite <- (mv_mtv_adjoint k n P _ (fst d)) by (auto; now rewrite map_length, seq_length).
  rewrite <- (mv_mtv_adjoint k n P _ (snd d)) by (auto; now rewrite map_length, seq_length).
  rewrite (as_map (mv P (fst d)) k) by (rewrite mv_length; apply HP).
  rewrite (as_map (mv P (snd d)) k) by (rewrite mv_length; apply HP).
  rewrite !dot_sumn, sumn_add. apply sumn_ext. intros i _. unfold xmul, at_, pj, cmap, cconj, Re, Im. cbn. ring.
Qed.
Definition hdot2 (a b : cvec * cvec) : R := hdot (fst a) (fst b) + hdot (snd a) (snd b).
Lemma rdot2_conj a b : rdot2 (conj2 a) b = 2 * hdot2 a b.
Proof. unfold rdot2, hdot2, conj2. cbn [fst snd]. rewrite !rdot_conj. ring. Qed.
Lemma hdot2_backT k n P g d : is_mat k n P -> len2 n d ->
  hdot2 (backT k n P g) d = sumn k (fun i => preal (g i) (at2 P (fst d) (snd d) i)).
Proof.
  intros HP [A B]. unfold hdot2, backT. cbn [fst snd]. rewrite !lift_h by assumption. rewrite sumn_add. apply sumn_ext. intros i _. reflexivity.
Qed.
Lemma hdot2_add n a b d : len2 n a -> len2 n b -> len2 n d -> hdot2 (add2 a b) d = hdot2 a d + hdot2 b d.
Proof.
  intros [[A1 A2] [B1 B2]] [[C1 C2] [D1 D2]] [[X1 X2] [Y1 Y2]]. unfold hdot2, hdot, add2, cadd. cbn [fst snd]. rewrite !dot_vadd_l by congruence. ring.
Qed.
