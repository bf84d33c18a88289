(** Splitting a survey into lines: orders and memberships. *)
From Verif Require Import Py Vec Abmn SpecAbmn AbmnFacts Lines2d SpecLines2d.
From Coq Require Import ZArith Permutation Sorted.
Local Open Scope R_scope.

(** ** The lexicographic order *)
Lemma lex_irr x : lex_lt x x = false.
Proof. induction x as [|a x IH]; [reflexivity|]. cbn. destruct (Rlt_dec a a); [lra|exact IH]. Qed.
Lemma lex_total x : forall y, x = y \/ lex_lt x y = true \/ lex_lt y x = true.
Proof.
  induction x as [|a x IH]; intros [|b y]; cbn; auto. destruct (Rlt_dec a b); [auto|]. destruct (Rlt_dec b a); [auto|]. assert (a = b) by lra. subst b.
  destruct (IH y) as [->|[H|H]]; auto.
Qed.
Lemma lex_trans x : forall y z, lex_lt x y = true -> lex_lt y z = true -> lex_lt x z = true.
Proof.
  induction x as [|a x IH]; intros [|b y] [|c z]; cbn; try discriminate; auto.
  destruct (Rlt_dec a b), (Rlt_dec b c), (Rlt_dec a c), (Rlt_dec b a), (Rlt_dec c b), (Rlt_dec c a); try lra; try discriminate; auto. apply IH.
Qed.
Lemma lex_before x : forall y, List.length x = List.length y -> lex_lt x y = true -> before x y.
Proof.
  induction x as [|a x IH]; intros [|b y]; cbn; try discriminate. intros L H. destruct (Rlt_dec a b) as [Hab|Hab].
  - exists [], a, b, x, y. auto.
  - destruct (Rlt_dec b a); [discriminate|]. assert (a = b) by lra. subst b. destruct (IH y) as (p & u & v & x' & y' & -> & -> & Q); [lia|exact H|]. exists (a :: p), u, v, x', y'. auto.
Qed.

(** ** Unique rows *)
Definition klt (p q : vec * nat) : Prop := lex_lt (fst p) (fst q) = true.
Lemma insert_keys k i l : forall x, In x (map fst (insert k i l)) <-> x = k \/ In x (map fst l).
Proof.
  induction l as [|[k' i'] l IH]; intros x; cbn [insert]; [cbn; intuition|]. destruct (vec_eqb k k') eqn:E.
  - apply vec_eqb_iff in E. subst k'. cbn. intuition.
  - destruct (lex_lt k k'); cbn; [intuition|]. rewrite IH. intuition.
Qed.
Lemma insert_in k i l : forall p, In p (insert k i l) -> p = (k, i) \/ In p l.
Proof.
  induction l as [|[k' i'] l IH]; intros p; cbn [insert]; [cbn; intuition|]. destruct (vec_eqb k k'); [auto|]. destruct (lex_lt k k'); cbn; [intuition|]. intros [<-|H]; [auto|]. apply IH in H. intuition.
Qed.
Lemma insert_sorted k i l : StronglySorted klt l -> StronglySorted klt (insert k i l).
Proof.
  induction 1 as [|[k' i'] l S IH F]; cbn [insert]; [repeat constructor|]. destruct (vec_eqb k k') eqn:E; [constructor; assumption|]. destruct (lex_lt k k') eqn:E1.
  - constructor; [constructor; assumption|]. constructor; [exact E1|]. rewrite Forall_forall in *. intros p Hp. apply (lex_trans k k'); [exact E1|apply F, Hp].
  - constructor; [exact IH|]. rewrite Forall_forall in *. intros p Hp. destruct (insert_in _ _ _ _ Hp) as [->|Q]; [|apply F, Q]. unfold klt. cbn. destruct (lex_total k k') as [Q|[Q|Q]]; [|congruence|exact Q].
    subst k'. assert (T : vec_eqb k k = true) by (apply vec_eqb_iff; reflexivity). congruence.
Qed.
Definition fold_rows (c : list (vec * nat)) (l : list (vec * nat)) := fold_left (fun l p => insert (fst p) (snd p) l) c l.
Lemma fold_sorted c : forall l, StronglySorted klt l -> StronglySorted klt (fold_rows c l).
Proof. induction c as [|p c IH]; intros l H; [exact H|]. cbn. apply IH, insert_sorted, H. Qed.
Lemma fold_keys c : forall l x, In x (map fst (fold_rows c l)) <-> In x (map fst c) \/ In x (map fst l).
Proof. induction c as [|p c IH]; intros l x; [cbn; intuition|]. cbn. rewrite IH, insert_keys. intuition. Qed.
Lemma fold_in c : forall l p, In p (fold_rows c l) -> In p c \/ In p l.
Proof. induction c as [|[k i] c IH]; intros l p H; [auto|]. cbn in *. apply IH in H. destruct H as [H|H]; [auto|]. apply insert_in in H. intuition. Qed.
Section Unique.
Variable keys : list vec.
Lemma fst_combine : map fst (combine keys (seq 0 (len keys))) = keys.
Proof. generalize 0%nat. induction keys as [|k l IH]; intros s; [reflexivity|]. cbn. f_equal. apply IH. Qed.
Lemma unique_sorted : StronglySorted klt (unique_rows keys).
Proof. apply fold_sorted. constructor. Qed.
Lemma unique_all k : In k keys -> exists i, In (k, i) (unique_rows keys).
Proof.
  intros H. assert (Q : In k (map fst (unique_rows keys))) by (apply fold_keys; left; rewrite fst_combine; exact H). apply in_map_iff in Q. destruct Q as ([k' i] & E & Q). cbn in E. subst k'. exists i. exact Q.
Qed.
Lemma unique_at k i : In (k, i) (unique_rows keys) -> (i < len keys)%nat /\ nth i keys [] = k.
Proof.
  intros H. apply fold_in in H. destruct H as [H|[]].
  assert (G : forall s, In (k, i) (combine keys (seq s (len keys))) -> (s <= i < s + len keys)%nat /\ nth (i - s) keys [] = k).
  { clear H. induction keys as [|k0 l IH]; intros s Q; [destruct Q|]. cbn in Q. destruct Q as [Q|Q].
    - injection Q as -> ->. rewrite Nat.sub_diag. cbn. split; [lia|reflexivity].
    - apply IH in Q. destruct Q as [Q1 Q2]. split; [cbn; lia|]. replace (i - s)%nat with (S (i - S s)) by lia. exact Q2. }
  specialize (G 0%nat H). rewrite Nat.sub_0_r in G. split; [lia|apply G].
Qed.
Definition uidx : list nat := map snd (unique_rows keys).
Lemma uidx_lt i : In i uidx -> (i < len keys)%nat.
Proof. intros H. apply in_map_iff in H. destruct H as ([k j] & E & H). cbn in E. subst j. apply (unique_at k i H). Qed.
Lemma uidx_exists j : (j < len keys)%nat -> exists i, In i uidx /\ nth i keys [] = nth j keys [].
Proof.
  intros H. destruct (unique_all (nth j keys []) (nth_In _ _ H)) as (i & Hi). exists i. split; [apply in_map_iff; exists (nth j keys [], i); auto|]. apply (unique_at _ _ Hi).
Qed.
Lemma sorted_uidx : StronglySorted (fun i j => lex_lt (nth i keys []) (nth j keys []) = true) uidx.
Proof.
  unfold uidx. assert (A : forall p, In p (unique_rows keys) -> nth (snd p) keys [] = fst p) by (intros [k i] H; apply (unique_at _ _ H)).
  pose proof unique_sorted as S. revert A S. generalize (unique_rows keys). intros l A S. induction S as [|p l S IH F]; [constructor|]. cbn. constructor.
  - apply IH. intros q Hq. apply A. right. exact Hq.
  - rewrite Forall_forall in *. intros i Hi. apply in_map_iff in Hi. destruct Hi as (q & <- & Hq). rewrite (A p), (A q) by (cbn; auto). apply F, Hq.
Qed.
Lemma uidx_differ i j : In i uidx -> In j uidx -> nth i keys [] = nth j keys [] -> i = j.
Proof.
  pose proof sorted_uidx as S. induction S as [|a l S IH F]; [intros []|]. rewrite Forall_forall in F. intros [<-|Hi] [<-|Hj] E; auto.
  - specialize (F j Hj). rewrite E, lex_irr in F. discriminate.
  - specialize (F i Hi). rewrite E, lex_irr in F. discriminate.
Qed.
Lemma uidx_nodup : NoDup uidx.
Proof.
  pose proof sorted_uidx as S. induction S as [|a l S IH F]; constructor; [|exact IH]. intros H. rewrite Forall_forall in F. specialize (F a H). rewrite lex_irr in F. discriminate.
Qed.
Lemma uidx_hd j : (j < len keys)%nat -> In (hd 0%nat uidx) uidx /\ (nth (hd 0%nat uidx) keys [] = nth j keys [] \/ lex_lt (nth (hd 0%nat uidx) keys []) (nth j keys []) = true).
Proof.
  intros H. destruct (uidx_exists j H) as (i & Hi & <-). pose proof sorted_uidx as S. destruct S as [|a l S F]; [destruct Hi|]. cbn. split; [auto|]. destruct Hi as [<-|Hi]; [auto|]. right. rewrite Forall_forall in F. apply F, Hi.
Qed.
Lemma uidx_last j : (j < len keys)%nat -> In (last uidx 0%nat) uidx /\ (nth j keys [] = nth (last uidx 0%nat) keys [] \/ lex_lt (nth j keys []) (nth (last uidx 0%nat) keys []) = true).
Proof.
  intros H. destruct (uidx_exists j H) as (i & Hi & <-). pose proof sorted_uidx as S. revert i Hi. induction S as [|a l S IH F]; intros i Hi; [destruct Hi|]. destruct l as [|b l].
  - destruct Hi as [<-|[]]. cbn. auto.
  - change (last (a :: b :: l) 0%nat) with (last (b :: l) 0%nat). destruct Hi as [<-|Hi].
    + destruct (IH b (or_introl eq_refl)) as [I1 I2]. split; [right; exact I1|]. right. rewrite Forall_forall in F. apply F, I1.
    + destruct (IH i Hi) as [I1 I2]. split; [right; exact I1|exact I2].
Qed.
End Unique.

(** ** The line IDs *)
Lemma zinsert_in z l : forall x, In x (zinsert z l) <-> x = z \/ In x l.
Proof.
  induction l as [|y l IH]; intros x; cbn [zinsert]; [cbn; intuition|]. destruct (z =? y)%Z eqn:E; [apply Z.eqb_eq in E; subst; cbn; intuition|]. destruct (z <? y)%Z; cbn; [intuition|]. rewrite IH. intuition.
Qed.
Lemma zinsert_sorted z l : StronglySorted Z.lt l -> StronglySorted Z.lt (zinsert z l).
Proof.
  induction 1 as [|y l S IH F]; cbn [zinsert]; [repeat constructor|]. destruct (z =? y)%Z eqn:E; [constructor; assumption|]. apply Z.eqb_neq in E. destruct (z <? y)%Z eqn:E1.
  - apply Z.ltb_lt in E1. constructor; [constructor; assumption|]. constructor; [exact E1|]. rewrite Forall_forall in *. intros p Hp. specialize (F p Hp). lia.
  - apply Z.ltb_ge in E1. constructor; [exact IH|]. rewrite Forall_forall in *. intros p Hp. apply zinsert_in in Hp. destruct Hp as [->|Hp]; [lia|apply F, Hp].
Qed.
Lemma unique_ids_in ids : forall z, In z (unique_ids ids) <-> In z ids.
Proof.
  unfold unique_ids. assert (G : forall l z, In z (fold_left (fun l z => zinsert z l) ids l) <-> In z ids \/ In z l).
  { induction ids as [|y ids IH]; intros l z; [cbn; intuition|]. cbn. rewrite IH, zinsert_in. intuition. }
  intros z. rewrite G. cbn. intuition.
Qed.
Lemma unique_ids_sorted ids : StronglySorted Z.lt (unique_ids ids).
Proof.
  unfold unique_ids. assert (G : forall l, StronglySorted Z.lt l -> StronglySorted Z.lt (fold_left (fun l z => zinsert z l) ids l)).
  { induction ids as [|y ids IH]; intros l H; [exact H|]. cbn. apply IH, zinsert_sorted, H. }
  apply G. constructor.
Qed.
Lemma line_index_in ids z j : In j (line_index ids z) <-> on_line ids z j.
Proof. unfold line_index, on_line. rewrite filter_In, in_seq, Z.eqb_eq. intuition lia. Qed.
Lemma line_index_nodup ids z : NoDup (line_index ids z).
Proof. apply NoDup_filter, seq_NoDup. Qed.
