(** Programs in which no array is shared treat data objects by value. *)
From Verif Require Import Py Vec Survey DataM Synth SpecSynth SynthFacts.
From Coq Require Import Lia Lra.
Local Open Scope R_scope.
Local Open Scope list_scope.

Definition separate (s : state) : Prop :=
  (forall k x, nth_error (st_objs s) k = Some x -> NoDup (held x) /\ forall i, In i (held x) -> (i < length (st_heap s))%nat)
  /\ (forall j k x y, j <> k -> nth_error (st_objs s) j = Some x -> nth_error (st_objs s) k = Some y -> forall i, In i (held x) -> ~ In i (held y)).

Lemma view_ext : forall nD h e o, (forall i, In i (held o) -> (i < length h)%nat) -> view nD (h ++ e) o = view nD h o.
Proof.
  intros nD h e o H. unfold view. unfold held in H.
  assert (Hd : (o_dobs o < length h)%nat) by (apply H; left; reflexivity).
  assert (Hr : forall j, o_rel o = Some j -> (j < length h)%nat) by (intros j Hj; apply H; right; rewrite Hj; apply in_or_app; right; left; reflexivity).
  assert (Hf : forall j, o_floor o = Some j -> (j < length h)%nat) by (intros j Hj; apply H; right; rewrite Hj; apply in_or_app; right; apply in_or_app; right; left; reflexivity).
  rewrite shown_ext, kind_ext, !shown_real_ext by assumption. f_equal.
  destruct (o_clean o) as [c|] eqn:E; [|reflexivity]. cbn. rewrite shown_ext; [reflexivity|]. apply H. right. left. reflexivity.
Qed.

Lemma nth_put : forall l k o j, nth_error (put_obj l k o) j = if andb (Nat.eqb j k) (Nat.ltb k (length l)) then Some o else nth_error l j.
Proof.
  induction l as [|b r IH]; intros k o j; cbn [put_obj].
  - destruct (Nat.eqb j k); cbn; destruct j; reflexivity.
  - destruct k; destruct j; cbn [nth_error Nat.eqb]; try reflexivity.
    rewrite IH. cbn [length]. replace (Nat.ltb (Datatypes.S k) (Datatypes.S (length r))) with (Nat.ltb k (length r)); [reflexivity|].
    destruct (Nat.ltb_spec k (length r)); symmetry; [apply Nat.ltb_lt|apply Nat.ltb_ge]; lia.
Qed.
Lemma put_length : forall l k o, length (put_obj l k o) = length l.
Proof. induction l; intros [|k] o; cbn; auto. Qed.
Lemma map_put : forall (A : Type) (f : obj -> A) l k o, (k < length l)%nat -> map f (put_obj l k o) = firstn k (map f l) ++ f o :: skipn (Datatypes.S k) (map f l).
Proof. intros A f. induction l as [|b r IH]; intros k o H; [cbn in H; lia|]. destruct k; [reflexivity|]. cbn. f_equal. apply IH. cbn in H. lia. Qed.

Lemma views_ext : forall nD h e l, (forall k x, nth_error l k = Some x -> forall i, In i (held x) -> (i < length h)%nat) -> map (view nD (h ++ e)) l = map (view nD h) l.
Proof.
  intros nD h e l H. apply map_ext_in. intros x Hx. apply view_ext. apply In_nth_error in Hx. destruct Hx as [k Hk]. exact (H k x Hk).
Qed.

(** A new object. *)
Lemma separate_add : forall nD s h' o, separate s -> extends (st_heap s) h' -> NoDup (held o) ->
  (forall i, In i (held o) -> (i < length h')%nat /\ ((forall x, In x (st_objs s) -> ~ In i (held x)) \/ (length (st_heap s) <= i)%nat)) ->
  separate (mkState h' (st_objs s ++ [o])) /\ views nD (mkState h' (st_objs s ++ [o])) = views nD s ++ [view nD h' o].
Proof.
  intros nD [h l] h' o [S1 S2] X N H. cbn [st_heap st_objs] in *. pose proof (extends_len _ _ X) as L.
  assert (Out : forall x k, nth_error l k = Some x -> forall i, In i (held x) -> ~ In i (held o)).
  { intros x k Hk i Hi Ho. destruct (H i Ho) as [_ [A|A]]; [exact (A x (nth_error_In _ _ Hk) Hi)|]. destruct (S1 k x Hk) as [_ B]. specialize (B i Hi). lia. }
  assert (Case : forall k x, nth_error (l ++ [o]) k = Some x -> (nth_error l k = Some x /\ (k < length l)%nat) \/ (x = o /\ k = length l)).
  { intros k x Hk. destruct (Nat.lt_ge_cases k (length l)) as [A|A]; [left; rewrite nth_error_app1 in Hk by exact A; split; assumption|].
    right. rewrite nth_error_app2 in Hk by exact A. destruct (k - length l)%nat as [|q] eqn:E; [cbn in Hk; injection Hk as <-; split; [reflexivity|lia]|destruct q; discriminate]. }
  split; [split|].
  - cbn [st_heap st_objs]. intros k x Hk. destruct (Case k x Hk) as [[A _]|[-> _]]; [|split; [exact N|intros i Hi; apply H; exact Hi]].
    destruct (S1 k x A) as [B1 B2]. split; [exact B1|]. intros i Hi. specialize (B2 i Hi). lia.
  - cbn [st_heap st_objs]. intros j k x y Hjk Hj Hk i Hi Hy. destruct (Case j x Hj) as [[A _]|[-> A]]; destruct (Case k y Hk) as [[B _]|[-> B]].
    + exact (S2 j k x y Hjk A B i Hi Hy).
    + exact (Out x j A i Hi Hy).
    + exact (Out y k B i Hy Hi).
    + lia.
  - unfold views. cbn [st_heap st_objs]. rewrite map_app. cbn [map]. f_equal. destruct X as [e ->]. apply views_ext. intros k x Hk. apply S1 with k. exact Hk.
Qed.

(** A changed object. *)
Lemma separate_put : forall nD s h' k x o f, separate s -> extends (st_heap s) h' -> nth_error (st_objs s) k = Some x -> NoDup (held o) ->
  (forall i, In i (held o) -> (i < length h')%nat /\ (In i (held x) \/ (forall y, In y (st_objs s) -> ~ In i (held y)) \/ (length (st_heap s) <= i)%nat)) ->
  f (view nD (st_heap s) x) = view nD h' o ->
  separate (mkState h' (put_obj (st_objs s) k o)) /\ views nD (mkState h' (put_obj (st_objs s) k o)) = change (views nD s) k f.
Proof.
  intros nD [h l] h' k x o f [S1 S2] X Hk N H F. cbn [st_heap st_objs] in *. pose proof (extends_len _ _ X) as L.
  assert (Lk : (k < length l)%nat) by (apply nth_error_Some; congruence).
  assert (Bk : Nat.ltb k (length l) = true) by (apply Nat.ltb_lt; exact Lk).
  assert (Out : forall y j, j <> k -> nth_error l j = Some y -> forall i, In i (held y) -> ~ In i (held o)).
  { intros y j Hjk Hj i Hi Ho. destruct (H i Ho) as [_ [A|[A|A]]].
    - exact (S2 j k y x Hjk Hj Hk i Hi A).
    - exact (A y (nth_error_In _ _ Hj) Hi).
    - destruct (S1 j y Hj) as [_ B]. specialize (B i Hi). lia. }
  assert (Case : forall j y, nth_error (put_obj l k o) j = Some y -> (nth_error l j = Some y /\ j <> k) \/ (y = o /\ j = k)).
  { intros j y Hj. rewrite nth_put, Bk, Bool.andb_true_r in Hj. destruct (Nat.eqb_spec j k) as [->|D]; [injection Hj as <-; right; split; reflexivity|left; split; assumption]. }
  split; [split|].
  - cbn [st_heap st_objs]. intros j y Hj. destruct (Case j y Hj) as [[A _]|[-> _]]; [|split; [exact N|intros i Hi; apply H; exact Hi]].
    destruct (S1 j y A) as [B1 B2]. split; [exact B1|]. intros i Hi. specialize (B2 i Hi). lia.
  - cbn [st_heap st_objs]. intros j j2 y y2 Hjk Hj Hj2 i Hi Hy. destruct (Case j y Hj) as [[A A']|[-> A]]; destruct (Case j2 y2 Hj2) as [[B B']|[-> B]].
    + exact (S2 j j2 y y2 Hjk A B i Hi Hy).
    + exact (Out y j A' A i Hi Hy).
    + exact (Out y2 j2 B' B i Hy Hi).
    + lia.
  - unfold views, change. cbn [st_heap st_objs]. rewrite (map_nth_error (view nD h) _ _ Hk), F, map_put by exact Lk.
    destruct X as [e ->]. rewrite views_ext; [reflexivity|]. intros j y Hj. apply S1 with j. exact Hj.
Qed.

(** Writing into the data of an object. *)
Lemma put_arr_nth : forall h i a j, nth_error (put_arr h i a) j = if andb (Nat.eqb j i) (Nat.ltb i (length h)) then Some a else nth_error h j.
Proof.
  induction h as [|b r IH]; intros i a j; cbn [put_arr].
  - destruct (Nat.eqb j i); cbn; destruct j; reflexivity.
  - destruct i; destruct j; cbn [nth_error Nat.eqb]; try reflexivity.
    rewrite IH. cbn [length]. replace (Nat.ltb (Datatypes.S i) (Datatypes.S (length r))) with (Nat.ltb i (length r)); [reflexivity|].
    destruct (Nat.ltb_spec i (length r)); symmetry; [apply Nat.ltb_lt|apply Nat.ltb_ge]; lia.
Qed.
Lemma put_arr_length : forall h i a, length (put_arr h i a) = length h.
Proof. induction h; intros [|i] b; cbn; auto. Qed.
Lemma shown_put : forall h i a j, (i < length h)%nat -> shown (put_arr h i a) j = if Nat.eqb j i then a_vals a else shown h j.
Proof.
  intros h i a j H. unfold shown. rewrite put_arr_nth. apply Nat.ltb_lt in H. rewrite H, Bool.andb_true_r. destruct (Nat.eqb j i); reflexivity.
Qed.
Lemma kind_put : forall h i a j, (i < length h)%nat -> kind (put_arr h i a) j = if Nat.eqb j i then a_cplx a else kind h j.
Proof.
  intros h i a j H. unfold kind. rewrite put_arr_nth. apply Nat.ltb_lt in H. rewrite H, Bool.andb_true_r. destruct (Nat.eqb j i); reflexivity.
Qed.
Lemma shown_real_put : forall h i a j, (i < length h)%nat -> (forall q, j = Some q -> q <> i) -> shown_real (put_arr h i a) j = shown_real h j.
Proof.
  intros h i a [q|] H D; [|reflexivity]. cbn. rewrite shown_put by exact H. specialize (D q eq_refl). apply Nat.eqb_neq in D. rewrite D. reflexivity.
Qed.
Lemma view_put_other : forall nD h i a o, (i < length h)%nat -> ~ In i (held o) -> view nD (put_arr h i a) o = view nD h o.
Proof.
  intros nD h i a o H N. unfold held in N. unfold view.
  assert (D : o_dobs o <> i) by (intro E; apply N; left; exact E). apply Nat.eqb_neq in D.
  rewrite shown_put, kind_put, D by exact H. rewrite !shown_real_put; try exact H.
  - f_equal. destruct (o_clean o) as [c|]; [|reflexivity]. cbn. rewrite shown_put by exact H.
    assert (Dc : c <> i) by (intros ->; apply N; right; left; reflexivity). apply Nat.eqb_neq in Dc. rewrite Dc. reflexivity.
  - intros q Hq ->. apply N. right. apply in_or_app. right. apply in_or_app. right. rewrite Hq. left. reflexivity.
  - intros q Hq ->. apply N. right. apply in_or_app. right. apply in_or_app. left. rewrite Hq. left. reflexivity.
Qed.
