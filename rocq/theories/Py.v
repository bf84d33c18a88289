(** Python-level conventions shared by the whole model: exceptions as values. *)
From Coq Require Export List Arith Lia Bool.
Export ListNotations.

(** The exception classes the modelled code raises (raise statements are cited at
    each use). *)
Inductive exn : Set :=
| TypeError | ValueError | KeyError | AttributeError | IndexError
| AssertionError | NotImplementedError | ZeroDivisionError | OverflowError | GenericException.

(** Result of a call that may raise. *)
Inductive result (A : Type) : Type :=
| Ok (a : A)
| Err (e : exn).
Arguments Ok {A} a.
Arguments Err {A} e.

Definition is_ok {A} (r : result A) : bool := match r with Ok _ => true | Err _ => false end.

Definition bind {A B} (r : result A) (f : A -> result B) : result B :=
  match r with Ok a => f a | Err e => Err e end.
Notation "'do' x <- r ; k" := (bind r (fun x => k))
  (at level 200, x pattern, r at level 100, k at level 200, right associativity).

(** [for x in l: ...] with an early exit on the first exception. *)
Fixpoint mapM {A B} (f : A -> result B) (l : list A) : result (list B) :=
  match l with
  | [] => Ok []
  | x :: l' => do y <- f x; do ys <- mapM f l'; Ok (y :: ys)
  end.

Lemma mapM_ok_length {A B} (f : A -> result B) l r :
  mapM f l = Ok r -> length r = length l.
Proof.
  revert r; induction l as [|x l IH]; cbn; intros r H.
  - injection H as <-; reflexivity.
  - destruct (f x) as [y|e]; cbn in H; [|discriminate].
    destruct (mapM f l) as [ys|e]; cbn in H; [|discriminate].
    injection H as <-; cbn; f_equal; auto.
Qed.

Lemma mapM_ok_nth {A B} (f : A -> result B) l r i x :
  mapM f l = Ok r -> nth_error l i = Some x -> exists y, nth_error r i = Some y /\ f x = Ok y.
Proof.
  revert r i; induction l as [|x0 l IH]; cbn; intros r i H Hx.
  - destruct i; discriminate.
  - destruct (f x0) as [y|e] eqn:Hy; cbn in H; [|discriminate].
    destruct (mapM f l) as [ys|e]; cbn in H; [|discriminate].
    injection H as <-. destruct i as [|i]; cbn in *.
    + injection Hx as <-. eauto.
    + eauto.
Qed.

(** Python dictionaries as association lists in insertion order: assigning an
    existing key keeps its position and replaces the value. *)
Section Dict.
  Context {K V : Type} (eqb : K -> K -> bool).
  Fixpoint dict_set (k : K) (v : V) (d : list (K * V)) : list (K * V) :=
    match d with
    | [] => [(k, v)]
    | (k', v') :: d' => if eqb k k' then (k', v) :: d' else (k', v') :: dict_set k v d'
    end.
  Fixpoint dict_get (k : K) (d : list (K * V)) : option V :=
    match d with
    | [] => None
    | (k', v') :: d' => if eqb k k' then Some v' else dict_get k d'
    end.
  Fixpoint dict_del (k : K) (d : list (K * V)) : list (K * V) :=
    match d with
    | [] => []
    | (k', v') :: d' => if eqb k k' then d' else (k', v') :: dict_del k d'
    end.

  Hypothesis eqb_ok : forall a b, eqb a b = true <-> a = b.

  Lemma eqb_rfl a : eqb a a = true.
  Proof. apply eqb_ok; reflexivity. Qed.
  Lemma eqb_neq a b : a <> b -> eqb a b = false.
  Proof. intros H; destruct (eqb a b) eqn:E; [apply eqb_ok in E; contradiction|reflexivity]. Qed.

  Lemma dict_get_set_eq k v d : dict_get k (dict_set k v d) = Some v.
  Proof.
    induction d as [|[k' v'] d IH]; cbn.
    - rewrite eqb_rfl; reflexivity.
    - destruct (eqb k k') eqn:E; cbn; rewrite E; auto.
  Qed.
  Lemma dict_get_set_neq k k2 v d : k2 <> k -> dict_get k2 (dict_set k v d) = dict_get k2 d.
  Proof.
    intros Hn; induction d as [|[k' v'] d IH]; cbn.
    - rewrite (eqb_neq _ _ Hn); reflexivity.
    - destruct (eqb k k') eqn:E; cbn.
      + apply eqb_ok in E; subst k'. rewrite (eqb_neq _ _ Hn). reflexivity.
      + rewrite IH; reflexivity.
  Qed.
  Lemma dict_set_new k v d : ~ In k (map fst d) -> dict_set k v d = d ++ [(k, v)].
  Proof.
    induction d as [|[k' v'] d IH]; cbn; intros H; [reflexivity|].
    rewrite (eqb_neq k k'); [|intros ->; tauto]. rewrite IH; tauto.
  Qed.
  Lemma dict_get_none k d : dict_get k d = None <-> ~ In k (map fst d).
  Proof.
    induction d as [|[k' v'] d IH]; cbn; [tauto|].
    destruct (eqb k k') eqn:E.
    - apply eqb_ok in E; subst; split; [discriminate|tauto].
    - assert (k' <> k) by (intros ->; rewrite eqb_rfl in E; discriminate). tauto.
  Qed.
  Lemma dict_get_in k v d : dict_get k d = Some v -> In (k, v) d.
  Proof.
    induction d as [|[k' v'] d IH]; cbn; [discriminate|].
    destruct (eqb k k') eqn:E.
    - apply eqb_ok in E; subst; injection 1 as <-; auto.
    - auto.
  Qed.
  Lemma in_dict_get k v d : NoDup (map fst d) -> In (k, v) d -> dict_get k d = Some v.
  Proof.
    induction d as [|[k' v'] d IH]; cbn; intros Hnd Hin; [contradiction|destruct Hin as [E|Hin]].
    - injection E as -> ->. rewrite eqb_rfl; reflexivity.
    - inversion Hnd as [|? ? Hn Hd]; subst.
      rewrite eqb_neq; [apply IH; assumption|].
      intros ->. apply Hn. change k' with (fst (k', v)). apply in_map; assumption.
  Qed.
End Dict.

(** Boolean duplicate test on nat identities ([ensure_unique]). *)
Fixpoint memb (x : nat) (l : list nat) : bool :=
  match l with [] => false | y :: l' => Nat.eqb x y || memb x l' end.
Fixpoint nodupb (l : list nat) : bool :=
  match l with [] => true | x :: l' => negb (memb x l') && nodupb l' end.
Lemma memb_In x l : memb x l = true <-> In x l.
Proof.
  induction l as [|y l IH]; cbn; [split; [discriminate|tauto]|].
  rewrite orb_true_iff, Nat.eqb_eq, IH. intuition congruence.
Qed.
Lemma nodupb_NoDup l : nodupb l = true <-> NoDup l.
Proof.
  induction l as [|x l IH]; cbn.
  - split; [constructor|reflexivity].
  - rewrite andb_true_iff, negb_true_iff, IH. split.
    + intros [H1 H2]; constructor; [|assumption].
      rewrite <- memb_In, H1; discriminate.
    + inversion 1; subst; split; [|assumption].
      destruct (memb x l) eqn:E; [apply memb_In in E; contradiction|reflexivity].
Qed.
Lemma skipn_skipn {A} x y (l : list A) : skipn x (skipn y l) = skipn (x + y) l.
Proof.
  revert x l; induction y as [|y IH]; intros x l.
  - rewrite Nat.add_0_r; reflexivity.
  - rewrite Nat.add_succ_r. destruct l as [|a l]; [destruct x; reflexivity|]. cbn. apply IH.
Qed.
