(** Specification vocabulary for physical properties and models. *)
From Verif Require Import Py Vec PropsM.
Local Open Scope R_scope.

(** What currently defines the property/reciprocal pair, read off the history: the
    last value or map assigned, unless that very attribute was cleared since. *)
Inductive def := DValue (s : side) (v : vec) | DMap (s : side) (m : pmap).
Definition side_eqb (a b : side) : bool := match a, b with P, P => true | Q, Q => true | _, _ => false end.
Definition def_step (d : option def) (o : pop) : option def :=
  match o with
  | SetValue s v => Some (DValue s v)
  | SetMap s m => Some (DMap s m)
  | ClearValue s => match d with Some (DValue s' _) => if side_eqb s s' then None else d | _ => d end
  | ClearMap s => match d with Some (DMap s' _) => if side_eqb s s' then None else d | _ => d end
  | Rejected => d
  end.
Definition current_def (ops : list pop) : option def := fold_left def_step ops None.
(** The private attributes hold exactly that definition. *)
Definition holds_exactly (st : pst) (d : option def) : Prop :=
  (forall s v, getv st s = Some v <-> d = Some (DValue s v)) /\
  (forall s m, getm st s = Some m <-> d = Some (DMap s m)).

(** Elementwise reciprocals, wherever neither is zero. *)
Definition recip_pair (a b : vec) : Prop :=
  length a = length b /\ forall i, (i < length a)%nat -> nth i a 0 <> 0 -> nth i b 0 <> 0 -> nth i a 0 * nth i b 0 = 1.

(** Histories in which the user neither edits in place the array that is the current
    model, nor assigns a model that differs from, but is "close" to, the current one. *)
Section Clean.
  Context {V : Type} (f : vec -> V).
  Definition clean_op (s : cst (V := V)) (o : cop) : Prop :=
    match o with
    | Mutate i _ => cur s <> Some i
    | Assign i => (i < length (heap s))%nat /\
        (forall j, cur s = Some j -> deref s j = deref s i \/ allclose (deref s j) (deref s i) = Ok false
                                     \/ exists e, allclose (deref s j) (deref s i) = Err e)
    | _ => True
    end.
  Fixpoint clean (s : cst (V := V)) (ops : list cop) : Prop :=
    match ops with [] => True | o :: ops' => clean_op s o /\ clean (fst (fst (cstep f s o))) ops' end.
End Clean.

(** ** Nested modelers *)
(** Same tree with the same models everywhere (caches may differ). *)
Inductive same_models : hm -> hm -> Prop :=
| SameModels needs m c c' l l' : Forall2 same_models l l' -> same_models (HM needs m c l) (HM needs m c' l').
(** The object and every nested object that needs a model hold the model [u], which
    fits their mappings. *)
Inductive in_sync (u : vec) : hm -> Prop :=
| InSync needs c l : forallb (fits (length u)) needs = true ->
    (forall x, In x l -> needs_model x = true -> in_sync u x) -> in_sync u (HM needs (MArr u) c l).
(** No model anywhere in the object and in the nested objects that need one, and the
    nested objects have no nested objects of their own. *)
Definition no_models (h : hm) : Prop :=
  hm_model h = MNone /\ forall x, In x (hm_nest h) -> needs_model x = true -> hm_model x = MNone /\ hm_nest x = [].
Fixpoint height (h : hm) : nat := let 'HM _ _ _ l := h in S (fold_right (fun c a => Nat.max (height c) a) 0%nat l).
