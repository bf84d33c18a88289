(** Specification vocabulary for the inverse problem. *)
From Verif Require Import Py Vec InvProb.
Local Open Scope R_scope.

Section P.
Context {M S F : Type}.
Variable sim_fields : nat -> S -> M -> F.
(** The weighted sum of the terms, each misfit with the fields of its own simulation at the
    model [x]. *)
Fixpoint true_sum {T} (zero : T) (add : T -> T -> T) (scale : R -> T -> T) (leaf : nat -> F -> T) (other : nat -> T)
    (s : S) (x : M) (ts : list term) : T :=
  match ts with
  | [] => zero
  | TSim a k :: ts' =>
      if Req_EM_T a 0 then true_sum zero add scale leaf other s x ts'
      else add (scale a (leaf k (sim_fields k s x))) (true_sum zero add scale leaf other s x ts')
  | TOther a k :: ts' =>
      if Req_EM_T a 0 then true_sum zero add scale leaf other s x ts'
      else add (scale a (other k)) (true_sum zero add scale leaf other s x ts')
  end.
(** The predicted data of the simulations, in order. *)
Fixpoint true_dpred (dp : nat -> F -> vec) (s : S) (x : M) (ts : list term) : vec :=
  match ts with
  | [] => []
  | TSim _ k :: ts' => dp k (sim_fields k s x) ++ true_dpred dp s x ts'
  | TOther _ _ :: ts' => true_dpred dp s x ts'
  end.
End P.
Definition has_sim (t : term) : bool := match t with TSim _ _ => true | TOther _ _ => false end.
(** Every misfit with a simulation comes before every other term. *)
Definition sims_first (ts : list term) : Prop :=
  exists a b, ts = a ++ b /\ (forall t, In t a -> has_sim t = true) /\ (forall t, In t b -> has_sim t = false).
(** Histories in which nothing the stored fields depend on changes between the evaluation
    that stores them (one that asks for neither derivative) and the next evaluation. *)
Fixpoint undisturbed {M S F} (stored : option nat) (ops : list (@ipop M S F)) : Prop :=
  match ops with
  | [] => True
  | OEval m g h :: r => undisturbed (if g || h then None else Some m) r
  | OWrite m _ :: r => stored <> Some m /\ undisturbed stored r
  | OSimChange _ :: r => stored = None /\ undisturbed stored r
  | OWarm w :: r => w = [] /\ undisturbed None r
  end.
(** A run of operations. *)
Definition ip_run {M S F} (sf : nat -> S -> M -> F) (ts : list term) (st : ipst) (ops : list ipop) : ipst := fold_left (ip_step sf ts) ops st.
