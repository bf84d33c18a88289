(** Properties C33 and C34: the fields an inverse problem evaluates with. *)
From Coq Require Import Lra.
From Verif Require Import Py Vec InvProb SpecInvProb InvProbFacts.
Local Open Scope R_scope.

(** C33.  After any undisturbed history of evaluations (with in-place changes of other
    arrays and changes of simulations in between), the fields used for a model are those the
    simulations compute now from its present contents. *)
Theorem C33_fields_belong_partial : forall (M S F : Type) (sf : nat -> S -> M -> F) ts st ops m store,
  ip_warm st = [] -> undisturbed None ops -> let st' := ip_run sf ts st ops in
  fst (getFields sf ts st' m store) = all_fields sf (ip_sim st') (ip_heap st' m) ts.
Proof. intros M S F. exact fields_fresh. Qed.
Print Assumptions C33_fields_belong_partial.
(** A line search: two trial points, then derivatives at the second. *)
Example C33_case : undisturbed (M := R) (S := unit) (F := R) None
  [OEval 0 true true; OEval 1 false false; OWrite 0 7; OEval 2 false false; OEval 2 true true; OSimChange tt].
Proof. cbn. repeat split. discriminate. Qed.
(** Refuted without that hypothesis: an array changed in place after a line search still
    gets the fields of its old contents, since models are compared by identity. *)
Theorem C33_in_place_refuted : exists (st : @ipst R unit R) ops m, ip_warm st = [] /\
  let sf := fun (_ : nat) (_ : unit) (x : R) => x in let ts := [TSim 1 0] in let st' := ip_run sf ts st ops in
  fst (getFields sf ts st' m false) <> all_fields sf (ip_sim st') (ip_heap st' m) ts.
Proof.
  exists (mkIp (fun _ => 0) tt []), [OEval 0 false false; OWrite 0 1], 0%nat. split; [reflexivity|]. cbn. intros [= H]. lra.
Qed.
Print Assumptions C33_in_place_refuted.
(** Likewise when a simulation changes between the line search and the next evaluation. *)
Theorem C33_simulation_change_refuted : exists (st : @ipst R R R) ops m, ip_warm st = [] /\
  let sf := fun (_ : nat) (s : R) (x : R) => s * x in let ts := [TSim 1 0] in let st' := ip_run sf ts st ops in
  fst (getFields sf ts st' m false) <> all_fields sf (ip_sim st') (ip_heap st' m) ts.
Proof.
  exists (mkIp (fun _ => 1) 1 []), [OEval 0 false false; OSimChange 2], 0%nat. split; [reflexivity|]. cbn. intros [= H]. lra.
Qed.
Print Assumptions C33_simulation_change_refuted.

(** C34.  When the misfits with simulations come first, the objective, the predicted data,
    the gradient and the Hessian product are the weighted sums in which every misfit has
    its own simulation's fields at the model, plus beta times the regularization. *)
Theorem C34_own_fields_partial : forall (M S F : Type) (sf : nat -> S -> M -> F) mis mis_g mis_h oth oth_g oth_h reg reg_g reg_h dpred
    ts beta st ops m g h v z, ip_warm st = [] -> undisturbed None ops -> sims_first ts -> existsb has_sim ts = true ->
  let st' := ip_run sf ts st ops in let x := ip_heap st' m in let s := ip_sim st' in
  fst (evalFunction sf mis mis_g mis_h oth oth_g oth_h reg reg_g reg_h dpred ts beta st' m g h v z) =
  Ok (true_sum sf 0 Rplus Rmult (fun k => mis k x) (fun k => oth k x) s x ts + beta * reg x,
      true_dpred sf (fun k => dpred k x) s x ts,
      (if g then Some (vadd (true_sum sf z vadd vscale (fun k => mis_g k x) (fun k => oth_g k x) s x ts) (vscale beta (reg_g x))) else None),
      (if h then Some (vadd (true_sum sf z vadd vscale (fun k u => mis_h k x u v) (fun k => oth_h k x v) s x ts) (vscale beta (reg_h x v))) else None)).
Proof. intros M S F sf. exact (eval_fresh sf). Qed.
Print Assumptions C34_own_fields_partial.
Example C34_case : sims_first [TSim 1 0; TSim 0 1; TSim 2 5; TOther 3 0] /\ existsb has_sim [TSim 1 0; TSim 0 1; TSim 2 5; TOther 3 0] = true.
Proof.
  split; [|reflexivity]. exists [TSim 1 0; TSim 0 1; TSim 2 5], [TOther 3 0]. split; [reflexivity|].
  split; intros t; cbn; intuition subst; reflexivity.
Qed.
(** Refuted in general: after a term without a simulation (such as a nested combination),
    a misfit is evaluated with another simulation's fields, or the evaluation raises. *)
Theorem C34_mixed_terms_refuted : forall (M S F : Type) (sf : nat -> S -> M -> F) a b c k j l s x (leaf : nat -> F -> R) (other : nat -> R),
  a <> 0 -> b <> 0 -> c <> 0 ->
  combo_loop 0 Rplus Rmult leaf other (all_fields sf s x [TOther a j; TSim b k; TSim 0 l]) 0 [TOther a j; TSim b k; TSim 0 l] =
    Ok (a * other j + (b * leaf k (sf l s x) + 0)) /\
  combo_loop 0 Rplus Rmult leaf other (all_fields sf s x [TOther a j; TSim b k; TSim c l]) 0 [TOther a j; TSim b k; TSim c l] = Err IndexError.
Proof. intros. split; [apply misaligned_wrong|apply misaligned]; assumption. Qed.
Print Assumptions C34_mixed_terms_refuted.
