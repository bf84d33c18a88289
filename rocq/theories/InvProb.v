(** Model of simpeg/inverse_problem.py: [BaseInvProblem.getFields], [get_dpred] and
    [evalFunction], with the loops of [ComboObjectiveFunction] (objective_function.py
    455-499) that receive the fields. *)
From Verif Require Import Py Vec.
Local Open Scope R_scope.

(** A term of the data misfit: the multiplier and either a [BaseDataMisfit] (it has a
    simulation, and [has_fields] is True, data_misfit.py 40) or anything else: a nested
    combination or another objective function (no simulation, [has_fields] False,
    objective_function.py 56). *)
Inductive term := TSim (mult : R) (sim : nat) | TOther (mult : R) (k : nat).

Section P.
(** Model vectors' contents, the state of the simulations, and fields. *)
Context {M S F : Type}.
(** [sim.fields(m)] *)
Variable sim_fields : nat -> S -> M -> F.

(** 279-289: one entry per term with a simulation ([f += []] adds none). *)
Fixpoint all_fields (s : S) (m : M) (ts : list term) : list F :=
  match ts with
  | [] => []
  | TSim _ k :: ts' => sim_fields k s m :: all_fields s m ts'
  | TOther _ _ :: ts' => all_fields s m ts'
  end.

(** The loops 459-470, 475-485 and 490-499: the value, derivative and second derivative all
    visit the terms with the same index into [f]; terms with multiplier 0 are skipped.
    [leaf k f] is what misfit k returns with the fields f. *)
Fixpoint combo_loop {T} (zero : T) (add : T -> T -> T) (scale : R -> T -> T) (leaf : nat -> F -> T) (other : nat -> T)
    (f : list F) (i : nat) (ts : list term) : result T :=
  match ts with
  | [] => Ok zero
  | TSim a k :: ts' =>
      if Req_EM_T a 0 then combo_loop zero add scale leaf other f (i + 1) ts' else
      match nth_error f i with
      | None => Err IndexError
      | Some u => do r <- combo_loop zero add scale leaf other f (i + 1) ts'; Ok (add (scale a (leaf k u)) r)
      end
  | TOther a k :: ts' =>
      if Req_EM_T a 0 then combo_loop zero add scale leaf other f (i + 1) ts' else
      do r <- combo_loop zero add scale leaf other f (i + 1) ts'; Ok (add (scale a (other k)) r)
  end.
(** 298-305 [get_dpred]: the predicted data of the terms with a simulation, concatenated;
    [np.hstack] of nothing raises. *)
Fixpoint dpred_loop (dpred : nat -> F -> vec) (f : list F) (i : nat) (ts : list term) : result (list vec) :=
  match ts with
  | [] => Ok []
  | TSim _ k :: ts' =>
      match nth_error f i with
      | None => Err IndexError
      | Some u => do r <- dpred_loop dpred f (i + 1) ts'; Ok (dpred k u :: r)
      end
  | TOther _ _ :: ts' => dpred_loop dpred f (i + 1) ts'
  end.
Definition get_dpred (dpred : nat -> F -> vec) (f : list F) (ts : list term) : result vec :=
  do l <- dpred_loop dpred f 0 ts; match l with [] => Err ValueError | _ => Ok (concat l) end.

(** The arrays in memory, the simulations' state and the warm start list (model object and
    fields, which may be None, 252-267). *)
Record ipst := mkIp { ip_heap : nat -> M; ip_sim : S; ip_warm : list (nat * option (list F)) }.
(** 269-277: [m is mtest]. *)
Fixpoint warm_lookup (m : nat) (w : list (nat * option (list F))) : option (list F) :=
  match w with
  | [] => None
  | (k, f) :: w' => if Nat.eqb k m then f else warm_lookup m w'
  end.
(** 269-296 with the default [deleteWarmstart=True] (the only use). *)
Definition getFields (ts : list term) (st : ipst) (m : nat) (store : bool) : list F * ipst :=
  let f := match warm_lookup m (ip_warm st) with
           | Some f => f
           | None => all_fields (ip_sim st) (ip_heap st m) ts
           end in
  (f, mkIp (ip_heap st) (ip_sim st) (if store then [(m, Some f)] else [])).

(** The pieces of the objective: misfits with their fields, other terms, regularization. *)
Variables (mis : nat -> M -> F -> R) (mis_g : nat -> M -> F -> vec) (mis_h : nat -> M -> F -> vec -> vec)
          (oth : nat -> M -> R) (oth_g : nat -> M -> vec) (oth_h : nat -> M -> vec -> vec)
          (reg : M -> R) (reg_g : M -> vec) (reg_h : M -> vec -> vec) (dpred : nat -> M -> F -> vec).
(** 307-373 [evalFunction]: phi, the predicted data, and the gradient and the Hessian
    product at [v] when asked for.  The Hessian product is taken at once, before anything
    else changes. *)
Definition evalFunction (ts : list term) (beta : R) (st : ipst) (m : nat) (g h : bool) (v z : vec) : result (R * vec * option vec * option vec) * ipst :=
  let '(f, st') := getFields ts st m (negb g && negb h) in
  let x := ip_heap st m in
  (do phi_d <- combo_loop 0 Rplus Rmult (fun k => mis k x) (fun k => oth k x) f 0 ts;
   do dp <- get_dpred (fun k => dpred k x) f ts;
   do gr <- (if g then do d <- combo_loop z vadd vscale (fun k => mis_g k x) (fun k => oth_g k x) f 0 ts; Ok (Some (vadd d (vscale beta (reg_g x)))) else Ok None);
   do hv <- (if h then do d <- combo_loop z vadd vscale (fun k u => mis_h k x u v) (fun k => oth_h k x v) f 0 ts; Ok (Some (vadd d (vscale beta (reg_h x v)))) else Ok None);
   Ok (phi_d + beta * reg x, dp, gr, hv), st').

(** What can happen between evaluations: an array is overwritten in place, a simulation is
    changed, the warm start list is assigned. *)
Inductive ipop :=
  | OEval (m : nat) (g h : bool)
  | OWrite (m : nat) (c : M)
  | OSimChange (s : S)
  | OWarm (w : list (nat * option (list F))).
Definition ip_step (ts : list term) (st : ipst) (o : ipop) : ipst :=
  match o with
  | OEval m g h => snd (getFields ts st m (negb g && negb h))
  | OWrite m c => mkIp (fun k => if Nat.eqb k m then c else ip_heap st k) (ip_sim st) (ip_warm st)
  | OSimChange s => mkIp (ip_heap st) s (ip_warm st)
  | OWarm w => mkIp (ip_heap st) (ip_sim st) w
  end.
End P.
