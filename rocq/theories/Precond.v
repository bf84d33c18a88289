(** The Jacobi preconditioner directive: simpeg/directives/_directives.py UpdatePreconditioner and
    Update_Wj, with the parts of the inversion they read.  The model, the trade-off parameter and the
    state of the regularization (its weights) are exact vectors and numbers; the models the optimizer
    steps to are arbitrary. *)
From Coq Require Import Reals.
From Verif Require Import Py Vec.
Local Open Scope R_scope.

(** How a simulation can give its sensitivities: a [getJtJdiag(m, W=...)] method, a [getJ(m)]
    method, or neither. *)
Inductive sens := HasDiag (g : vec -> vec -> vec) | HasJ (J : vec -> mat) | HasNone.
(** A term of the data misfit: its multiplier, the diagonal of W, the simulation's sensitivity
    products (Jvec is the product with [t_J m]) and how the directive can reach them. *)
Record term := mkTerm { t_mult : R; t_W : vec; t_J : vec -> mat; t_sens : sens }.
(** A term of the regularization: multiplier and [deriv2(m)], which depends on the weights of the
    regularization and may be a Zero object. *)
Record rterm := mkRterm { r_mult : R; r_deriv2 : vec -> vec -> option mat }.
(** [reg]: 142-164, a ComboObjectiveFunction (WeightedLeastSquares is wrapped as 1 * reg, other combos
    are themselves), or a plain regularization, which has no [objfcts]. *)
Inductive regul := Combo (l : list rterm) | Plain (r : rterm).
Record problem := mkProblem { p_n : nat; p_misfit : list term; p_reg : regul }.

Definition diag_of (n : nat) (M : mat) : vec := map (fun i => nth i (nth i M []) 0) (seq 0 n).
(** 2223: np.sum(np.power((dmisfit.W * sim.getJ(m)), 2), axis=0) *)
Definition col_sums (n : nat) (W : vec) (J : mat) : vec :=
  let WJ := map (fun wr => vscale (fst wr) (snd wr)) (combine W J) in
  map (fun j => vsum (map (fun r => (nth j r 0) ^ 2) WJ)) (seq 0 n).
(** 2218-2225 *)
Definition jtj_diag (n : nat) (m : vec) (t : term) : result vec :=
  match t_sens t with
  | HasDiag g => Ok (g m (t_W t))
  | HasJ J => Ok (col_sums n (t_W t) (J m))
  | HasNone => Err AssertionError
  end.
Fixpoint jtj_sum (n : nat) (m : vec) (l : list term) (acc : vec) : result vec :=
  match l with
  | [] => Ok acc
  | t :: l' => do d <- jtj_diag n m t; jtj_sum n m l' (vadd acc d)
  end.
(** 2210-2214 (initialize: Zero objects are skipped) and 2243-2245 (endIter: they are not, and
    have no [diagonal]). *)
Fixpoint reg_sum (init : bool) (n : nat) (m w : vec) (l : list rterm) (acc : vec) : result vec :=
  match l with
  | [] => Ok acc
  | r :: l' =>
    match r_deriv2 r m w with
    | Some M => reg_sum init n m w l' (vadd acc (diag_of n M))
    | None => if init then reg_sum init n m w l' acc else Err AttributeError
    end
  end.
(** 2228: diagA[diagA != 0] = diagA[diagA != 0] ** -1.0 *)
Definition safe_inv (d : vec) : vec := map (fun x => if Req_EM_T x 0 then x else / x) d.
(** 2205-2231 and 2238-2260: the diagonal of the preconditioner *)
Definition precond (init : bool) (p : problem) (m : vec) (beta : R) (w : vec) : result vec :=
  match p_reg p with
  | Plain _ => Err AttributeError
  | Combo l =>
    do rd <- reg_sum init (p_n p) m w l (vzero (p_n p));
    do jd <- jtj_sum (p_n p) m (p_misfit p) (vzero (p_n p));
    Ok (safe_inv (vadd jd (vscale beta rd)))
  end.

(** ** The Hessian the optimizer works with *)
(** data_misfit.py 338-343: 2 J'(W (W (J v))) *)
Definition misfit_H (n : nat) (m : vec) (t : term) (v : vec) : vec :=
  vscale 2 (mtv n (t_J t m) (vmul (t_W t) (vmul (t_W t) (mv (t_J t m) v)))).
Definition reg_H (n : nat) (m w : vec) (r : rterm) (v : vec) : vec :=
  match r_deriv2 r m w with Some M => mv M v | None => vzero n end.
Definition rterms (g : regul) : list rterm := match g with Combo l => l | Plain r => [mkRterm 1 (r_deriv2 r)] end.
(** objective_function.py 487-515 (a sum of multiples), inverse_problem.py 366-370: phi_d2 + beta phi_m2 *)
Definition comb {A} (n : nat) (f : A -> R * vec) (l : list A) : vec :=
  fold_right (fun a acc => vadd (vscale (fst (f a)) (snd (f a))) acc) (vzero n) l.
Definition hess (p : problem) (m : vec) (beta : R) (w : vec) (v : vec) : vec :=
  vadd (comb (p_n p) (fun t => (t_mult t, misfit_H (p_n p) m t v)) (p_misfit p))
       (vscale beta (comb (p_n p) (fun r => (r_mult r, reg_H (p_n p) m w r v)) (rterms (p_reg p)))).

(** ** Directives and iterations *)
Record st := mkSt { s_m : vec; s_beta : R; s_w : vec; s_pc : option vec; s_iter : nat }.
(** [DBeta]: BetaSchedule (662-671), given its factor, rate and the optimizer's maxIter.
    [DEst b]: a directive that sets beta in [initialize] (BetaEstimate...), to a number that may depend
    on the model and the weights.  [DWeights f]: a directive that updates the weights of the
    regularization at initialization and after each iteration (UpdateSensitivityWeights, IRLS).
    [DPre every]: UpdatePreconditioner(update_every_iteration=every).  [DOther]: one that touches none
    of these. *)
Inductive directive :=
| DBeta (factor : R) (rate maxIter : nat)
| DEst (b : vec -> vec -> R)
| DWeights (f : vec -> vec -> vec)
| DPre (every : bool)
| DWj (k itr : option nat)
| DOther.
Definition set_pc (s : st) (d : vec) : st := mkSt (s_m s) (s_beta s) (s_w s) (Some d) (s_iter s).
Definition initialize (p : problem) (d : directive) (s : st) : result st :=
  match d with
  | DEst b => Ok (mkSt (s_m s) (b (s_m s) (s_w s)) (s_w s) (s_pc s) (s_iter s))
  | DWeights f => Ok (mkSt (s_m s) (s_beta s) (f (s_m s) (s_w s)) (s_pc s) (s_iter s))
  | DPre _ => do x <- precond true p (s_m s) (s_beta s) (s_w s); Ok (set_pc s x)
  | _ => Ok s
  end.
(** Update_Wj 2307-2322: [self.survey] and [self.simulation] are lists (190-218) without [nD] and
    [Jvec]; [estimate_diagonal] calls JtJv at least once since k >= 1. *)
Definition wj_end (k itr : option nat) (s : st) : result st :=
  if match itr with None => true | Some i => Nat.eqb i (s_iter s) end then Err AttributeError else Ok s.
Definition endIter (p : problem) (d : directive) (s : st) : result st :=
  match d with
  | DBeta factor rate maxIter =>
    if (0 <? s_iter s) && (s_iter s <? maxIter) && (s_iter s mod rate =? 0)
    then Ok (mkSt (s_m s) (s_beta s / factor) (s_w s) (s_pc s) (s_iter s)) else Ok s
  | DWeights f => Ok (mkSt (s_m s) (s_beta s) (f (s_m s) (s_w s)) (s_pc s) (s_iter s))
  | DPre false => Ok s
  | DPre true => do x <- precond false p (s_m s) (s_beta s) (s_w s); Ok (set_pc s x)
  | DWj k itr => wj_end k itr s
  | _ => Ok s
  end.
(** DirectiveList.call: in the order of the list *)
Fixpoint call (f : directive -> st -> result st) (ds : list directive) (s : st) : result st :=
  match ds with [] => Ok s | d :: ds' => do s' <- f d s; call f ds' s' end.
(** optimization.py 503-525 and 814-839: each iteration solves for a direction with the
    preconditioner of the moment (1405, 1646, 1671), steps to a new model, counts the iteration and
    calls the directives.  The trace lists the state at each solve. *)
Fixpoint iterate (p : problem) (ds : list directive) (steps : list vec) (s : st) (trace : list st) : result (st * list st) :=
  match steps with
  | [] => Ok (s, rev trace)
  | m' :: steps' =>
    do s' <- call (endIter p) ds (mkSt m' (s_beta s) (s_w s) (s_pc s) (S (s_iter s)));
    iterate p ds steps' s' (s :: trace)
  end.
Definition invert (p : problem) (ds : list directive) (m0 : vec) (beta0 : R) (w0 : vec) (steps : list vec) : result (st * list st) :=
  do s <- call (initialize p) ds (mkSt m0 beta0 w0 None 0); iterate p ds steps s [].
