(** Vocabulary for the preconditioner: what a misfit term really sees of the sensitivities, the
    diagonal of the Hessian, and when a preconditioner belongs to the system being solved. *)
From Coq Require Import Reals.
From Verif Require Import Py Vec SolveDeriv Precond.
Local Open Scope R_scope.

(** The squared length of the weighted response to a unit change of parameter [j]. *)
Definition response2 (n : nat) (m : vec) (t : term) (j : nat) : R :=
  let a := vmul (t_W t) (mv (t_J t m) (unit_vec n j)) in dot a a.
(** Sizes agree, and whatever the simulation offers the directive describes the same sensitivities as
    its products do. *)
Definition consistent (n : nat) (m : vec) (t : term) : Prop :=
  is_mat (length (t_W t)) n (t_J t m) /\
  match t_sens t with
  | HasJ J => J m = t_J t m
  | HasDiag g => length (g m (t_W t)) = n /\ forall j, (j < n)%nat -> nth j (g m (t_W t)) 0 = response2 n m t j
  | HasNone => False
  end.
(** Second derivatives of a regularization: square and positive semidefinite. *)
Definition psd (n : nat) (m w : vec) (r : rterm) : Prop :=
  match r_deriv2 r m w with
  | Some M => is_mat n n M /\ forall v, length v = n -> 0 <= dot v (mv M v)
  | None => True
  end.
Definition reg_entry (n : nat) (m w : vec) (j : nat) (r : rterm) : R :=
  match r_deriv2 r m w with Some M => dot (unit_vec n j) (mv M (unit_vec n j)) | None => 0 end.
Definition total {A} (f : A -> R) (l : list A) : R := fold_right (fun a s => f a + s) 0 l.

Definition good (p : problem) (m w : vec) : Prop :=
  Forall (consistent (p_n p) m) (p_misfit p) /\ Forall (psd (p_n p) m w) (rterms (p_reg p)).
Definition unit_multipliers (p : problem) : Prop :=
  Forall (fun t => t_mult t = 1) (p_misfit p) /\ Forall (fun r => r_mult r = 1) (rterms (p_reg p)).
Definition is_combo (p : problem) : Prop := exists l, p_reg p = Combo l.
Definition no_zero (p : problem) : Prop := forall m w, Forall (fun r => r_deriv2 r m w <> None) (rterms (p_reg p)).
(** The diagonal entry [j] of the Hessian of phi_d + beta phi_m *)
Definition H_diag (p : problem) (m : vec) (beta : R) (w : vec) (j : nat) : R :=
  dot (unit_vec (p_n p) j) (hess p m beta w (unit_vec (p_n p) j)).

(** The preconditioner in the state is the one that belongs to its model, trade-off parameter and
    weights. *)
Definition fresh (p : problem) (s : st) : Prop :=
  exists d, s_pc s = Some d /\ precond false p (s_m s) (s_beta s) (s_w s) = Ok d.
Definition keeps (d : directive) : Prop := match d with DPre _ | DOther => True | _ => False end.
(** Directives of which nothing fails and which leave the preconditioner alone *)
Definition other (d : directive) : Prop := match d with DPre _ | DWj _ _ => False | _ => True end.

(** ** Small cases *)
Definition sense1 (J : mat) (mult : R) (W : vec) : term := mkTerm mult W (fun _ => J) (HasJ (fun _ => J)).
Definition small (M : mat) (mult : R) : rterm := mkRterm mult (fun _ _ => Some M).
(** one parameter, one datum, J = 1, W = 1, R = 2 *)
Definition one1 (cd cm : R) : problem := mkProblem 1 [sense1 [[1]] cd [1]] (Combo [small [[2]] cm]).
(** two parameters, the second seen by the regularization only *)
Definition two2 : problem := mkProblem 2 [sense1 [[1; 0]] 1 [1]] (Combo [small [[2; 0]; [0; 2]] 1]).
Definition zero_reg : problem := mkProblem 1 [sense1 [[1]] 1 [1]] (Combo [mkRterm 1 (fun _ _ => None)]).
Definition plain_reg : problem := mkProblem 1 [sense1 [[1]] 1 [1]] (Plain (small [[2]] 1)).
Definition no_sens : problem := mkProblem 1 [mkTerm 1 [1] (fun _ => [[1]]) HasNone] (Combo []).

(** [d] is, entry by entry, between one and two times the inverse diagonal of the Hessian, and zero
    where that diagonal is zero. *)
Definition near_jacobi (p : problem) (m : vec) (beta : R) (w : vec) (d : vec) : Prop :=
  length d = p_n p /\ forall j, (j < p_n p)%nat ->
  let h := H_diag p m beta w j in
  (h = 0 -> nth j d 0 = 0) /\ (h <> 0 -> 0 < h /\ 1 / h <= nth j d 0 <= 2 / h).
Definition well_posed (p : problem) : Prop := (forall m w, good p m w) /\ is_combo p /\ no_zero p.
Definition no_wj (d : directive) : Prop := match d with DWj _ _ => False | _ => True end.
(** the iterations (counted from 1) at which Update_Wj acts *)
Definition acts_by (itr : option nat) (N : nat) : Prop :=
  match itr with None => (1 <= N)%nat | Some i => (1 <= i <= N)%nat end.
