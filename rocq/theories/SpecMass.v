(** Specification vocabulary for property mass matrices. *)
From Verif Require Import Py Vec VecDeriv PropsM Mass.
Local Open Scope R_scope.

(** Nothing is stored. *)
Definition nothing_stored (s : msim) : Prop := forall sd k, s_m s sd k = None /\ s_i s sd k = None /\ s_d s sd k = None.
(** A use of the simulation that does not run into the three findings below: mappings and
    mesh are only replaced, and properties only deleted, when no matrix has been computed
    since the last assignment of a property or model; a new model either equals the old one
    or differs from it by more than the tolerance of the comparison. *)
Definition careful (s : msim) (o : mop) : Prop :=
  match o with
  | MMap _ _ | MMesh _ | MDel _ => nothing_stored s
  | MModel (Some v) => match s_model s with Some u => u = v \/ allclose u v <> Ok true | None => True end
  | _ => True
  end.
Inductive history : dmesh -> msim -> Prop :=
| h_init B : history B (sim_init B)
| h_step B s o : history B s -> careful s o -> history (match o with MMesh B' => B' | _ => B end) (mstep s o).
(** A mapping with values of length p and a Jacobian at x. *)
Definition jac_at (n p : nat) (f : pmap) (x : vec) : Prop :=
  length x = n /\ (forall y, length y = n -> length (pm_val f y) = p) /\ is_mat p n (pm_deriv f x) /\ has_jacobian n p (pm_val f) x (mv (pm_deriv f x)).
(** M(x) u and its inverse, for the diagonal matrix M(x) = diag(B f(x)). *)
Definition applied (B : mat) (f : pmap) (u x : vec) : vec := vmul (mv B (pm_val f x)) u.
Definition solved (B : mat) (f : pmap) (u x : vec) : vec := vdiv u (mv B (pm_val f x)).
(** A mesh of two cells of volumes 2 and 3 with one kind of matrix for the examples. *)
Definition mesh23 : dmesh := fun _ => [[2; 0]; [0; 3]].
Definition mesh55 : dmesh := fun _ => [[5; 0]; [0; 5]].
Definition idmap : pmap := mkPmap (fun x => x) (fun _ => [[1; 0]; [0; 1]]) (Some 2%nat).
Definition twice : pmap := mkPmap (fun x => vscale 2 x) (fun _ => [[2; 0]; [0; 2]]) (Some 2%nat).
