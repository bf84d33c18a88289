(** Specification vocabulary for the time domain simulations. *)
From Verif Require Import Py Vec VecDeriv Joint Tdem.
From Verif Require SpecDc.
From Coq Require Import Reals.
Local Open Scope R_scope.

(** An exact solver for the matrix [A]: the only solution of the system. *)
Definition solves (n : nat) (solve : mx -> vec -> vec) (A : mx) : Prop :=
  forall b, length b = n -> length (solve A b) = n /\ act false A (solve A b) = b /\ forall y, length y = n -> act false A y = b -> y = solve A b.
Definition no_zero (v : vec) : Prop := forall i, (i < length v)%nat -> nth i v 0 <> 0.
Definition nO (s : td) : nat := if isEB s then t_nF s else t_nE s.

(** The pieces have the sizes they should. *)
Definition sizes (s : td) : Prop :=
  is_mat (t_nF s) (t_nE s) (t_C s) /\ is_mat (nS s) (t_nc s) (t_B s) /\
  (forall m, length m = t_p s -> length (t_val s m) = t_nc s /\ is_mat (t_nc s) (t_p s) (t_deriv s m)) /\
  length (t_Mu s) = nO s /\ no_zero (t_Mu s) /\ length (t_MfI s) = t_nF s /\ length (t_MeI s) = t_nE s /\
  is_mat (nS s) (t_nn s) (t_G s) /\ (0 < t_nn s)%nat /\
  t_steps s <> [] /\ Forall (fun d => 0 < d) (t_steps s) /\
  (forall A b, length (t_solve s A b) = length b).
(** Two steps in a row are equal or differ by more than dt_threshold. *)
Fixpoint apart (thr : R) (l : list R) : Prop :=
  match l with a :: ((b :: _) as r) => (a = b \/ thr < Rabs (b - a)) /\ apart thr r | _ => True end.
(** Sources with vectors of the right sizes; a closed loop injects no current. *)
Definition src_ok (s : td) (src : source) : Prop :=
  match s_kind src with
  | Dip p k => length p = nO s /\ length k = t_nF s /\ (s_init src = true -> (2 <= nT s)%nat)
  | Line q a g => length q = nS s /\ length a = nO s /\ (g = false -> gradT s q = vzero (t_nn s))
  end /\ (t_form s = FormB -> grounded src = false).
(** Receivers of a field that the formulation has. *)
Definition rx_ok (s : td) (r : receiver) : Prop :=
  is_mat (r_nD r) (S (nT s) * t_nE s) (r_PE r) /\ is_mat (r_nD r) (S (nT s) * t_nF s) (r_PF r) /\ no_field s (r_field r) = None.
Definition setup_ok (s : td) (srcs : list source) : Prop :=
  sizes s /\ Forall (fun src => src_ok s src /\ Forall (rx_ok s) (s_rx src)) srcs.
(** The solver is exact for the matrices of a model, and inner products can be inverted. *)
Definition solvable (s : td) (m : vec) : Prop :=
  length m = t_p s /\ no_zero (Sg s m) /\
  (forall dt, In dt (t_steps s) -> solves (dim s) (t_solve s) (getA s dt m) /\ solves (dim s) (t_solve s) (MT (getA s dt m))) /\
  solves (t_nn s) (t_solve s) (getAdc s m) /\
  (t_form s = FormH -> solves (t_nF s) (t_solve s) (t_mmr s) /\ (forall t a, length a = t_nF s -> length (act t (t_mmr s) a) = t_nF s) /\
     (forall a b, length a = t_nF s -> length b = t_nF s -> act false (t_mmr s) (vadd a b) = vadd (act false (t_mmr s) a) (act false (t_mmr s) b)) /\
     (forall c a, length a = t_nF s -> act false (t_mmr s) (vscale c a) = vscale c (act false (t_mmr s) a))).
(** The property is differentiable with the derivative of its mapping, around which the system
    can be solved. *)
Definition regular (s : td) (m : vec) : Prop :=
  length m = t_p s /\ has_jacobian (t_p s) (t_nc s) (t_val s) m (mv (t_deriv s m)) /\ SpecDc.near (t_p s) m (solvable s).
Definition data_size (srcs : list source) : nat := list_sum (map src_nD srcs).
Definition val {A} (d : A) (r : result A) : A := match r with Ok x => x | Err _ => d end.

(** ** Discrete Maxwell equations at the nodes of the time mesh, backward in time, for e and b
    (E-B) or j and h (H-J). *)
Definition ampere (s : td) (m : vec) (src : source) (k : nat) (x y : vec) : Prop :=
  if isEB s then vsub (curlT s (vmul (t_Mu s) y)) (vmul (Sg s m) x) = s_e s src (time s k)
  else vsub (curl s y) x = s_e s src (time s k).
Definition faraday (s : td) (m : vec) (dt : R) (x' y y' : vec) : Prop :=
  if isEB s then vadd (vscale (1 / dt) (vsub y' y)) (curl s x') = vzero (t_nF s)
  else vadd (vscale (1 / dt) (vmul (t_Mu s) (vsub y' y))) (curlT s (vmul (Sg s m) x')) = vzero (t_nE s).
Definition evolution (s : td) (m : vec) (src : source) (xs ys : list vec) : Prop :=
  length xs = S (nT s) /\ length ys = S (nT s) /\
  (forall k, (k <= nT s)%nat -> length (nth k xs []) = nS s /\ length (nth k ys []) = nO s /\ ampere s m src k (nth k xs []) (nth k ys [])) /\
  (forall k, (k < nT s)%nat -> faraday s m (step s k) (nth (S k) xs []) (nth k ys []) (nth (S k) ys [])).
(** The change of the source over a step, divided by the step, as FormJ takes it. *)
Definition same_rate (s : td) (src : source) : Prop :=
  forall k, (k < nT s)%nat -> forall m, getRHS s (S k) m src = vmul (Sg s m) (vscale (-1 / step s k) (vsub (s_e s src (time s (S k))) (s_e s src (time s k)))).
Definition with_form (s : td) (k : form) (solve : mx -> vec -> vec) : td :=
  mkTd k (t_p s) (t_nE s) (t_nF s) (t_nc s) (t_nn s) (t_C s) (t_B s) (t_val s) (t_deriv s) (t_Mu s) (t_MfI s) (t_MeI s) (t_G s) (t_mmr s)
    (t_t0 s) (t_steps s) (t_thr s) solve.

(** The fields of a source at all nodes *)
Definition history_of (s : td) (m : vec) (src : source) (x : fname) (us : list vec) : list vec := over (fun k u => getfield s m src k x u) 0 us.

(** Receivers that do not use the fields at the last time. *)
Definition not_last (s : td) (r : receiver) : Prop :=
  forall a b, length a = (nT s * locs s (r_field r))%nat -> length b = locs s (r_field r) ->
  mv (rxP s r) (a ++ b) = mv (rxP s r) (a ++ vzero (locs s (r_field r))).
(** When the adjoint treats the initial condition: the initial fields do not depend on the model,
    or the formulation is for e and the first two steps exist and are equal. *)
Definition start_ok (s : td) (src : source) : Prop :=
  match t_form s, s_kind src with
  | FormB, _ => True
  | _, Dip _ _ => True
  | FormE, Line _ _ g => g = true -> (2 <= nT s)%nat /\ (s_init src = true -> step s 1 = step s 0)
  | FormH, Line _ _ g => grounded src = false
  | FormJ, Line _ _ _ => grounded src = false
  end.

(** ** Small simulations for examples *)
Definition tsolve (A : mx) (b : vec) : vec := map (fun i => nth i b 0 / nth i (act false A (vconst (length b) 1)) 0) (seq 0 (length b)).
(** One edge, one face, one cell, one node; the property is the model. *)
Definition tiny (f : form) (steps : list R) (thr g : R) : td :=
  mkTd f 1 1 1 1 1 [[1]] [[1]] (fun m => m) (fun _ => [[1]]) [1] [1] [1] [[g]] (Mdiag [1]) 0 steps thr tsolve.
(** A receiver of the field [x] at node [k] *)
Definition pick (n k : nat) : vec := map (fun i => if Nat.eqb i k then 1 else 0) (seq 0 n).
Definition tiny_rx (s : td) (x : fname) (k : nat) : receiver := mkRx x 1 [pick (S (nT s) * t_nE s) k] [pick (S (nT s) * t_nF s) k].
(** A wire whose current grows, without initial fields; a closed loop switched off at once; a
    grounded wire switched off at once *)
Definition ramp_src (rx : list receiver) : source := mkSrc (Line [1] [1] false) false (fun t => t) rx.
Definition loop_src (rx : list receiver) : source := mkSrc (Line [1] [1] false) true (fun _ => 0) rx.
Definition wire_src (rx : list receiver) : source := mkSrc (Line [1] [1] true) true (fun _ => 0) rx.
(** Two faces that do not interact, for resistivities m and 1, and a grounded wire *)
Definition wide : td :=
  mkTd FormJ 1 1 2 2 1 [[0]; [0]] [[1; 0]; [0; 1]] (fun m => [nth 0 m 0; 1]) (fun _ => [[1]; [0]]) [1] [1; 1] [1] [[1]; [1]] (Mdiag [1; 1]) 0 [1; 1] 0 tsolve.
Definition wide_src : source := mkSrc (Line [1; 0] [0] true) true (fun _ => 0) [mkRx Fj 1 [pick 3 0] [pick 6 0]].
(** A grounded wire whose current grows, and one with a second receiver *)
Definition ramp_wire (rx : list receiver) : source := mkSrc (Line [1] [1] true) false (fun t => t) rx.
Definition late_dip (rx : list receiver) : source := mkSrc (Dip [1] [1]) true (fun t => if Rlt_dec 0 t then 0 else 1) rx.
(** The fields that receivers may ask for and a formulation does not have *)
Definition missing (f : form) (x : fname) : bool := match f, x with (FormE | FormJ), (Fb | Fh) => true | _, _ => false end.
Definition ns : R := / 1000000000.
