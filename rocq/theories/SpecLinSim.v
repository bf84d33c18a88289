(** Specification vocabulary for linear simulations, sinusoid kernels and time steps. *)
From Verif Require Import Py Vec VecDeriv PropsM LinSim.
Local Open Scope R_scope.

(** A mapping from n to p numbers whose deriv is its Jacobian. *)
Definition map_ok (n p : nat) (f : pmap) : Prop :=
  fits n (pm_in f) = true /\
  forall m, length m = n -> length (pm_val f m) = p /\ is_mat p n (pm_deriv f m) /\ has_jacobian n p (pm_val f) m (mv (pm_deriv f m)).
(** States reached from a new simulation. *)
Definition reached (s : lin) : Prop := exists f G l, s = lrun (lin_init f G) l.
(** The simulation currently uses this operator and this mapping. *)
Definition uses (s : lin) (G : mat) (f : pmap) : Prop := l_G s = Some G /\ read_map (l_prop s) P = Some f.

(** Entry (i, k) of the operator: the integral of kernel i over cell k by the trapezoidal
    rule; kernel i has the i-th of n numbers equally spaced from j0 to jn. *)
Definition freq (c : ecfg) (i : nat) : R := e_j0 c + INR i * ((e_jn c - e_j0 c) / INR (e_n c - 1)).
Definition wave (c : ecfg) (j x : R) : R := exp (e_p c * j * x) * cos (PI * e_q c * j * x).
Definition node (c : ecfg) (k : nat) : R := e_x0 c + vsum (firstn k (e_h c)).
Definition trapezoid (c : ecfg) (i k : nat) : R :=
  (wave c (freq c i) (node c k) + wave c (freq c i) (node c (S k))) / 2 * nth k (e_h c) 0.
Definition is_operator (c : ecfg) (G : mat) : Prop :=
  length G = e_n c /\ forall i, (i < e_n c)%nat -> length (nth i G []) = length (e_h c) /\ forall k, (k < length (e_h c))%nat -> nth k (nth i G []) 0 = trapezoid c i k.
Definition is_read (o : eop) : bool := match o with EReadG | EReadJk => true | _ => false end.

(** Times: the start and, one after the other, each step added. *)
Definition coherent (t0 : R) (steps ts : vec) : Prop :=
  length ts = S (length steps) /\ nth 0 ts 0 = t0 /\ forall i, (i < length steps)%nat -> nth (S i) ts 0 - nth i ts 0 = nth i steps 0.
(** What a history of assignments leaves: the last accepted values. *)
Definition widths_of (v : tval) : option (option vec) :=
  match v with
  | TNone => Some None
  | TArr a => Some (Some a)
  | TBad => None
  | TList l => match unpack_widths l with Ok a => Some (Some a) | Err _ => None end
  end.
Definition last_t0 (t0 : R) (l : list top) : R := fold_left (fun a o => match o with TT0 (Some t) => t | _ => a end) l t0.
Definition last_steps (h : option vec) (l : list top) : option vec :=
  fold_left (fun a o => match o with TSteps v => match widths_of v with Some h => h | None => a end | _ => a end) l h.
