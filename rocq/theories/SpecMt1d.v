(** Specification for layered magnetotellurics (C75). *)
From Verif Require Import Py Vec VecDeriv PropsM Cx Mt1d.
Local Open Scope R_scope.

(** A property is usable at [m]: a mapping has the right output size and its derivative is
    the true one; the values are positive. *)
Definition usable (p n : nat) (q : pspec) (m : vec) : Prop :=
  length (pval q m) = n /\ Forall (fun x => 0 < x) (pval q m) /\
  match q with
  | Fixed _ => True
  | Mapped val der => (forall m', length m' = p -> length (val m') = n) /\
                      is_mat n p (der m) /\ has_jacobian p n val m (mv (der m))
  end.
(** A simulation with [n] layers above the bottom one, a model of length [p]. *)
Definition usable_sim (s : mt) (p n : nat) (m : vec) : Prop :=
  0 < mt_mu s /\ Forall (fun c => 0 < s_freq c) (mt_srcs s) /\ length m = p /\
  usable p (S n) (mt_sigma s) m /\ usable p n (mt_thick s) m.
(** Receivers the simulation handles: one location, and not complex. *)
Definition plain_rx (s : mt) : Prop :=
  Forall (fun fr => r_nloc (snd fr) = 1%nat /\ r_comp (snd fr) <> CComplex) (rx_pairs s).
(** At least one property is inverted for. *)
Definition invertible (s : mt) : Prop := is_mapped (mt_sigma s) = true \/ is_mapped (mt_thick s) = true.

(** What a receiver measures, given the impedance at its frequency. *)
Definition measured (mu f : R) (Z : cx) (c : comp) : R :=
  match c with
  | CReal => Re Z | CImag => Im Z
  | CAppRes => nrm2 Z / (2 * PI * f * mu)
  | CPhase => 180 / PI * arctan2 (Im Z) (Re Z)
  | CComplex => 0
  end.

(** A linear functional of a complex row. *)
Fixpoint xdot (l : list cx) (v : vec) : cx :=
  match l, v with d :: l', a :: v' => d *x xr a +x xdot l' v' | _, _ => x0 end.

Definition apart (a b : vec) : Prop := a = b \/ allclose a b = Ok false.
Definition model_of (c : call) : vec :=
  match c with CallDpred m => m | CallJvec m _ => m | CallJtvec m _ => m | CallDiag m _ => m end.
Definition separated (ms : list vec) : Prop := forall a b, In a ms -> In b ms -> apart a b.
Definition is_diag (c : call) : bool := match c with CallDiag _ _ => true | _ => false end.
(** The answer of an object that has never been used before. *)
Definition fresh (s : mt) (c : call) : result vec := snd (do_call s (mt0 false) c).

(** Example: a half-space, one real receiver, the conductivity is the model. *)
Definition half (c : comp) (k : nat) : mt :=
  mkMt (/ PI) [mkSrc 1 [mkRx c k]] (Mapped (fun m => m) (fun _ => [[1]])) (Fixed []).
(** Two layers, both properties mapped: conductivities (1, m0), thickness m1. *)
Definition two_layer : mt :=
  mkMt (/ PI) [mkSrc 2 [mkRx CPhase 1]; mkSrc 1 [mkRx CAppRes 1; mkRx CImag 1]]
    (Mapped (fun m => [1; nth 0 m 0]) (fun _ => [[0; 0]; [1; 0]]))
    (Mapped (fun m => [nth 1 m 0]) (fun _ => [[0; 1]])).

(** ** Maxwell's equations in the layered earth *)
(** In a layer of conductivity [sigma], as functions of depth: E' = i w mu H and
    H' = sigma E (the horizontal fields, vertical axis upwards, time factor exp(i w t)). *)
Definition maxwell (w mu sigma : R) (E H : R -> cx) : Prop :=
  forall d, cdl E d (xscale (w * mu) xi *x H d) /\ cdl H d (xr sigma *x E d).
(** [E0] and [H0] are the surface values of fields that solve the equations in every layer
    (from the top; conductivity, thickness), are continuous at the interfaces, and stay
    bounded in the bottom half-space. *)
Fixpoint surface (w mu : R) (ls : list (R * R)) (sb : R) (E0 H0 : cx) : Prop :=
  match ls with
  | [] => exists E H, maxwell w mu sb E H /\ E 0 = E0 /\ H 0 = H0 /\
                      exists B, forall d, 0 <= d -> nrm2 (E d) <= B /\ nrm2 (H d) <= B
  | (sigma, t) :: ls' => exists E H, maxwell w mu sigma E H /\ E 0 = E0 /\ H 0 = H0 /\
                      surface w mu ls' sb (E t) (H t)
  end.

(** The [j]-th coordinate direction. *)
Definition coord (p j : nat) : vec := map (fun i => if Nat.eqb i j then 1 else 0) (seq 0 p).
(** No entry of the model feeds both properties. *)
Definition no_effect (q : pspec) (m : vec) (j : nat) : Prop :=
  match q with Fixed _ => True | Mapped _ der => Forall (fun row => nth j row 0 = 0) (der m) end.
Definition separate_maps (s : mt) (m : vec) : Prop :=
  forall j, (j < length m)%nat -> no_effect (mt_sigma s) m j \/ no_effect (mt_thick s) m j.
