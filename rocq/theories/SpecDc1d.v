(** Specification for layered DC resistivity (C77). *)
From Verif Require Import Py Vec VecDeriv PropsM Geom SpecGeom Dc1d.
From Verif Require Mt1d SpecMt1d.
Local Open Scope R_scope.

(** ** The layered ground *)
(** For one horizontal wavenumber, in a layer of resistivity [rho], as functions of depth:
    Ohm's law for the vertical current density and conservation of current. *)
Definition ohm (lam rho : R) (u j : R -> R) : Prop :=
  forall d, derivable_pt_lim u d (- (rho * j d)) /\ derivable_pt_lim j d (- (lam * lam / rho * u d)).
(** [u0] and [j0] are the surface values of a potential and a vertical current density that
    satisfy the equations in every layer (from the top; resistivity, thickness), are
    continuous at the interfaces, and stay bounded in the bottom half-space. *)
Fixpoint surface (lam : R) (ls : list (R * R)) (rb u0 j0 : R) : Prop :=
  match ls with
  | [] => exists u j, ohm lam rb u j /\ u 0 = u0 /\ j 0 = j0 /\ exists B, forall d, 0 <= d -> Rabs (u d) <= B /\ Rabs (j d) <= B
  | (rho, h) :: ls' => exists u j, ohm lam rho u j /\ u 0 = u0 /\ j 0 = j0 /\ surface lam ls' rb (u h) (j h)
  end.
Definition positive (l : vec) : Prop := Forall (fun x => 0 < x) l.

(** ** Filters and splines *)
(** Logarithmically spaced points, which the rounding does not disturb, and as many weights. *)
Definition log_spaced (rnd : R -> R) (f : filt) : Prop :=
  exists b0 q n, 0 < b0 /\ 1 < q /\ rnd q = q /\ (2 <= n)%nat /\ List.length (f_j0 f) = n /\ f_base f = map (fun k => b0 * q ^ k) (seq 0 n).
(** The transform of a constant: the weights have sum [c]. *)
Definition weighs (c : R) (f : filt) : Prop := vsum (f_j0 f) = c.
(** Interpolating a constant gives it back. *)
Definition keeps_constants (spline : vec -> nat -> R -> R) : Prop :=
  forall xs x, xs <> [] -> vsum (map (fun i => spline xs i x) (seq 0 (List.length xs))) = 1.

(** ** Surveys *)
(** The source drives the current [I]. *)
Definition drives (I : R) (s : gsrc) : Prop :=
  match g_src s with SPole _ => g_cur s = [I] | SDipole _ _ => g_cur s = [I; - I] | SMulti _ => False end.
Definition volts (sv : list gsrc) : Prop := Forall (fun p => g_type (snd p) <> AppRes) (g_pairs sv).
(** At most one datum per receiver. *)
Definition single_data (sv : list gsrc) : Prop := Forall (fun p => g_nD (snd p) = 1%nat) (g_pairs sv).
Definition n_data (sv : list gsrc) : nat := list_sum (map (fun p => g_nD (snd p)) (g_pairs sv)).

(** What a receiver reads over a ground of resistivity [rho] when the source drives [I]: the
    voltage, or that voltage over the one of a unit current in a unit ground. *)
Definition reading (rho I : R) (r : grx) (e : spread) : R := match g_type r with AppRes => rho * I | _ => voltage (half_space rho) I e end.

(** ** The simulation *)
Definition usable_sim (s : dc1) (p n : nat) (m : vec) : Prop :=
  List.length m = p /\ SpecMt1d.usable p (S n) (dc_rho s) m /\ SpecMt1d.usable p n (dc_thick s) m.
Definition invertible (s : dc1) : Prop := Mt1d.is_mapped (dc_rho s) = true \/ Mt1d.is_mapped (dc_thick s) = true.
Definition is_call (c : call) : bool := match c with SetSurvey _ | SetFilter _ => false | _ => true end.
Definition model_of (c : call) : vec := match c with CallDpred m | CallJvec m _ | CallJtvec m _ => m | _ => [] end.
(** The answer of an object that has never been used before. *)
Definition fresh rnd spline (s : dc1) (sv : list gsrc) (f : filt) (c : call) : result vec := snd (do_call rnd spline s (st0 sv f false) c).

(** The filter in force after a history of calls. *)
Definition last_filter (f : filt) (cs : list call) : filt := fold_left (fun f c => match c with SetFilter f' => f' | _ => f end) cs f.
Definition same_survey (c : call) : bool := match c with SetSurvey _ => false | _ => true end.

(** ** Examples *)
(** The resistivity of a half-space is the model. *)
Definition half : dc1 := {| dc_rho := Mt1d.Mapped (fun m => m) (fun _ => [[1]]); dc_thick := Mt1d.Fixed [] |}.
(** Resistivities (1, m0), thickness m1. *)
Definition two : dc1 := {| dc_rho := Mt1d.Mapped (fun m => [1; nth 0 m 0]) (fun _ => [[0; 0]; [1; 0]]); dc_thick := Mt1d.Mapped (fun m => [nth 1 m 0]) (fun _ => [[0; 1]]) |}.
(** A spline that takes one value only, a filter that takes one point only. *)
Definition flat_spline (xs : vec) (i : nat) (x : R) : R := if Nat.eqb i 0 then 1 else 0.
Definition simple_filter (c : R) : filt := {| f_base := [1; exp 1]; f_j0 := [c; 0] |}.
(** A pole of one ampere and the potentials at given distances along a line. *)
Definition line (t : dtype) (ds : vec) : list gsrc :=
  [ {| g_sid := 0; g_src := SPole [0; 0]; g_cur := [1]; g_rxs := [ {| g_rid := 0; g_type := t; g_rx := RPole (map (fun d => [d; 0]) ds) |} ] |} ].
