(** Model of the waveforms of viscous remanent magnetization
    (simpeg/electromagnetics/viscous_remanent_magnetization/waveforms.py). Numbers are exact;
    quotients are only claimed about where their denominators are not zero. *)
From Coq Require Import Reals.
From Verif Require Import Py Vec Scaling.
Local Open Scope R_scope.

(** fieldType: "h", "b", "dhdt", "dbdt" *)
Inductive ftype := FH | FB | FDH | FDB.
Definition is_b (f : ftype) : bool := match f with FB | FDB => true | _ => false end.
Definition is_rate (f : ftype) : bool := match f with FDH | FDB => true | _ => false end.
(** 83: mu0 *)
Definition mu0 : R := 4 * PI * / 10000000.
(** [a >= np.min(times)] (74, 220, 514); the minimum of no times fails *)
Definition early (a : R) (times : vec) : bool := match times with [] => true | _ => existsb (fun t => negb (ltb a t)) times end.

(** ** StepOff.getCharDecay 52-88 *)
Definition step_at (t0 t : R) : R := - 1 / (t - t0).
Definition step_decay (t0 : R) (f : ftype) (times : vec) : result vec :=
  if negb (is_rate f) then Err ValueError
  else if early t0 times then Err ValueError
  else Ok (map (fun t => if is_b f then - mu0 / (t - t0) else step_at t0 t) times).
(** ** SquarePulse.getCharDecay 198-239 *)
Definition pulse_h (t0 delt t : R) : R := ln (1 + delt / (t - t0)).
Definition pulse_dh (t0 delt t : R) : R := - (1 / (t - t0) - 1 / (t - t0 + delt)).
Definition pulse_at (t0 delt : R) (f : ftype) (t : R) : R :=
  match f with
  | FH => pulse_h t0 delt t
  | FB => mu0 * pulse_h t0 delt t
  | FDH => pulse_dh t0 delt t
  | FDB => - mu0 * (1 / (t - t0) - 1 / (t - t0 + delt))
  end.
Definition pulse_decay (t0 delt : R) (f : ftype) (times : vec) : result vec :=
  if early t0 times then Err ValueError else Ok (map (pulse_at t0 delt f) times).

(** ** getLogUniformDecay, one cell and one time *)
Definition sign (x : R) : R := if Rlt_dec x 0 then -1 else if Rlt_dec 0 x then 1 else 0.
(** 145-149 *)
Definition lstep_dh (t0 dchi tau1 tau2 t : R) : R :=
  0 + 1 / 2 * (1 + sign (t - t0)) * (dchi / ln (tau2 / tau1)) * (exp (- (t - t0) / tau1) - exp (- (t - t0) / tau2)) / (t - t0).
(** 305-320 *)
Definition lpulse_dh (t0 delt dchi tau1 tau2 t : R) : R :=
  0 + 1 / 2 * (1 + sign (t - t0)) * (dchi / ln (tau2 / tau1)) * (exp (- (t - t0) / tau1) - exp (- (t - t0) / tau2)) / (t - t0)
  - 1 / 2 * (1 + sign (t - t0 + delt)) * (dchi / ln (tau2 / tau1)) * (exp (- (t - t0 + delt) / tau1) - exp (- (t - t0 + delt) / tau2)) / (t - t0 + delt).
(** 285-292; [Ei]: scipy.special.expi *)
Definition lpulse_h (Ei : R -> R) (t0 delt chi0 dchi tau1 tau2 t : R) : R :=
  (sign (t - t0 + delt) - sign (t - t0)) * (chi0 - dchi)
  - 1 / 2 * (1 + sign (t - t0)) * (dchi / ln (tau2 / tau1)) *
    (Ei (- (t - t0) / tau2) - Ei (- (t - t0) / tau1) - Ei (- (t - t0 + delt) / tau2) + Ei (- (t - t0 + delt) / tau1)).

(** ** ArbitraryPiecewise.getCharDecay 493-551 *)
(** One term of the sums: currents at its ends, its length and the time since its end *)
Definition seg_h (g0 g1 dt a : R) : R := (g1 + (g1 - g0) * a / dt) * ln (1 + dt / a) - g1 + g0.
Definition seg_dh (g0 g1 dt a : R) : R := (g1 - g0) / dt * ln (1 + dt / a) - (g1 + (g1 - g0) * a / dt) * (1 / (a + dt) - 1 / a).
(** 533-545: the sum over consecutive samples *)
Fixpoint seg_sum (term : R -> R -> R -> R -> R) (tv g : vec) (t : R) : R :=
  match tv, g with
  | ta :: ((tb :: _) as tv'), ga :: ((gb :: _) as g') => term ga gb (tb - ta) (t - tb) + seg_sum term tv' g' t
  | _, _ => 0
  end.
(** [np.where(I_wave > 1e-10)]: first and last index *)
Definition on (x : R) : bool := ltb (/ 10000000000) x.
Fixpoint first_on (l : vec) : option nat := match l with [] => None | x :: l => if on x then Some 0%nat else option_map S (first_on l) end.
Fixpoint last_on (l : vec) : option nat := match l with [] => None | x :: l => match last_on l with Some i => Some (S i) | None => if on x then Some 0%nat else None end end.
(** [l[j : k + 1]] with [j = first - 1], which is [-1] (the last sample) when the first sample is on *)
Definition window {A} (first last : nat) (l : list A) : list A :=
  let stop := (last + 2)%nat in
  let start := match first with O => (length l - 1)%nat | S j => j end in
  skipn start (firstn stop l).
Definition maxabs (l : vec) : R := fold_right (fun x m => Rmax (Rabs x) m) 0 l.
(** 363-405: arrays of one length *)
Definition wave_ok (tw iw : vec) : bool := Nat.eqb (length tw) (length iw).
(** [np.max(self.t_wave) >= np.min(times)] *)
Definition overlap (tw times : vec) : bool := match tw, times with [], _ | _, [] => true | _, _ => existsb (fun a => early a times) tw end.
Definition piece_decay (tw iw : vec) (f : ftype) (times : vec) : result vec :=
  if negb (wave_ok tw iw) then Err ValueError
  else if overlap tw times then Err ValueError
  else
    match first_on iw, last_on iw with
    | Some a, Some b =>
        let g := window a b iw in
        match g with
        | [] => Err ValueError
        | _ =>
            let tv := window a b tw in
            let g := map (fun x => x / maxabs g) g in
            let eta := map (seg_sum (if is_rate f then seg_dh else seg_h) tv g) times in
            Ok (if is_b f then map (fun x => mu0 * x) eta else eta)
        end
    | _, _ => Err IndexError
    end.
