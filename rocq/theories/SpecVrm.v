(** Specification vocabulary for the decays of viscous remanent magnetization. *)
From Coq Require Import Reals.
From Verif Require Import Py Vec Scaling Vrm.
Local Open Scope R_scope.

(** [v] is the integral of [f] from [a] to [b]. *)
Definition integral (f : R -> R) (a b v : R) : Prop := exists F, (forall s, a <= s <= b -> derivable_pt_lim F s (f s)) /\ v = F b - F a.
(** The current between samples: linear. *)
Definition current (ta ga tb gb s : R) : R := ga + (gb - ga) * (s - ta) / (tb - ta).
(** The memory of a current at time [t]: the integral of [current s / (t - s)], piece by piece. *)
Inductive memory (t : R) : vec -> vec -> R -> Prop :=
| memory_end ta ga : memory t [ta] [ga] 0
| memory_cons ta ga tb gb tv g v w : integral (fun s => current ta ga tb gb s / (t - s)) ta tb v -> memory t (tb :: tv) (gb :: g) w -> memory t (ta :: tb :: tv) (ga :: gb :: g) (v + w).
Fixpoint increasing (l : vec) : Prop := match l with a :: ((b :: _) as l') => a < b /\ increasing l' | _ => True end.
Definition after (l : vec) (t : R) : Prop := Forall (fun x => x < t) l.
Definition later (l times : vec) : Prop := Forall (after l) times.
(** Samples are off up to 1e-10, also when negative. *)
Definition off (x : R) : Prop := x <= / 10000000000.
Definition ons (x : R) : Prop := / 10000000000 < x.
(** A waveform: [lead] and [p] are off, [core] begins and ends on, [rest] is off. *)
Definition shape (lead : vec) (p : R) (core rest : vec) : Prop := Forall off lead /\ off p /\ core <> [] /\ ons (hd 0 core) /\ ons (last core 0) /\ Forall off rest.
(** Its times, and that they belong to these currents. *)
Definition timed (tl : vec) (tc tr : vec) (lead core rest : vec) : Prop := length tl = length lead /\ length tc = length core /\ length tr = length rest.
(** The largest magnitude *)
Definition peak (g : vec) (M : R) : Prop := 0 < M /\ (forall x, In x g -> Rabs x <= M) /\ exists x, In x g /\ Rabs x = M.
Definition scaled (M : R) (g : vec) : vec := map (fun x => x / M) g.
