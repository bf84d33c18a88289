(** Vocabulary for the directives of joint inversions. *)
From Verif Require Import Py Vec JointDir.
Local Open Scope R_scope.

(** How a trade-off parameter [b] answers to a misfit [phi] with the target [t]. *)
Definition rule (g : settings) (t phi b b' : R) : Prop :=
  (set_update g = true -> phi <= t -> b' = b / Rmax (3 / 4) (phi / t)) /\
  (set_update g = true -> t < phi <= (1 + set_tol g) * t -> b' = b / Rmin (3 / 2) (phi / t)) /\
  (set_update g = true -> (1 + set_tol g) * t < phi -> b' = b / set_factor g) /\
  (set_update g = false -> t < phi -> b' = b / set_factor g) /\
  (set_update g = false -> phi <= t -> b' = b).
(** Every [set_rate] iterations. *)
Definition due (g : settings) (k : nat) : Prop := (0 < k)%nat /\ Nat.divide (set_rate g) k.
Inductive scheduled (g : settings) (t : R) : R -> list (nat * R) -> R -> Prop :=
| sch_nil b : scheduled g t b [] b
| sch_due b k phi b' l b'' : due g k -> rule g t phi b b' -> scheduled g t b' l b'' -> scheduled g t b ((k, phi) :: l) b''
| sch_wait b k phi l b'' : ~ due g k -> scheduled g t b l b'' -> scheduled g t b ((k, phi) :: l) b''.
(** The values of misfit [k] over the iterations. *)
Definition values (k : nat) (is : list step) : list (nat * R) := map (fun i => (st_iter i, nth k (st_d i) 0)) is.
(** A proper set-up for [n] misfits: the measure first, every directive once; nothing zero. *)
Definition proper (g : settings) (n : nat) : Prop :=
  (exists rest, set_dirs g = Measure :: rest) /\ NoDup (set_dirs g) /\
  List.length (set_dm g) = n /\ Forall (fun c => c <> 0) (set_dm g) /\ List.length (set_nD g) = n /\ Forall (fun c => 0 < c) (set_nD g) /\
  0 <= set_tol g /\ set_factor g <> 0 /\ (0 < set_rate g)%nat.
Definition shaped (n : nat) (i : step) : Prop := List.length (st_d i) = n /\ List.length (st_r i) = S n.
(** The misfits are within the tolerance of their targets and the model hardly changed. *)
Definition settled (g : settings) (schi : R) (i : step) : Prop :=
  (forall k, (k < List.length (set_nD g))%nat -> Rabs (1 - nth k (st_d i) 0 / (nth k (set_nD g) 0 * schi)) < set_sbtol g) /\
  (sqrt (dot (st_last i) (st_last i)) = 0 -> sqrt (dot (vsub (st_x i) (st_last i)) (vsub (st_x i) (st_last i))) = 0) /\
  (sqrt (dot (st_last i) (st_last i)) <> 0 -> sqrt (dot (vsub (st_x i) (st_last i)) (vsub (st_x i) (st_last i))) / sqrt (dot (st_last i) (st_last i)) <= set_stol g).
(** What the saving directive holds for iteration [k]. *)
Definition saved_betas (s : js) (k : nat) : vec := cell s (nth k (js_saved s) 0%nat).
(** Two misfits with 10 and 1000 data; the directives in the order given. *)
Definition example (ds : list directive) (dm : vec) : settings :=
  {| set_dirs := Measure :: ds; set_dm := dm; set_nD := [10; 1000]; set_tol := / 10; set_update := true; set_rate := 1; set_factor := 2;
     set_stol := / 100000; set_sbtol := / 10; set_disk := true |}.
Definition it (k : nat) (d r : vec) : step := mkStep k d r [1] [0].
