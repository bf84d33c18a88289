(** Model of directives of simpeg/directives/_directives.py: [BetaSchedule] and [TargetMisfit]. *)
From Verif Require Import Py Vec.
Local Open Scope R_scope.

(** ** BetaSchedule (605-671) *)
(** Cooling rate and factor (accepted by 642-660 when the factor is positive and the
    rate at least 1), and the optimiser's [maxIter]. *)
Record bsched := mkBs { bs_rate : nat; bs_factor : R; bs_maxIter : nat }.
Definition bs_valid (b : bsched) : Prop := (1 <= bs_rate b)%nat /\ 0 < bs_factor b.
(** 662-671 [endIter] at iteration [it]. *)
Definition bs_endIter (b : bsched) (it : nat) (beta : R) : R :=
  if Nat.ltb 0 it && Nat.ltb it (bs_maxIter b) && Nat.eqb (it mod bs_rate b) 0 then beta / bs_factor b else beta.
(** The iteration ends 1, 2, ..., k of a run: the optimiser increments its counter before
    calling the directives (optimization.py 832-838). *)
Definition bs_run (b : bsched) (k : nat) (beta0 : R) : R :=
  fold_left (fun beta it => bs_endIter b it beta) (seq 1 k) beta0.

(** ** TargetMisfit (1092-1185) *)
(** [chifact], [_phi_d_star] and [_target]. *)
Record tmis := mkTm { tm_chi : R; tm_star : option R; tm_target : option R }.
(** 1098-1105; the numbers are already validated. *)
Definition tm_init (target star : option R) (chi : R) : result tmis :=
  match star, target with
  | Some _, Some _ => Err AttributeError
  | _, _ => Ok (mkTm chi star target)
  end.
(** 1135-1140, 1160-1168, 1119-1121: the setters (for accepted values). *)
Definition tm_set_chi (t : tmis) (c : R) : tmis := mkTm c (tm_star t) None.
Definition tm_set_star (t : tmis) (s : option R) : tmis := mkTm (tm_chi t) s None.
Definition tm_set_target (t : tmis) (x : R) : tmis := mkTm (tm_chi t) (tm_star t) (Some x).
(** 1142-1158 [phi_d_star] and 1107-1117 [target], with their caches; [nD] is the number of
    data of each misfit's survey. *)
Definition tm_get_star (nD : list nat) (t : tmis) : R * tmis :=
  match tm_star t with
  | Some s => (s, t)
  | None => let s := INR (fold_left Nat.add nD 0%nat) in (s, mkTm (tm_chi t) (Some s) (tm_target t))
  end.
Definition tm_get_target (nD : list nat) (t : tmis) : R * tmis :=
  match tm_target t with
  | Some x => (x, t)
  | None => let '(s, t1) := tm_get_star nD t in let x := tm_chi t1 * s in (x, mkTm (tm_chi t1) (tm_star t1) (Some x))
  end.
(** 1176-1179 [endIter]: the stop flag and the directive. *)
Definition tm_endIter (nD : list nat) (t : tmis) (phi_d : R) (stop : bool) : bool * tmis :=
  let '(x, t1) := tm_get_target nD t in
  (if Rlt_dec phi_d x then true else stop, t1).
(** Iterations with the given misfits, from a cleared flag (optimization.py 549), until the
    optimiser sees the flag (523): the number of iterations performed. *)
Fixpoint tm_iterations (nD : list nat) (t : tmis) (phis : list R) : nat :=
  match phis with
  | [] => 0
  | p :: phis' => let '(stop, t1) := tm_endIter nD t p false in
                  if stop then 1 else S (tm_iterations nD t1 phis')
  end.
(** Anything a user may do to the directive between runs. *)
Inductive tmop := TSetChi (c : R) | TSetStar (s : option R) | TSetTarget (x : R) | TRead | TEnd (phi : R).
Definition tm_step (nD : list nat) (t : tmis) (o : tmop) : tmis :=
  match o with
  | TSetChi c => tm_set_chi t c
  | TSetStar s => tm_set_star t s
  | TSetTarget x => tm_set_target t x
  | TRead => snd (tm_get_target nD t)
  | TEnd p => snd (tm_endIter nD t p false)
  end.
