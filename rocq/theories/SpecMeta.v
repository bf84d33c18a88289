(** Specification vocabulary for meta simulations. *)
From Verif Require Import Py Vec VecDeriv Frechet Meta.
Local Open Scope R_scope.
Section P.
Context {F : Type}.
(** One part: a simulation at its mapped model. *)
Definition part_dpred (s : @msim F) (p : mmap) (m : vec) : vec := s_dpred s (p_f p m) (s_fields s (p_f p m)).
Definition part_Jvec (s : @msim F) (p : mmap) (m v : vec) : vec := mv (s_J s (p_f p m) (s_fields s (p_f p m))) (mv (p_J p m) v).
(** All parts, in order. *)
Fixpoint each {A} (g : msim -> mmap -> A) (sims : list (@msim F)) (maps : list mmap) : list A :=
  match sims, maps with
  | s :: sims', p :: maps' => g s p :: each g sims' maps'
  | _, _ => []
  end.
(** Shapes at a model with [n] parameters. *)
Definition shaped (n : nat) (m : vec) (s : msim) (p : mmap) : Prop :=
  is_mat (s_nP s) n (p_J p m) /\ is_mat (s_nD s) (s_nP s) (s_J s (p_f p m) (s_fields s (p_f p m))) /\ length (part_dpred s p m) = s_nD s.
Definition all_shaped (n : nat) (m : vec) (sims : list (@msim F)) (maps : list mmap) : Prop :=
  length sims = length maps /\ forall q, In q (combine sims maps) -> shaped n m (fst q) (snd q).
Definition total_nD (sims : list (@msim F)) : nat := list_sum (map s_nD sims).
(** The parts are differentiable with the derivatives they claim. *)
Definition part_diff (n : nat) (m : vec) (s : @msim F) (p : mmap) : Prop :=
  frechet n (s_nP s) (p_f p) m (p_J p m) /\
  frechet (s_nP s) (s_nD s) (fun x => s_dpred s x (s_fields s x)) (p_f p m) (s_J s (p_f p m) (s_fields s (p_f p m))).
(** A history in which the inner simulations are used through the meta simulation only. *)
Definition no_touch (ops : list (@mop F)) : Prop := forall o, In o ops -> match o with MTouch _ _ => False | _ => True end.
Definition meta_run (n : nat) (sims : list (@msim F)) (maps : list mmap) (ops : list mop) : mst := fold_left (meta_step n sims maps) ops (meta_start sims).
Definition sum_run (n nD : nat) (sims : list (@msim F)) (maps : list mmap) (ops : list mop) : mst := fold_left (sum_step n nD sims maps) ops (meta_start sims).
End P.
(** The sum of the squares. *)
Definition sqnorm (a : vec) : R := dot a a.
(** Each parameter feeds at most one output of the mapping. *)
Definition one_output (n : nat) (P : mat) : Prop :=
  forall c i j, (c < n)%nat -> nth c (nth i P []) 0 <> 0 -> nth c (nth j P []) 0 <> 0 -> i = j.
Definition unit_at (n c : nat) : vec := map (fun j => if Nat.eqb j c then 1 else 0) (seq 0 n).
(** For examples: two linear simulations of one and two data, each seeing one of two parameters. *)
Definition lin (k n : nat) (A : mat) : @msim unit := mkMs k n (fun _ => tt) (fun x _ => mv A x) (fun _ _ => A).
Definition sel (A : mat) : mmap := mkMm 2 1 (mv A) (fun _ => A).
Definition sims2 := [lin 1 1 [[3]]; lin 2 1 [[1]; [2]]].
Definition maps2 := [sel [[1; 0]]; sel [[0; 1]]].
