(** Specification vocabulary for the directive with several targets and the schedule it drives. *)
From Coq Require Import Reals.
From Verif Require Import Py Vec Scaling MultiTarget.
Local Open Scope R_scope.

(** What the user asked for last. *)
Record wish := mkWish { s_chi : vec; s_star : option vec; s_over : option vec; s_chiS : R; s_ms : option R; s_overC : option R }.
Definition wish_step (w : wish) (a : assign) : wish :=
  match a with
  | AChi v => mkWish v (s_star w) None (s_chiS w) (s_ms w) (s_overC w)
  | AStar v => mkWish (s_chi w) v None (s_chiS w) (s_ms w) (s_overC w)
  | ATarget v => mkWish (s_chi w) (s_star w) (Some v) (s_chiS w) (s_ms w) (s_overC w)
  | AChiSmall x => mkWish (s_chi w) (s_star w) (s_over w) x (s_ms w) None
  | AMs x => mkWish (s_chi w) (s_star w) (s_over w) (s_chiS w) x None
  | ACl x => mkWish (s_chi w) (s_star w) (s_over w) (s_chiS w) (s_ms w) (Some x)
  end.
(** A run: assignments and iterations. *)
Inductive event := Assign (a : assign) | Iteration (x : measure).
Definition happen (g : ground) (st : mtm) (e : event) : mtm := match e with Assign a => set_to st a | Iteration x => fst (end_iter g st x) end.
Definition wishes (w : wish) (h : list event) : wish := fold_left (fun w e => match e with Assign a => wish_step w a | Iteration _ => w end) h w.
(** One number stands for all misfits. *)
Definition entry_of (v : vec) (i : nat) : R := match v with [x] => x | _ => nth i v 0 end.
Definition star_of (g : ground) (w : wish) : vec := match s_star w with Some v => v | None => g_nD g end.
Definition wanted (g : ground) (w : wish) (i : nat) : R := match s_over w with Some t => nth i t 0 | None => entry_of (s_chi w) i * entry_of (star_of g w) i end.
Definition small_wanted (g : ground) (w : wish) : R := match s_overC w with Some t => t | None => s_chiS w * match s_ms w with Some x => x | None => INR (g_nP g) end end.
(** There is a target for each of [n] misfits. *)
Definition fits (n : nat) (v : vec) : Prop := length v = n \/ length v = 1%nat.
Definition sized (g : ground) (w : wish) (n : nat) : Prop :=
  match s_over w with
  | Some t => length t = n
  | None => (length (s_chi w) = n /\ fits n (star_of g w)) \/ (length (star_of g w) = n /\ fits n (s_chi w))
  end.
Record options := mkOptions { o_w : bool; o_trig : bool; o_theta : bool; o_tol : R }.
Definition started (g : ground) (o : options) (w : wish) (x : measure) : mtm := initialize g (new_mtm (o_w o) (s_chi w) (s_star w) (o_trig o) (s_chiS w) (s_ms w) (o_theta o) (o_tol o)) x.
(** All targets are reached: every misfit below its target, smallness and mixture not above theirs. *)
Definition fitted (g : ground) (w : wish) (dm : vec) : Prop := forall i, (i < length dm)%nat -> nth i dm 0 < wanted g w i.
Definition reached (g : ground) (o : options) (w : wish) (x : measure) : Prop :=
  fitted g w (a_dm x) /\ (o_trig o = true -> g_pgi g <> NoPgi -> a_ms x (o_w o) <= small_wanted g w) /\ (o_theta o = true -> a_theta x <= o_tol o).
(** The exact smallness and mixtures inside of sums cannot be asked about. *)
Definition askable (g : ground) (o : options) : Prop := (o_trig o = true -> g_pgi g <> Exact) /\ (o_theta o = true -> g_two g = false /\ g_pgi g <> NoPgi).

(** The schedule *)
Definition posv (v : vec) : Prop := Forall (fun x => 0 < x) v.
Definition sane (c : sconf) : Prop := 0 <= c_tol c /\ 1 <= c_cf c /\ 1 <= c_wf c.
Definition all_below (dm t : vec) : Prop := forall i, (i < length dm)%nat -> nth i dm 0 < nth i t 0.
Definition due (c : sconf) (iter : nat) : Prop := (0 < iter)%nat /\ (iter mod c_rate c = 0)%nat.
(** No misfit that is not below its target has made progress or reached it. *)
Definition stalled (c : sconf) (dm t prev : vec) : Prop :=
  forall i, (i < length dm)%nat -> nth i t 0 <= nth i dm 0 -> nth i t 0 < nth i dm 0 /\ (1 - c_prog c) * nth i prev 0 < nth i dm 0.
Definition step (c : sconf) (iter : nat) (dm t : vec) (st : sstate) : sstate := s_end c iter dm t (hits dm t) (forallb (fun b => b) (hits dm t)) st.
