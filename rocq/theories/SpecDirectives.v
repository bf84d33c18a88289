(** Specification vocabulary for cooling schedules, targets and IRLS. *)
From Verif Require Import Py Vec Directives Irls.
Local Open Scope R_scope.

(** The multiples of [r] among 1, ..., m. *)
Definition multiples (r m : nat) : nat := length (filter (fun i => Nat.eqb (i mod r) 0) (seq 1 m)).

(** What the user last asked of the target misfit, without caches: a chi factor, a number
    for the misfit at chi = 1 (None: the number of data) and an explicit target, which later
    assignments to the other two cancel. *)
Record wish := mkWish { w_chi : R; w_star : option R; w_target : option R }.
Definition wish_step (w : wish) (o : tmop) : wish :=
  match o with
  | TSetChi c => mkWish c (w_star w) None
  | TSetStar s => mkWish (w_chi w) s None
  | TSetTarget x => mkWish (w_chi w) (w_star w) (Some x)
  | TRead | TEnd _ => w
  end.
Definition wish_target (nD : list nat) (w : wish) : R :=
  match w_target w with
  | Some x => x
  | None => w_chi w * match w_star w with Some s => s | None => INR (list_sum nD) end
  end.

(** ** IRLS *)
(** All sparse terms have norms 2 (one per child). *)
Definition all_two (regs : list (option sreg)) : Prop :=
  forall r, In (Some r) regs -> Forall (fun p => p = 2) (s_norms r).
(** Thresholds and norms of the sparse terms are given. *)
Inductive regs_are (thr : R -> R) : list (option (list R)) -> list (list R) -> list (option sreg) -> Prop :=
  | ra_nil : regs_are thr [] [] []
  | ra_other q n p regs ns : regs_are thr ns p regs -> regs_are thr (n :: ns) (q :: p) (None :: regs)
  | ra_sparse n q ns p regs : regs_are thr ns p regs ->
      regs_are thr (Some n :: ns) (q :: p) (Some (mkSr n (map thr q)) :: regs).
(** Where the misfit is with respect to the target band. *)
Definition above_band (o : iopts) (phi_d : R) : Prop := 1 + o_tol o < phi_d / (INR (o_nD o) * o_chi_target o).
Definition below_band (o : iopts) (phi_d : R) : Prop := 0 < phi_d / (INR (o_nD o) * o_chi_target o) < 1 - o_tol o.
Definition in_band (o : iopts) (phi_d : R) : Prop := Rabs (1 - phi_d / (INR (o_nD o) * o_chi_target o)) <= o_tol o.
(** The user's regularization before the inversion starts. *)
Definition user_norms (regs : list (option sreg)) : list (option (list R)) := map (option_map s_norms) regs.
