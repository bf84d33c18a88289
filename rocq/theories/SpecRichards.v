(** Specification vocabulary for the Richards simulation. *)
From Verif Require Import Py Vec VecDeriv Joint Gncg Empir SpecEmpir Richards.
Local Open Scope R_scope.

(** A relation is differentiable at the model [x] and heads [h] with the derivatives it
    reports: along every differentiable curve of models and heads through that point. *)
Definition smooth_at (p k : nat) (r : relation) (x h : vec) : Prop :=
  length (r_call r x h) = k /\ length (r_dU r x h) = k /\
  (match r_dM r x h with Some M => is_mat k p M /\ r_needs r = true | None => r_needs r = false end) /\
  forall xs hs x' h', vderiv p xs 0 x' -> vderiv k hs 0 h' -> xs 0 = x -> hs 0 = h ->
    vderiv k (fun t => r_call r (xs t) (hs t)) 0 (vadd (vmul (r_dU r x h) h') (applied0 k (r_dM r x h) x')).
(** The operators of the mesh have the sizes they should. *)
Definition grid_ok (g : grid) (nb : nat) : Prop :=
  is_mat (g_n g) (g_nf g) (DIV g) /\ is_mat (g_nf g) (g_n g) (GRAD g) /\ is_mat (g_nf g) nb (BCm g) /\
  is_mat (g_nf g) (g_n g) (AV g) /\ is_mat (g_n g) (g_nf g) (Dz g).
(** Conductivities can be averaged: neither they nor the averages of 1/K vanish. *)
Definition k_ok (g : grid) (K : vec) : Prop :=
  (forall i, (i < g_n g)%nat -> nth i K 0 <> 0) /\ (forall i, (i < g_nf g)%nat -> nth i (mv (AV g) (map Rinv K)) 0 <> 0).
(** An exact solver for the matrix [A]. *)
Definition inverts (n : nat) (solve : mx -> vec -> vec) (A : mx) : Prop :=
  forall b, length b = n -> length (solve A b) = n /\ act false A (solve A b) = b /\
  forall y, length y = n -> act false A y = b -> y = solve A b.
(** The consecutive heads of a list with their time step. *)
Fixpoint pairs (fs : list vec) (dts : list R) : list (vec * vec * R) :=
  match fs, dts with
  | hn :: ((h :: _) as fs'), dt :: dts' => (hn, h, dt) :: pairs fs' dts'
  | _, _ => []
  end.
(** The discretised equation is solved exactly by the heads [fs]. *)
Definition solved (s : sim) (x : vec) (fs : list vec) : Prop :=
  forall hn h dt, In (hn, h, dt) (pairs fs (q_steps s)) -> residual s x hn h dt = vzero (g_n (q_grid s)).
(** What a user needs of the pieces at the model [x] and heads [fs]. *)
Definition setup (s : sim) (p : nat) (x : vec) (fs : list vec) : Prop :=
  let n := g_n (q_grid s) in
  length x = p /\ grid_ok (q_grid s) (length (q_bc s)) /\
  Forall (fun f => length f = n) fs /\ length fs = S (length (q_steps s)) /\ q_steps s <> [] /\ Forall (fun dt => dt <> 0) (q_steps s) /\
  (forall f, In f fs -> smooth_at p n (q_theta s) x f /\ smooth_at p n (q_k s) x f /\ k_ok (q_grid s) (r_call (q_k s) x f)) /\
  Forall (fun r => is_mat (length (x_P r)) (length fs * n) (x_P r)) (q_rx s).
(** Harmonic mean *)
Definition harmonic (a b : R) : R := 2 / (1 / a + 1 / b).
(** A row with the entry [w] in the columns [i] and [j] and zeros elsewhere. *)
Definition two_entries (n i j : nat) (w : R) : vec := map (fun k => if (Nat.eqb k i || Nat.eqb k j)%bool then w else 0) (seq 0 n).

(** A differentiable family of models (in direction [v]) and of heads (in directions [ds])
    that solve the equation for those models, from the same initial heads. *)
Definition solution_branch (s : sim) (p : nat) (xs : R -> vec) (cs : list (R -> vec)) (v : vec) (ds : list vec) : Prop :=
  vderiv p xs 0 v /\ Forall2 (fun c d => vderiv (g_n (q_grid s)) c 0 d) cs ds /\
  (match cs with c :: _ => forall t, c t = c 0 | [] => True end) /\
  exists e, 0 < e /\ forall t, Rabs t < e -> solved s (xs t) (map (fun c => c t) cs).
Definition n_data (s : sim) : nat := list_sum (map (fun r => length (x_P r)) (q_rx s)).
(** The heads at which the systems of Jvec and Jtvec can be solved. *)
Definition invertible (s : sim) (x : vec) (fs : list vec) : Prop :=
  forall hn h dt, In (hn, h, dt) (pairs fs (q_steps s)) -> inverts (g_n (q_grid s)) (q_solve s) (Adiag s x h dt).
Definition invertible_T (s : sim) (x : vec) (fs : list vec) : Prop :=
  forall hn h dt, In (hn, h, dt) (pairs fs (q_steps s)) -> inverts (g_n (q_grid s)) (q_solve s) (MT (Adiag s x h dt)).
(** [ys] solve the big block system of Jfull. *)
Definition solves_all (n : nat) (solve_all : list (mx * mx) -> list vec -> list vec) (rows : list (mx * mx)) (bs : list vec) : Prop :=
  let ys := solve_all rows bs in length ys = length bs /\ Forall (fun y => length y = n) ys /\ block_act None rows ys = bs.
(** What the root finder reports for a step from [hn] to [h]. *)
Definition step_outcome (s : sim) (x hn : vec) (dt : R) (h : option vec) : Prop :=
  match h with
  | Some h => norm2 (residual s x hn h dt) < q_tol s \/
      (exists tried, length tried = S (q_maxIter s) /\ h = last tried hn /\ q_tol s <= norm2 (residual s x hn h dt))
  | None => q_newton s = true
  end.

(** ** Small cases for the examples: one cell, one face, one step. *)
(** Water content [x^2 h], constant conductivity, no fluxes. *)
Definition ex_theta : relation := mkRel (fun x h => [nth 0 x 0 ^ 2 * nth 0 h 0]) (fun x h => [nth 0 x 0 ^ 2]) (fun x h => Some [[2 * nth 0 x 0 * nth 0 h 0]]) true.
Definition ex_one : relation := mkRel (fun _ _ => [1]) (fun _ _ => [0]) (fun _ _ => None) false.
Definition ex_still : grid := mkGrid 1 1 [[0]] [[1]] [[1]] [[1]] [[0]].
Definition solve1 (A : mx) (b : vec) : vec := [nth 0 b 0 / nth 0 (act false A [1]) 0].
Definition ex_sim : sim := mkSim ex_still ex_theta ex_one [0] [1] [1] Mixed true 1 1 solve1 [mkRx Saturation [[0; 1]]].
(** Water content [h^2]. *)
Definition ex_square : relation := mkRel (fun _ h => [nth 0 h 0 ^ 2]) (fun _ h => [2 * nth 0 h 0]) (fun _ _ => None) false.
Definition ex_head : sim := mkSim ex_still ex_square ex_one [0] [1] [1] Head true 1 1 solve1 [].
(** Water content [h], conductivity the model, flow to a head 2: h = (1 + 2 x) / (1 + x). *)
Definition ex_linear : relation := mkRel (fun _ h => [nth 0 h 0]) (fun _ _ => [1]) (fun _ _ => None) false.
Definition ex_kmodel : relation := mkRel (fun x _ => [nth 0 x 0]) (fun _ _ => [0]) (fun _ _ => Some [[1]]) true.
Definition ex_flow_grid : grid := mkGrid 1 1 [[1]] [[-1]] [[1]] [[1]] [[0]].
Definition ex_flow : sim := mkSim ex_flow_grid ex_linear ex_kmodel [2] [1] [1] Mixed true 1 1 solve1 [mkRx Pressure [[0; 1]]].
Definition ex_xs (t : R) : vec := [1 + t].
Definition ex_cs : list (R -> vec) := [(fun _ => [1]); (fun t => [(1 + 2 * (1 + t)) / (1 + (1 + t))])].
