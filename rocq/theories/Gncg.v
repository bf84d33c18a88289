(** Model of simpeg/optimization.py [ProjectedGNCG.findSearchDirection] (1624-1711)
    and [NewtonRoot.root] (1461-1517). *)
From Verif Require Import Py Vec Optim.
Local Open Scope R_scope.

(** [mask * v] for a boolean mask. *)
Definition mask (m : list bool) (v : vec) : vec := map (fun bv : bool * R => if fst bv then snd bv else 0) (combine m v).

(** What [approxHinv * r] does with memory.  [POp M]: a fresh array (a sparse matrix, or
    the BFGS recursion once a pair is stored).  [PView]: the default preconditioner
    before any BFGS pair is stored, 1379-1395 with 1291-1299: bfgsrec returns
    [Identity() * d], which is [d] itself, and scipy's LinearOperator hands back a
    reshaped view of it, so the result shares memory with [r]. *)
Inductive precond := PView | POp (M : vec -> vec).
Definition papply (P : precond) (v : vec) : vec := match P with PView => v | POp M => M v end.
Definition pview (P : precond) : bool := match P with PView => true | POp _ => false end.

(** 1657-1677: the inner iteration, with [fuel] = cg_maxiter - count.  [al]: [p] shares
    memory with [r] on entry, so that the in-place [r -= alpha * q] (1667) overwrites
    [p] too before line 1675 reads it. *)
Fixpoint cg_loop (A M : vec -> vec) (al : bool) (atol : R) (fuel count : nat) (step r p : vec) (sold : R) : vec * vec * nat :=
  match fuel with
  | O => (step, r, count)
  | S fuel' =>
      if Rlt_dec atol (norm2 r) then
        let q := A p in
        let alpha := sold / dot p q in
        let step' := vadd step (vscale alpha p) in
        let r' := vsub r (vscale alpha q) in
        let p := if al then r' else p in
        let h := M r' in
        let snew := dot r' h in
        let p' := vadd h (vscale (snew / sold) p) in
        cg_loop A M false atol fuel' (S count) step' r' p' snew
      else (step, r, count)
  end.

Record cgopts := mkCg { cg_maxiter : nat; cg_rtol : R; cg_atol : R; cg_step_active : bool; cg_active_scale : R }.

(** [max(abs(v))] for a non-empty vector. *)
Definition maxabs (v : vec) : R := fold_left Rmax (map Rabs v) 0.

(** 1637-1679: the part before the active-set treatment; [H] is the action of
    the Hessian, [P] the preconditioner.  ([norm] of the scalar r_norm0 is itself.) *)
Definition gncg_cg (B : bounds) (o : cgopts) (H : vec -> vec) (P : precond) (xc g : vec) : vec * vec * nat :=
  let inactive := map negb (activeSet B xc) in
  let step := vzero (length g) in
  let r := mask inactive (vopp g) in
  let p := papply P r in
  let sold := dot r p in
  let atol := Rmax (cg_rtol o * norm2 r) (cg_atol o) in
  cg_loop (fun v => mask inactive (H v)) (papply P) (pview P) atol (cg_maxiter o) 0 step r p sold.

(** 1683-1711. *)
Definition gncg_direction (B : bounds) (o : cgopts) (H : vec -> vec) (P : precond) (xc g : vec) : vec * nat :=
  let active := activeSet B xc in
  let '(step, _, count) := gncg_cg B o H P xc g in
  let bound := bindingSet B g xc in
  let anb := and_vec active (map negb bound) in
  let step :=
    if cg_step_active o && existsb (fun b => b) anb then
      let rhs_a := mask anb (vopp g) in
      let dm_i := maxabs step in
      let dm_a := maxabs rhs_a in
      vadd step (vscale (cg_active_scale o) (map (fun x => x * dm_i / dm_a) rhs_a))
    else step in
  (mask (map negb bound) step, count).

(** ** NewtonRoot (1429-1517) *)
Record nropts := mkNr { nr_tol : R; nr_maxIter : nat; nr_stepDcr : R; nr_maxLS : nat; nr_doLS : bool }.
Section Newton.
  (** [fn]: the residual; [newton x]: the step dh = -(J(x)^-1 r(x)) of 1480-1481. *)
  Context (fn newton : vec -> vec) (o : nropts).
  (** 1491-1504: line search; [cnt] is LScnt, [fuel] = maxLS - LScnt + 1.  [None]:
      line search break (1500-1502). *)
  Fixpoint nr_ls (fuel : nat) (x dh xt : vec) (mu : R) : option vec :=
    if Rle_dec (norm2 (fn xt)) (norm2 (fn x)) then Some xt
    else if Rlt_dec (norm2 (fn xt)) (nr_tol o) then Some xt
    else match fuel with
         | O => None
         | S fuel' => let mu' := mu * nr_stepDcr o in nr_ls fuel' x dh (vadd x (vscale mu' dh)) mu'
         end.
  Inductive nr_result := Converged (x : vec) | IterLimit (x : vec) | LSBreak.
  (** 1477-1517; returns the accepted points as well. *)
  Fixpoint nr_loop (fuel iter : nat) (x : vec) : option (list vec * nr_result) :=
    match fuel with
    | O => None
    | S fuel' =>
        let dh := newton x in
        let xt := vadd x dh in
        match (if nr_doLS o then nr_ls (nr_maxLS o - 1) x dh xt 1 else Some xt) with
        | None => Some ([], LSBreak)
        | Some xt =>
            let iter' := S iter in
            if Rlt_dec (norm2 (fn xt)) (nr_tol o) then Some ([xt], Converged xt)
            else if Nat.ltb (nr_maxIter o) iter' then Some ([xt], IterLimit xt)
            else match nr_loop fuel' iter' xt with
                 | None => None
                 | Some (xs, r) => Some (xt :: xs, r)
                 end
        end
    end.
  Definition nr_root (x : vec) : option (list vec * nr_result) := nr_loop (S (nr_maxIter o)) 0 x.
End Newton.
