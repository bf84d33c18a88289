(** Model of simpeg/optimization.py: [Minimize] (363-838), [StoppingCriteria]
    (122-207), [Bounded] (909-1018) and check_stoppers (utils/code_utils.py 270-302).

    Objective values are [option R]: [None] stands for nan (every comparison with
    it is false); infinite values are not modelled. *)
From Verif Require Import Py Vec.
Local Open Scope R_scope.

Definition Rleb (a b : R) : bool := if Rle_dec a b then true else false.
Definition Rltb' (a b : R) : bool := if Rlt_dec a b then true else false.
(** Python's [<=] on floats. *)
Definition xle (a b : option R) : bool :=
  match a, b with Some x, Some y => Rleb x y | _, _ => false end.
Definition xmap (f : R -> R) (a : option R) : option R := option_map f a.
Definition xbin (f : R -> R -> R) (a b : option R) : option R :=
  match a, b with Some x, Some y => Some (f x y) | _, _ => None end.
(** numpy.linalg.norm of a vector. *)
Definition norm2 (v : vec) : R := sqrt (dot v v).

(** utils/code_utils.py 270-302 [check_stoppers]. *)
Inductive stoptype := Optimal | Critical.
Definition is_opt (s : stoptype) : bool := match s with Optimal => true | Critical => false end.
Definition check_stoppers {S : Type} (stoppers : list (stoptype * (S -> bool))) (s : S) : bool :=
  let optimal := map (fun k => snd k s) (filter (fun k => is_opt (fst k)) stoppers) in
  let critical := map (fun k => snd k s) (filter (fun k => negb (is_opt (fst k))) stoppers) in
  (Nat.ltb 0 (length optimal) && forallb (fun b => b) optimal)
  || (Nat.ltb 0 (length critical) && existsb (fun b => b) critical).

(** ** Bounds (909-1018).  Infinite scalar bounds are [NoBound]: [np.maximum(x, -inf)]
    is [x] and no finite [x] is [<= -inf]. *)
Inductive bound := NoBound | Scalar (b : R) | Array (v : vec).
(** Broadcasting of a bound to the size of [x]. *)
Definition bvec (n : nat) (b : bound) : option vec :=
  match b with NoBound => None | Scalar c => Some (vconst n c) | Array v => Some v end.
Record bounds := mkBounds { b_lower : bound; b_upper : bound }.

(** 967-978 [projection]. *)
Definition projection (B : bounds) (x : vec) : vec :=
  let x1 := match bvec (length x) (b_lower B) with None => x | Some l => zipw Rmax x l end in
  match bvec (length x) (b_upper B) with None => x1 | Some u => zipw Rmin x1 u end.

Definition orb_vec (a b : list bool) : list bool := map (fun ab => orb (fst ab) (snd ab)) (combine a b).
Definition cmp_vec (c : R -> R -> bool) (a b : vec) : list bool := map (fun ab => c (fst ab) (snd ab)) (combine a b).
Definition and_vec (a b : list bool) : list bool := map (fun ab => andb (fst ab) (snd ab)) (combine a b).

(** 980-992 [activeSet]. *)
Definition activeSet (B : bounds) (x : vec) : list bool :=
  let out := repeat false (length x) in
  let out := match bvec (length x) (b_lower B) with
             | None => out | Some l => orb_vec out (cmp_vec Rleb x l) end in
  match bvec (length x) (b_upper B) with
  | None => out | Some u => orb_vec out (cmp_vec (fun a b => Rleb b a) x u) end.
(** 994-1001 [inactiveSet]. *)
Definition inactiveSet (B : bounds) (x : vec) : list bool := map negb (activeSet B x).
(** 1003-1018 [bindingSet] ([g]: the stored gradient). *)
Definition bindingSet (B : bounds) (g x : vec) : list bool :=
  let out := repeat false (length x) in
  let out := match bvec (length x) (b_lower B) with
             | None => out
             | Some l => orb_vec out (and_vec (cmp_vec Rleb x l) (map (fun a => Rleb 0 a) g)) end in
  match bvec (length x) (b_upper B) with
  | None => out
  | Some u => orb_vec out (and_vec (cmp_vec (fun a b => Rleb b a) x u) (map (fun a => Rleb a 0) g)) end.
Definition count_true (l : list bool) : nat := length (filter (fun b => b) l).

(** ** Scaling of the step (699-719) *)
(** [p.max()]; numpy raises on an empty array. *)
Definition vmax (p : vec) : option R :=
  match p with [] => None | x :: q => Some (fold_left Rmax q x) end.
(** [None] for maxStep = inf. *)
Definition scaleSearchDirection (maxStep : option R) (p : vec) : vec :=
  match maxStep, vmax p with
  | Some s, Some mx => if Rlt_dec s (Rabs mx) then map (fun x => s * x / Rabs mx) p else p
  | _, _ => p
  end.

(** ** Line search (721-782) *)
Record lsopts := mkLs { ls_max : nat; ls_reduction : R; ls_curvature : R; ls_shorten : R }.
(** What the line-search stoppers look at. *)
Record lsst := mkLsst
  { l_iterLS : nat; l_f : option R; l_xt : vec; l_ft : option R;
    l_descent : R; l_ft_descent : R }.

(** 139-144 *)
Definition st_armijo (o : lsopts) : stoptype * (lsst -> bool) :=
  (Optimal, fun s => xle (l_ft s) (xmap (fun f => f + ls_reduction o * l_descent s) (l_f s))).
(** 132-137 *)
Definition st_iterLS (o : lsopts) : stoptype * (lsst -> bool) :=
  (Critical, fun s => Nat.leb (ls_max o) (l_iterLS s)).
(** 146-151 *)
Definition st_wolfe (o : lsopts) : stoptype * (lsst -> bool) :=
  (Optimal, fun s => Rleb (- l_ft_descent s) (- ls_curvature o * l_descent s)).
(** 188-193 *)
Definition st_bindingLS (B : bounds) (g : vec) : stoptype * (lsst -> bool) :=
  (Critical, fun s => Nat.leb (length (l_xt s)) (count_true (bindingSet B g (l_xt s)))).
(** 401-407, and 1145 for [ProjectedGradient]. *)
Definition default_stoppersLS (o : lsopts) (wolfe : bool) : list (stoptype * (lsst -> bool)) :=
  [st_armijo o; st_iterLS o] ++ (if wolfe then [st_wolfe o] else []).

Section LineSearch.
  Context (phi : vec -> option R) (grad : vec -> vec) (proj : vec -> vec) (o : lsopts)
          (stoppersLS : list (stoptype * (lsst -> bool)))
          (xc g p : vec) (f : option R).
  (** Trial point for step length [t] (755) and the quantities of 757-769.
      ([_LS_ft_descent] is only refreshed with the Wolfe option; it is only read
      by the stopper installed with that option.) *)
  Definition trial (t : R) : vec := proj (vadd xc (vscale t p)).
  Definition ls_state (k : nat) (t : R) : lsst :=
    let xt := trial t in
    mkLsst k f xt (phi xt) (dot g (vsub xt xc)) (dot (grad xt) (vsub xt xc)).
  (** 752-782: [fuel] is maxIterLS - iterLS.  Result: trial point, iterLS, number
      of evaluations. *)
  Fixpoint ls_loop (fuel k : nat) (t : R) (xt : vec) (evals : nat) : vec * nat * nat :=
    match fuel with
    | O => (xt, k, evals)
    | S fuel' =>
        let xt' := trial t in
        if check_stoppers stoppersLS (ls_state k t) then (xt', k, S evals)
        else ls_loop fuel' (S k) (ls_shorten o * t) xt' (S evals)
    end.
  (** [_LS_xt] does not exist before the first trial: maxIterLS = 0 raises
      AttributeError on a fresh object. *)
  Definition modifySearchDirection : result (vec * bool * nat) :=
    match ls_max o with
    | O => Err AttributeError
    | S _ => let '(xt, k, n) := ls_loop (ls_max o) 0 1 [] 0 in
             Ok (xt, Nat.ltb k (ls_max o), n)
    end.
End LineSearch.

(** ** The outer loop (461-529) *)
Record ost := mkOst
  { o_iter : nat; o_x0 : vec; o_xc : vec; o_xlast : vec;
    o_f : option R; o_flast : option R; o_f0 : option R; o_g : vec }.

Record oopts := mkOpts
  { p_maxIter : nat; p_ls : lsopts; p_tolF : R; p_tolX : R; p_tolG : R; p_eps : R;
    p_maxStep : option R; p_require_decrease : bool }.

(** 125-130 *)
Definition st_iteration (o : oopts) : stoptype * (ost -> bool) :=
  (Critical, fun s => Nat.leb (p_maxIter o) (o_iter s)).
(** 153-158 *)
Definition st_tolF (o : oopts) : stoptype * (ost -> bool) :=
  (Optimal, fun s => if Nat.eqb (o_iter s) 0 then Rleb 1 0
                     else xle (xbin (fun a b => Rabs (a - b)) (o_f s) (o_flast s))
                              (xmap (fun f0 => p_tolF o * (1 + Rabs f0)) (o_f0 s))).
(** 160-165 *)
Definition st_movingX (o : oopts) : stoptype * (ost -> bool) :=
  (Optimal, fun s => if Nat.eqb (o_iter s) 0 then Rleb 1 0
                     else Rleb (norm2 (vsub (o_xc s) (o_xlast s))) (p_tolX o * (1 + norm2 (o_x0 s)))).
(** 167-172 *)
Definition st_tolG (proj : vec -> vec) (o : oopts) : stoptype * (ost -> bool) :=
  (Optimal, fun s => Rleb (norm2 (vsub (proj (vsub (o_xc s) (o_g s))) (o_xc s))) (p_tolG o)).
(** 174-179 *)
Definition st_normG (proj : vec -> vec) (o : oopts) : stoptype * (ost -> bool) :=
  (Critical, fun s => Rleb (norm2 (vsub (proj (vsub (o_xc s) (o_g s))) (o_xc s))) (1000 * p_eps o)).
(** 181-186 *)
Definition st_binding (B : bounds) : stoptype * (ost -> bool) :=
  (Critical, fun s => Nat.leb (length (o_xc s)) (count_true (bindingSet B (o_g s) (o_xc s)))).
(** 427-433 *)
Definition default_stoppers (proj : vec -> vec) (o : oopts) : list (stoptype * (ost -> bool)) :=
  [st_tolF o; st_movingX o; st_tolG proj o; st_normG proj o; st_iteration o].

Section Minimize.
  (** [H]: everything else that may change between iterations (BFGS memory, the
      trade-off parameter, directives).  Value and gradient may depend on it; the
      search direction reads state and hidden state; [hook] runs at the end of an
      iteration (hooks of [doEndIteration], then the callback, which may set
      [stopNextIteration]).  Directives that overwrite [opt.xc] are not modelled. *)
  Context {H : Type}
          (phi : H -> vec -> option R) (grad : H -> vec -> vec)
          (proj : vec -> vec) (o : oopts)
          (stoppers : list (stoptype * (ost -> bool)))
          (stoppersLS : ost -> list (stoptype * (lsst -> bool)))
          (dir : ost -> H -> vec)
          (hook : ost -> vec -> H -> H * bool).

  (** How [minimize] ended: [finish()] was called (526-529), or the early return of
      519 (line search broken), or an exception in the line search. *)
  Inductive ending := Finished | LineSearchBroken | Raised (e : exn).

  (** 504-524.  Returns the accepted iterates in order (each with the hidden state
      in force when it was accepted), the returned model and the ending; [None]
      when the fuel runs out. *)
  Fixpoint loop (fuel : nat) (s : ost) (h : H) : option (list (H * vec) * vec * ending) :=
    match fuel with
    | O => None
    | S fuel' =>
        (* 506 *)
        let f := phi h (o_xc s) in
        let g := grad h (o_xc s) in
        (* 644-646 *)
        let s := mkOst (o_iter s) (o_x0 s) (o_xc s) (o_xlast s) f (o_flast s)
                       (if Nat.eqb (o_iter s) 0 then f else o_f0 s) g in
        if check_stoppers stoppers s then Some ([], o_xc s, Finished)
        else
          let p := scaleSearchDirection (p_maxStep o) (dir s h) in
          match modifySearchDirection (phi h) (grad h) proj (p_ls o) (stoppersLS s) (o_xc s) g p f with
          | Err e => Some ([], o_xc s, Raised e)
          | Ok (xt, pass, _) =>
              if negb pass && p_require_decrease o then Some ([], o_xc s, LineSearchBroken)
              else
                (* 812-838 *)
                let '(h', stop) := hook s xt h in
                let s' := mkOst (S (o_iter s)) (o_x0 s) xt (o_xc s) (phi h xt) f (o_f0 s) g in
                if stop then Some ([(h, xt)], xt, Finished)
                else match loop fuel' s' h' with
                     | None => None
                     | Some (xs, r, e) => Some ((h, xt) :: xs, r, e)
                     end
          end
    end.
  (** 494-503, 531-559. *)
  Definition minimize (fuel : nat) (x0 : vec) (h : H) : option (list (H * vec) * vec * ending) :=
    let x := proj x0 in
    loop fuel (mkOst 0 x x x (phi h x) None None []) h.
End Minimize.
