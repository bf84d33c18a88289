(** Model of simpeg/regularization/base.py 1537-2230, WeightedLeastSquares: multiplier
    constants and length scales. *)
From Verif Require Import Py Vec.
Local Open Scope R_scope.

Inductive axis := AX | AY | AZ.
(** The attributes alpha_s, alpha_x ..., alpha_xx ...; also the [_multiplier_pair] of the
    terms (613, 1013-1015, 1528-1530). *)
Inductive attr := As | A1 (a : axis) | A2 (a : axis).
Definition axis_eqb (a b : axis) : bool := match a, b with AX, AX | AY, AY | AZ, AZ => true | _, _ => false end.
Definition attr_eqb (a b : attr) : bool :=
  match a, b with As, As => true | A1 x, A1 y => axis_eqb x y | A2 x, A2 y => axis_eqb x y | _, _ => false end.
(** A value: None, anything [float] accepts, anything else (nan and infinities are not
    modelled). *)
Inductive val := VNone | VNum (x : R) | VOther.
(** The regularization: the base length of its mesh (regularization_mesh.py 398-409, computed
    once), the dimension and the seven constants. *)
Record wls := mkWls { base : R; dim : nat; alpha : attr -> R }.
Definition put (s : wls) (a : attr) (x : R) : wls := mkWls (base s) (dim s) (fun b => if attr_eqb a b then x else alpha s b).
(** 2057-2078, 2090-2111, 2124-2144 getters *)
Definition length_scale (s : wls) (a : axis) : R := sqrt (alpha s (A1 a)) / base s.
(** 1912-2046 setters of the alphas *)
Definition set_alpha (s : wls) (a : attr) (v : val) : result wls :=
  let v' := match v, a with
            | VNone, As => VNum 1
            | VNone, A2 x => VNum ((length_scale s x * base s) ^ 4)
            | _, _ => v
            end in
  match v' with
  | VNum x => if Rlt_dec x 0 then Err ValueError else Ok (put s a x)
  | _ => Err TypeError
  end.
(** 2066-2144 setters of the length scales *)
Definition set_length_scale (s : wls) (a : axis) (v : val) : result wls :=
  match v with
  | VOther => Err TypeError
  | VNone => set_alpha s (A1 a) (VNum ((1 * base s) ^ 2))
  | VNum x => set_alpha s (A1 a) (VNum ((x * base s) ^ 2))
  end.
(** 1721-1838 [__init__], the constants only; missing arguments have their defaults *)
Definition is_none (v : val) : bool := match v with VNone => true | _ => false end.
Definition init_axis (s : wls) (a : axis) (va vl : val) : result wls :=
  if negb (is_none va) then if negb (is_none vl) then Err ValueError else set_alpha s (A1 a) va else set_length_scale s a vl.
Definition wls_new (b : R) (d : nat) (vs : val) (vx vy vz : val * val) (vxx vyy vzz : val) : result wls :=
  do s <- set_alpha (mkWls b d (fun _ => 0)) As vs;
  do s <- init_axis s AX (fst vx) (snd vx);
  do s <- init_axis s AY (fst vy) (snd vy);
  do s <- init_axis s AZ (fst vz) (snd vz);
  do s <- set_alpha s (A2 AX) vxx;
  do s <- set_alpha s (A2 AY) vyy;
  set_alpha s (A2 AZ) vzz.
(** 1786-1818, the terms *)
Definition terms (d : nat) : list attr :=
  [As; A1 AX; A2 AX] ++ (if Nat.ltb 1 d then [A1 AY; A2 AY] else []) ++ (if Nat.ltb 2 d then [A1 AZ; A2 AZ] else []).
(** 2211-2228 *)
Definition multipliers (s : wls) : list R := map (alpha s) (terms (dim s)).
(** objective_function.py 450-465 [__call__] of the combination: terms with multiplier zero
    are not evaluated. *)
Fixpoint combo_call (mf : list (R * (vec -> result R))) (m : vec) (acc : R) : result R :=
  match mf with
  | [] => Ok acc
  | (c, f) :: mf' => if Req_EM_T c 0 then combo_call mf' m acc else do x <- f m; combo_call mf' m (acc + c * x)
  end.
Definition wls_call (s : wls) (phi : attr -> vec -> result R) (m : vec) : result R :=
  combo_call (combine (multipliers s) (map phi (terms (dim s)))) m 0.

(** Histories of assignments; one that raises changes nothing. *)
Inductive wop := WAlpha (a : attr) (v : val) | WLength (a : axis) (v : val).
Definition wset (s : wls) (o : wop) : result wls := match o with WAlpha a v => set_alpha s a v | WLength a v => set_length_scale s a v end.
Definition wstep (s : wls) (o : wop) : wls := match wset s o with Ok s' => s' | Err _ => s end.
Definition wrun (s : wls) (l : list wop) : wls := fold_left wstep l s.
