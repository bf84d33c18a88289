(** Model of simpeg/objective_function.py: objective functions and their
    arithmetic. *)
From Verif Require Import Py Vec.
Local Open Scope R_scope.

(** An objective function object: either a leaf (any class overriding [__call__],
    [deriv], [deriv2]; identified by a number), or a [ComboObjectiveFunction]
    (lines 315-557) with its multipliers, its [_unpack_on_add] flag and the [nP]
    computed at construction (407-414).  [None] stands for nP = "*".  A [Zero]
    multiplier behaves as the number 0 ([Zero() == 0.0] holds). *)
Inductive obj :=
| Leaf (k : nat) (np : option nat)
| Combo (np : option nat) (terms : list (R * obj)) (unpack : bool).

Definition obj_np (o : obj) : option nat := match o with Leaf _ np => np | Combo np _ _ => np end.

(** 407-412 / 667: the known numbers of parameters. *)
Fixpoint known_nps (l : list (R * obj)) : list nat :=
  match l with
  | [] => []
  | (_, o) :: l' => match obj_np o with Some n => n :: known_nps l' | None => known_nps l' end
  end.

(** 389-419 with 653-701: the constructor.  Lengths agree by construction here
    (terms are pairs), types are right; what remains is the nP check. *)
Definition combo_init (terms : list (R * obj)) (unpack : bool) : result obj :=
  match known_nps terms with
  | [] => Ok (Combo None terms unpack)
  | n :: ns => if forallb (Nat.eqb n) ns then Ok (Combo (Some n) terms unpack) else Err ValueError
  end.

(** 284-290: what [__add__] collects from each operand. *)
Definition summands (o : obj) : list (R * obj) :=
  match o with
  | Combo _ terms true => terms
  | _ => [(1, o)]
  end.

(** 275-294 [__add__] for two objective functions. *)
Definition obj_add (a b : obj) : result obj := combo_init (summands a ++ summands b) true.

(** 296-297 [__radd__], 276-277 and 278-282: adding something that is not an
    objective function. *)
Inductive other := OZero | OObj (o : obj) | ONotObj.
Definition obj_add_any (a : obj) (b : other) : result obj :=
  match b with
  | OZero => Ok a
  | OObj o => obj_add a o
  | ONotObj => Err TypeError
  end.

(** The builtin [sum(l, start)]: [start + l[0]] goes through [__radd__] (296-297),
    i.e. [l[0] + start]; later terms through [__add__].  The default start is the
    integer 0, which is neither [Zero] nor an objective function. *)
Definition py_sum (start : other) (l : list obj) : result other :=
  fold_left (fun acc o =>
    do a <- acc;
    match a with
    | OObj x => do s <- obj_add x o; Ok (OObj s)
    | s => do r <- obj_add_any o s; Ok (OObj r)
    end) l (Ok start).

(** 299-303 [__mul__] / [__rmul__]. *)
Definition obj_mul (o : obj) (c : R) : result obj := combo_init [(c, o)] true.

(** 308-309 [__truediv__]: dividing by the number 0 raises. *)
Definition obj_div (o : obj) (c : R) : result obj :=
  if Req_EM_T c 0 then Err ZeroDivisionError else obj_mul o (1 / c).

(** A gradient or Hessian-vector product: an array, or the symbolic [Zero]. *)
Inductive zvec := VZero | VArr (v : vec).
Definition zadd (a b : zvec) : zvec :=
  match a, b with
  | VZero, b => b
  | a, VZero => a
  | VArr x, VArr y => VArr (vadd x y)
  end.
Definition zscale (c : R) (a : zvec) : zvec :=
  match a with VZero => VZero | VArr x => VArr (vscale c x) end.

Section Evaluate.
  (** Leaf behaviour: value, gradient, Hessian action; each may raise. *)
  Context (lcall : nat -> vec -> result R)
          (lderiv : nat -> vec -> result zvec)
          (lderiv2 : nat -> vec -> vec -> result zvec).

  (** 455-470 [__call__] (the optional [f] only avoids recomputing fields). *)
  Fixpoint obj_call (o : obj) (m : vec) : result R :=
    match o with
    | Leaf k _ => lcall k m
    | Combo _ terms _ =>
        (fix go (l : list (R * obj)) (fct : R) : result R :=
           match l with
           | [] => Ok fct
           | (c, p) :: l' =>
               if Req_EM_T c 0 then go l' fct
               else match obj_call p m with
                    | Ok x => go l' (fct + c * x)
                    | Err e => Err e
                    end
           end) terms 0
    end.

  (** 472-485 [deriv]. *)
  Fixpoint obj_deriv (o : obj) (m : vec) : result zvec :=
    match o with
    | Leaf k _ => lderiv k m
    | Combo _ terms _ =>
        (fix go (l : list (R * obj)) (g : zvec) : result zvec :=
           match l with
           | [] => Ok g
           | (c, p) :: l' =>
               if Req_EM_T c 0 then go l' g
               else match obj_deriv p m with
                    | Ok aux => go l' (match aux with VZero => g | VArr _ => zadd g (zscale c aux) end)
                    | Err e => Err e
                    end
           end) terms VZero
    end.

  (** 487-499 [deriv2] for a given vector [v]. *)
  Fixpoint obj_deriv2 (o : obj) (m v : vec) : result zvec :=
    match o with
    | Leaf k _ => lderiv2 k m v
    | Combo _ terms _ =>
        (fix go (l : list (R * obj)) (g : zvec) : result zvec :=
           match l with
           | [] => Ok g
           | (c, p) :: l' =>
               if Req_EM_T c 0 then go l' g
               else match obj_deriv2 p m v with
                    | Ok aux => go l' (zadd g (zscale c aux))
                    | Err e => Err e
                    end
           end) terms VZero
    end.
End Evaluate.

(** 503-532 [ComboObjectiveFunction.W]: rows of the weights scaled by the square
    root of the multiplier, stacked.  (For a negative multiplier numpy gives nan;
    here [sqrt] of a negative number is 0: every statement using this definition
    assumes non-negative multipliers.) *)
Section Weights.
  Context (lW : nat -> mat).
  Fixpoint obj_W (o : obj) : mat :=
    match o with
    | Leaf k _ => lW k
    | Combo _ terms _ =>
        (fix go (l : list (R * obj)) : mat :=
           match l with
           | [] => []
           | (c, p) :: l' => map (vscale (sqrt c)) (obj_W p) ++ go l'
           end) terms
    end.
End Weights.

(** 632-650 [L2ObjectiveFunction] with identity mapping: value, gradient,
    Hessian action for a weighting matrix [W] with [n] columns. *)
Definition l2_call (W : mat) (m : vec) : R := let r := mv W m in dot r r.
Definition l2_deriv (n : nat) (W : mat) (m : vec) : vec := vscale 2 (mtv n W (mv W m)).
Definition l2_deriv2 (n : nat) (W : mat) (m v : vec) : vec := vscale 2 (mtv n W (mv W v)).
(** 632-648 with a mapping [mp] whose derivative acts as [J m v] with transpose
    [Jt m w]. *)
Definition l2m_call (mp : vec -> vec) (W : mat) (m : vec) : R := let r := mv W (mp m) in dot r r.
Definition l2m_deriv (k : nat) (mp : vec -> vec) (Jt : vec -> vec -> vec) (W : mat) (m : vec) : vec :=
  vscale 2 (Jt m (mtv k W (mv W (mp m)))).
Definition l2m_deriv2 (k : nat) (J Jt : vec -> vec -> vec) (W : mat) (m v : vec) : vec :=
  vscale 2 (Jt m (mtv k W (mv W (J m v)))).
