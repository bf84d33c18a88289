(** Model of simpeg/maps/_base.py: shapes, application, composition (ComboMap) and
    sums (SumMap) of maps.  Models are 1-D arrays. *)
From Verif Require Import Py Vec Frechet.
Local Open Scope R_scope.

Definition eye (n : nat) : mat := diagm (vconst n 1).
Definition mscale (c : R) (A : mat) : mat := map (vscale c) A.
Definition madd (A B : mat) : mat := map (fun ab => vadd (fst ab) (snd ab)) (combine A B).

(** The objects that [deriv] hands around: the integer 1 (528), discretize's
    [Identity()] (181), a scipy sparse matrix, a dense 2-D array, a 1-D array. *)
Inductive dval := DOne | DId | DSp (A : mat) | DDn (A : mat) | DV (v : vec).

(** Number of columns of a matrix (0 for no rows). *)
Definition ncol (A : mat) : nat := match A with [] => O | r :: _ => length r end.

(** The operator [a * b] on these objects: sparse matrices multiply as matrices,
    dense arrays elementwise with broadcasting. *)
Definition dmul (a b : dval) : result dval :=
  match a, b with
  | DId, b => Ok b
  | DOne, b => Ok b
  | a, DOne => Ok a
  | DSp A, DSp B => if Nat.eqb (ncol A) (length B) then Ok (DSp (mm (ncol B) A B)) else Err ValueError
  | DSp A, DDn B => if Nat.eqb (ncol A) (length B) then Ok (DDn (mm (ncol B) A B)) else Err ValueError
  | DDn A, DSp B => if Nat.eqb (ncol A) (length B) then Ok (DDn (mm (ncol B) A B)) else Err ValueError
  | DSp A, DV v => if Nat.eqb (ncol A) (length v) then Ok (DV (mv A v)) else Err ValueError
  | DDn A, DV v => if Nat.eqb (ncol A) (length v) then Ok (DDn (map (fun r => vmul r v) A)) else Err ValueError
  | DDn A, DDn B => if Nat.eqb (length A) (length B) && Nat.eqb (ncol A) (ncol B)
                    then Ok (DDn (map (fun ab => vmul (fst ab) (snd ab)) (combine A B))) else Err ValueError
  | _, _ => Err TypeError
  end.

(** How a class implements [deriv(m)] and [deriv(m, v)].
    [Same]: IdentityMap (177-181).  [ByMat D]: [D(m)] sparse, [D(m) * v] (e.g.
    _property_maps.py 105-108, 197-200, 266-273; _injection.py 340-342; _surjection.py
    87-90; _base.py 738-740).  [ByDense A]: LinearMap with a dense array (620-623).
    [ByRow d]: [sdiag(d)], resp. [d * v] with a 1-D [d] (_property_maps.py 451-455,
    834-836).  [ByScal c]: [c * sp.eye(nP)], resp. [c * v] (_property_maps.py 522-524,
    594-596, 661-663). *)
Inductive dkind := Same | ByMat (D : vec -> mat) | ByDense (A : mat) | ByRow (d : vec -> vec) | ByScal (c : R).
(** A map class instance: output and input sizes ([None] for the wildcard), transform,
    derivative. *)
Record leaf := mkLeaf { lf_out : option nat; lf_in : option nat; lf_tr : vec -> vec; lf_dk : dkind }.

(** [deriv(m)]; [sp.eye("*")] raises. *)
Definition leaf_deriv (l : leaf) (m : vec) : result dval :=
  match lf_dk l with
  | Same => match lf_in l with Some n => Ok (DSp (eye n)) | None => Ok DId end
  | ByMat D => Ok (DSp (D m))
  | ByDense A => Ok (DDn A)
  | ByRow d => Ok (DSp (diagm (d m)))
  | ByScal c => match lf_in l with Some n => Ok (DSp (mscale c (eye n))) | None => Err ValueError end
  end.

(** ** Composition *)
Inductive smap := Leaf (l : leaf) | Combo (first : smap) (rest : list smap).

(** 449-463 ComboMap.shape, 94-118 *)
Fixpoint s_out (s : smap) : option nat := match s with Leaf l => lf_out l | Combo a _ => s_out a end.
Fixpoint s_in (s : smap) : option nat :=
  match s with
  | Leaf l => lf_in l
  | Combo a rest => (fix last_in (d : option nat) (l : list smap) : option nat :=
                       match l with [] => d | x :: l' => last_in (s_in x) l' end) (s_in a) rest
  end.
Definition mismatch (a b : option nat) : bool :=
  match a, b with Some x, Some y => negb (Nat.eqb x y) | _, _ => false end.

(** 228-237 [__mul__] with another map; the loop 419-447 of ComboMap repeats the same
    test, and keeps a composed operand as one item (442: every map is an IdentityMap). *)
Definition smul (a b : smap) : result smap :=
  if mismatch (s_in a) (s_out b) then Err ValueError else Ok (Combo a [b]).
(** 415-447 [ComboMap(maps)] *)
Fixpoint combo_check (cur : option nat) (l : list smap) : bool :=
  match l with [] => true | b :: l' => negb (mismatch cur (s_out b)) && combo_check (s_in b) l' end.
Definition combo_init (a : smap) (l : list smap) : result smap :=
  if combo_check (s_in a) l then Ok (Combo a l) else Err ValueError.

(** 239-246 [map * array] with 476-479 *)
Fixpoint apply (s : smap) (m : vec) : result vec :=
  if mismatch (s_in s) (Some (length m)) then Err ValueError
  else match s with
       | Leaf l => Ok (lf_tr l m)
       | Combo a rest =>
           do m' <- (fix go (l : list smap) : result vec :=
                       match l with [] => Ok m | x :: l' => do m' <- go l'; apply x m' end) rest;
           apply a m'
       end.

(** 481-534 ComboMap.deriv(m, v): the pair (deriv, mi) is threaded from the last map to
    the first. *)
Fixpoint deriv (s : smap) (m : vec) (v : option vec) : result dval :=
  match s with
  | Leaf l => do d <- leaf_deriv l m; match v with None => Ok d | Some x => dmul d (DV x) end
  | Combo a rest =>
      let start := match v with None => DOne | Some x => DV x end in
      do st <- (fix go (l : list smap) : result (dval * vec) :=
                  match l with
                  | [] => Ok (start, m)
                  | x :: l' => do st <- go l';
                               let '(dv, mi) := st in
                               do dx <- deriv x mi None;
                               do dv' <- dmul dx dv;
                               do mi' <- apply x mi;
                               Ok (dv', mi')
                  end) rest;
      let '(dv, mi) := st in
      do da <- deriv a mi None;
      do dv' <- dmul da dv;
      do mi' <- apply a mi;
      Ok dv'
  end.

(** ** Sums *)
(** [deriv(m, v)] of a class for a given [v] (1-D array or sparse matrix). *)
Definition leaf_deriv_v (l : leaf) (m : vec) (v : dval) : result dval :=
  match lf_dk l with
  | Same => Ok v
  | ByMat D => dmul (DSp (D m)) v
  | ByDense A => match v with
                 | DV x => if Nat.eqb (ncol A) (length x) then Ok (DV (mv A x)) else Err ValueError
                 | DSp B => if Nat.eqb (ncol A) (length B) then Ok (DDn (mm (ncol B) A B)) else Err ValueError
                 | _ => Err TypeError end
  | ByRow d => match v with
               | DV x => if Nat.eqb (length (d m)) (length x) then Ok (DV (vmul (d m) x)) else Err ValueError
               | DSp B => (* 1-D array times sparse matrix: a 1-D array *)
                   if Nat.eqb (length (d m)) (length B) then Ok (DV (mtv (ncol B) B (d m))) else Err ValueError
               | _ => Err TypeError end
  | ByScal c => match v with
                | DV x => Ok (DV (vscale c x)) | DSp B => Ok (DSp (mscale c B)) | _ => Err TypeError end
  end.
Definition is_same (l : leaf) : bool := match lf_dk l with Same => true | _ => false end.

(** 763-794: all shapes must be equal (781 compares the tuples; 779 never holds). *)
Definition oeqb (a b : option nat) : bool :=
  match a, b with Some x, Some y => Nat.eqb x y | None, None => true | _, _ => false end.
Definition sum_init (a : leaf) (l : list leaf) : result unit :=
  if forallb (fun b => oeqb (lf_out a) (lf_out b) && oeqb (lf_in a) (lf_in b)) l then Ok tt else Err ValueError.
Definition leaf_apply (l : leaf) (m : vec) : result vec :=
  if mismatch (lf_in l) (Some (length m)) then Err ValueError else Ok (lf_tr l m).
(** 818-827 *)
Definition sum_apply (a : leaf) (l : list leaf) (m : vec) : result vec :=
  do y <- leaf_apply a m;
  fold_left (fun acc b => do y <- acc; do z <- leaf_apply b m;
                          if Nat.eqb (length y) (length z) then Ok (vadd y z) else Err ValueError) l (Ok y).
(** [a + b] on sparse matrices and 1-D arrays (other combinations not modelled). *)
Definition dadd (a b : dval) : result dval :=
  match a, b with
  | DSp A, DSp B => if Nat.eqb (length A) (length B) && Nat.eqb (ncol A) (ncol B) then Ok (DSp (madd A B)) else Err ValueError
  | DV x, DV y => if Nat.eqb (length x) (length y) then Ok (DV (vadd x y)) else Err ValueError
  | _, _ => Err NotImplementedError
  end.
(** 829-861 with a 1-D array [v]: the contents of the caller's array are part of the
    state; [None] as accumulator: [sumDeriv] *is* the caller's array, so that [+=]
    writes into it. *)
Definition sum_deriv_step (m : vec) (st : result (option dval * vec)) (b : leaf) : result (option dval * vec) :=
  do st <- st;
  let '(acc, v) := st in
  do d <- leaf_deriv_v b m (DV v);
  match acc with
  | Some s => do s' <- dadd s d; Ok (Some s', v)
  | None => do s' <- dadd (DV v) d; match s' with DV v' => Ok (None, v') | _ => Err TypeError end
  end.
(** Result: the returned value and the caller's array afterwards. *)
Definition sum_deriv_v (a : leaf) (l : list leaf) (m v : vec) : result (dval * vec) :=
  do d <- leaf_deriv_v a m (DV v);
  do st <- fold_left (sum_deriv_step m) l (Ok (if is_same a then None else Some d, v));
  let '(acc, v') := st in
  Ok (match acc with Some s => s | None => DV v' end, v').
(** 829-861 without [v]: a fresh [sp.eye(nP)] for every term. *)
Definition sum_deriv (a : leaf) (l : list leaf) (m : vec) : result dval :=
  match lf_in (last l a) with
  | None => Err ValueError
  | Some n =>
      do d <- leaf_deriv_v a m (DSp (eye n));
      fold_left (fun acc b => do s <- acc; do d <- leaf_deriv_v b m (DSp (eye n)); dadd s d) l (Ok d)
  end.
