(** Model of simpeg/simulation.py [make_synthetic_data] and simpeg/data.py [Data],
    [SyntheticData] with the arrays they hold: assigning an array stores a reference to it,
    so that two quantities may be the same array.

    Arrays are finite lists of complex numbers (pairs) with a flag for the dtype; a heap maps
    the identity of an array (its position) to its contents.  The survey is fixed. *)
From Verif Require Import Py Vec Survey DataM.
Local Open Scope R_scope.
Local Open Scope list_scope.

Definition cplx := (R * R)%type.
(** numpy's [abs] of a complex number. *)
Definition cmod (z : cplx) : R := sqrt (fst z * fst z + snd z * snd z).

(** A 1-D array: float64 ([a_cplx] false, imaginary parts ignored) or complex128. *)
Record arr := mkArr { a_cplx : bool; a_vals : list cplx }.
Definition heap := list arr.
Definition real_arr (v : list R) : arr := mkArr false (map (fun x => (x, 0)) v).
Definition alloc (h : heap) (a : arr) : heap * nat := (h ++ [a], length h).
Definition get_arr (h : heap) (i : nat) : result arr :=
  match nth_error h i with Some a => Ok a | None => Err KeyError end.
Fixpoint put_arr (h : heap) (i : nat) (a : arr) : heap :=
  match h, i with
  | [], _ => []
  | _ :: r, O => a :: r
  | b :: r, Datatypes.S k => b :: put_arr r k a
  end.
(** Storing numbers into an array of the given dtype: a float array drops imaginary parts
    (numpy's ComplexWarning). *)
Definition cast (c : bool) (z : cplx) : cplx := if c then z else (fst z, 0).

(** What may be given for an uncertainty: None, a number or an array. *)
Inductive uref := RNone | RNum (x : R) | RArr (i : nat).

(** data.py 164-177, 207-220 and utils/code_utils.py 909-936, 1055-1110: numbers and size-1
    arrays fill a new array; other float arrays of the right size are kept as they are. *)
Definition keep_uncert (nD : nat) (h : heap) (u : uref) : result (heap * option nat) :=
  let fresh x := let w := repeat x nD in
    if existsb (fun y => Rltb y 0) w then Err ValueError else let '(h', i) := alloc h (real_arr w) in Ok (h', Some i) in
  match u with
  | RNone => Ok (h, None)
  | RNum x => fresh x
  | RArr i =>
      do a <- get_arr h i;
      if a_cplx a then Err TypeError
      else match a_vals a with
           | [z] => fresh (fst z)
           | v => if negb (Nat.eqb (length v) nD) then Err ValueError
                  else if existsb (fun z => Rltb (fst z) 0) v then Err ValueError
                  else Ok (h, Some i)
           end
  end.

(** data.py 11-391: the references a [Data] or [SyntheticData] object holds. *)
Record obj := mkObj { o_dobs : nat; o_clean : option nat; o_rel : option nat; o_floor : option nat }.

(** data.py 130-134, 387-391: an array of the size of the survey is kept as it is. *)
Definition keep_data (nD : nat) (h : heap) (i : nat) : result nat :=
  do a <- get_arr h i;
  if Nat.eqb (length (a_vals a)) nD then Ok i else Err ValueError.

(** data.py 260-263. *)
Definition keep_std (nD : nat) (h : heap) (o : obj) (u : uref) : result (heap * obj) :=
  do d <- get_arr h (o_dobs o);
  let '(h0, z) := alloc h (real_arr (repeat 0 (length (a_vals d)))) in
  do r <- keep_uncert nD h0 (RArr z);
  do f <- keep_uncert nD (fst r) u;
  Ok (fst f, mkObj (o_dobs o) (o_clean o) (snd r) (snd f)).

(** data.py 55-90, and 351-363 for [clean]. *)
Definition new_data (nD : nat) (h : heap) (dobs : nat) (clean : option nat) (rel fl std : uref) : result (heap * obj) :=
  do d <- keep_data nD h dobs;
  do r <- keep_uncert nD h rel;
  do f <- keep_uncert nD (fst r) fl;
  let o := mkObj d None (snd r) (snd f) in
  do p <- match std with
          | RNone => match rel, fl with
                     | RNone, RNone => keep_std nD (fst f) o (RNum 0)
                     | _, _ => Ok (fst f, o)
                     end
          | _ => keep_std nD (fst f) o std
          end;
  match clean with
  | None => Ok p
  | Some c => do c' <- keep_data nD (fst p) c; Ok (fst p, mkObj (o_dobs (snd p)) (Some c') (o_rel (snd p)) (o_floor (snd p)))
  end.

(** The factor [relative_error] or the term [noise_floor] in an expression with an array of
    [n] numbers: None does not take part in arithmetic, other sizes do not broadcast, complex
    scales are refused by the generator. *)
Definition operand (n : nat) (h : heap) (u : uref) : result (list R) :=
  match u with
  | RNone => Err TypeError
  | RNum x => Ok (repeat x n)
  | RArr i =>
      do a <- get_arr h i;
      if a_cplx a then Err TypeError
      else match a_vals a with
           | [z] => Ok (repeat (fst z) n)
           | v => if Nat.eqb (length v) n then Ok (map fst v) else Err ValueError
           end
  end.

(** [add_noise]: the object True, another true value ([1], [np.True_]), or a false value. *)
Inductive flag := FTrue | FTruthy | FFalse.

(** simulation.py 365-433: [p] is the array returned by [dpred], new at each call; [z] the
    standard normal numbers drawn ([normal(0, s)] is [s] times such a number).  [kwstd] tells
    that the removed argument [std] was given. *)
Definition make_synthetic (nD : nat) (h : heap) (p : arr) (rel fl : uref) (noise : flag) (z : nat -> R) (kwstd : bool) : result (heap * obj) :=
  if kwstd then Err TypeError
  else
    let '(h1, clean) := alloc h p in
    do hd <- match noise with
      | FTrue =>
          do r <- operand (length (a_vals p)) h1 rel;
          do f <- operand (length (a_vals p)) h1 fl;
          let tot := map sqrt (vadd (map (fun x => x * x) (vmul r (map cmod (a_vals p)))) (map (fun x => x * x) f)) in
          Ok (alloc h1 (mkArr (a_cplx p)
                (map (fun k => let d := nth k (a_vals p) (0, 0) in (fst d + nth k tot 0 * z k, snd d))
                     (seq 0 (length (a_vals p))))))
      | FTruthy | FFalse => Ok (h1, clean)
      end;
    new_data nD (fst hd) (snd hd) (Some clean) rel fl RNone.

(** simulation.py 161-196 [BaseSimulation.dpred]: the receivers' values are stored in an
    array of floats. *)
Definition base_dpred (evals : list (list cplx)) : arr := mkArr false (map (cast false) (List.concat evals)).

(** ** Programs *)
Record state := mkState { st_heap : heap; st_objs : list obj }.

Inductive op :=
| ONew (a : arr)                                      (* the user makes an array *)
| OData (dobs : nat) (rel fl std : uref)              (* Data(...) *)
| OSynth (p : arr) (rel fl : uref) (noise : flag) (z : nat -> R) (kwstd : bool)
| OItem (k : nat) (key : pkey) (v : list cplx)        (* data[key] = v *)
| OSetDobs (k : nat) (i : nat)
| OSetClean (k : nat) (i : nat)
| OSetRel (k : nat) (u : uref)
| OSetFloor (k : nat) (u : uref)
| OSetStd (k : nat) (u : uref).

Fixpoint put_obj (l : list obj) (k : nat) (o : obj) : list obj :=
  match l, k with
  | [], _ => []
  | _ :: r, O => o :: r
  | b :: r, Datatypes.S j => b :: put_obj r j o
  end.
Definition get_obj (s : state) (k : nat) : result obj :=
  match nth_error (st_objs s) k with Some o => Ok o | None => Err KeyError end.

(** One statement. *)
Definition exec (l : list src) (nD : nat) (s : state) (o : op) : result state :=
  let h := st_heap s in
  let update k (r : obj -> result (heap * obj)) :=
    do x <- get_obj s k; do p <- r x; Ok (mkState (fst p) (put_obj (st_objs s) k (snd p))) in
  match o with
  | ONew a => Ok (mkState (h ++ [a]) (st_objs s))
  | OData d r f sd => do p <- new_data nD h d None r f sd; Ok (mkState (fst p) (st_objs s ++ [snd p]))
  | OSynth p r f n z kw => do q <- make_synthetic nD h p r f n z kw; Ok (mkState (fst q) (st_objs s ++ [snd q]))
  | OItem k key v =>          (* data.py 291-293: in place *)
      do x <- get_obj s k;
      do a <- get_arr h (o_dobs x);
      do w <- setitem l (a_vals a) key (map (cast (a_cplx a)) v);
      Ok (mkState (put_arr h (o_dobs x) (mkArr (a_cplx a) w)) (st_objs s))
  | OSetDobs k i => update k (fun x => do d <- keep_data nD h i; Ok (h, mkObj d (o_clean x) (o_rel x) (o_floor x)))
  | OSetClean k i => update k (fun x => do d <- keep_data nD h i; Ok (h, mkObj (o_dobs x) (Some d) (o_rel x) (o_floor x)))
  | OSetRel k u => update k (fun x => do q <- keep_uncert nD h u; Ok (fst q, mkObj (o_dobs x) (o_clean x) (snd q) (o_floor x)))
  | OSetFloor k u => update k (fun x => do q <- keep_uncert nD h u; Ok (fst q, mkObj (o_dobs x) (o_clean x) (o_rel x) (snd q)))
  | OSetStd k u => update k (fun x => keep_std nD h x u)
  end.
(** A statement that raises leaves objects as they were.  (The assignment of
    [standard_deviation] sets the relative error first: when the value is refused, the
    relative error is already zero.) *)
Definition after (l : list src) (nD : nat) (s : state) (o : op) : state :=
  match exec l nD s o with
  | Ok s' => s'
  | Err _ =>
      match o with
      | OSetStd k u =>
          match nth_error (st_objs s) k with
          | Some x => match get_arr (st_heap s) (o_dobs x) with
                      | Ok d => match keep_uncert nD (st_heap s ++ [real_arr (repeat 0 (length (a_vals d)))]) (RArr (length (st_heap s))) with
                                | Ok r => mkState (fst r) (put_obj (st_objs s) k (mkObj (o_dobs x) (o_clean x) (snd r) (o_floor x)))
                                | Err _ => s
                                end
                      | Err _ => s
                      end
          | None => s
          end
      | _ => s
      end
  end.
Definition run (l : list src) (nD : nat) (s : state) (ops : list op) : state := fold_left (after l nD) ops s.

(** ** What the objects show *)
Definition shown (h : heap) (i : nat) : list cplx := match nth_error h i with Some a => a_vals a | None => [] end.
Definition shown_real (h : heap) (i : option nat) : option (list R) := option_map (fun j => map fst (shown h j)) i.
(** data.py 222-258. *)
Definition std_of (h : heap) (o : obj) : result (list R) :=
  std_getter cmod (mkData 0 (shown h (o_dobs o)) (shown_real h (o_rel o)) (shown_real h (o_floor o))).
