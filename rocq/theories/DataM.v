(** Model of simpeg/data.py: the [Data] container indexed by (source, receiver)
    pairs, and its uncertainties. *)
From Verif Require Import Py Vec Survey.

(** ** Indexing *)
Section Indexed.
  Context {A : Type}.

  (** [arr[a:b]]: numpy clamps the bounds to the array. *)
  Definition slice_get (d : list A) (sl : slice) : list A :=
    firstn (snd sl - fst sl) (skipn (fst sl) d).

  (** [arr[a:b] = v] for 1-D [v]: equal sizes, or a size-1 [v] broadcast;
      otherwise numpy raises ValueError and leaves the array alone. *)
  Definition slice_set (d : list A) (sl : slice) (v : list A) : result (list A) :=
    let n := length (slice_get d sl) in
    let put w := Ok (firstn (fst sl) d ++ w ++ skipn (fst sl + n) d) in
    if Nat.eqb (length v) n then put v
    else match v with
         | [x] => put (repeat x n)
         | _ => Err ValueError
         end.

  (** data.py 295-297 [__getitem__]. *)
  Definition getitem (l : list src) (d : list A) (k : pkey) : result (list A) :=
    do sl <- get_slice l k; Ok (slice_get d sl).

  (** data.py 291-293 [__setitem__]; [mkvc] of an already flat value is the
      value itself. *)
  Definition setitem (l : list src) (d : list A) (k : pkey) (v : list A) : result (list A) :=
    do sl <- get_slice l k; slice_set d sl v.

  (** A statement [data[k] = v] inside a longer program: an exception leaves the
      stored vector untouched. *)
  Definition setitem_step (l : list src) (d : list A) (w : pkey * list A) : list A :=
    match setitem l d (fst w) (snd w) with Ok d' => d' | Err _ => d end.
  Definition setitem_run (l : list src) (d : list A) (ws : list (pkey * list A)) : list A :=
    fold_left (setitem_step l) ws d.

  (** data.py 309-323 [fromvec], 130-134 [dobs] setter with
      code_utils.py 1032-1114: a 1-D value of the wrong size is rejected
      (here [v] is a 1-D array, so only the size test remains). *)
  Definition fromvec (nD : nat) (d v : list A) : result (list A) :=
    if Nat.eqb (length v) nD then Ok v else Err ValueError.
  (** data.py 299-307 [tovec]. *)
  Definition tovec (d : list A) : list A := d.
End Indexed.

(** ** Uncertainties *)

(** What a user may assign to [relative_error], [noise_floor] or
    [standard_deviation]: None, a number, or a 1-D float array. *)
Inductive uval := UNone | UScalar (x : R) | UVec (v : list R).

Local Open Scope R_scope.
Definition Rltb (x y : R) : bool := if Rlt_dec x y then true else false.

(** data.py 164-177 and 207-220 (the two setters have the same body): numbers and
    size-1 arrays are spread over the survey's [nD] data ([validate_float] accepts
    size-1 arrays), other arrays must have [nD] entries, negatives raise. *)
Definition check_uncert (nD : nat) (v : uval) : result (option (list R)) :=
  let finish w := if existsb (fun x => Rltb x 0) w then Err ValueError else Ok (Some w) in
  match v with
  | UNone => Ok None
  | UScalar x => finish (repeat x nD)
  | UVec [x] => finish (repeat x nD)
  | UVec w => if Nat.eqb (length w) nD then finish w else Err ValueError
  end.

Section Uncertainty.
  (** Data values are real or complex; only their modulus matters here. *)
  Context {D : Type} (modulus : D -> R).

  Record ddata := mkData { d_nD : nat; d_dobs : list D;
                           d_rel : option (list R); d_floor : option (list R) }.

  (** data.py 222-258: the [standard_deviation] getter. *)
  Definition std_getter (d : ddata) : result (list R) :=
    match d_rel d, d_floor d with
    | None, None => Err TypeError
    | r, f =>
        let u0 := vzero (length (d_dobs d)) in
        let u1 := match r with
                  | Some rv => vadd u0 (map (fun x => x * x) (vmul rv (map modulus (d_dobs d))))
                  | None => u0 end in
        let u2 := match f with
                  | Some fv => vadd u1 (map (fun x => x * x) fv)
                  | None => u1 end in
        Ok (map sqrt u2)
    end.

  (** The assignments: (state after, exception if any). *)
  Definition set_rel (d : ddata) (v : uval) : ddata * option exn :=
    match check_uncert (d_nD d) v with
    | Ok r => (mkData (d_nD d) (d_dobs d) r (d_floor d), None)
    | Err e => (d, Some e)
    end.
  Definition set_floor (d : ddata) (v : uval) : ddata * option exn :=
    match check_uncert (d_nD d) v with
    | Ok f => (mkData (d_nD d) (d_dobs d) (d_rel d) f, None)
    | Err e => (d, Some e)
    end.
  (** data.py 260-263: two assignments in sequence. *)
  Definition set_std (d : ddata) (v : uval) : ddata * option exn :=
    let '(d1, e1) := set_rel d (UVec (vzero (length (d_dobs d)))) in
    match e1 with Some e => (d1, Some e) | None => set_floor d1 v end.
  (** data.py 130-134. *)
  Definition set_dobs (d : ddata) (v : list D) : ddata * option exn :=
    match fromvec (d_nD d) (d_dobs d) v with
    | Ok v' => (mkData (d_nD d) v' (d_rel d) (d_floor d), None)
    | Err e => (d, Some e)
    end.
  (** data.py 291-293. *)
  Definition set_item (l : list src) (d : ddata) (k : pkey) (v : list D) : ddata * option exn :=
    match setitem l (d_dobs d) k v with
    | Ok v' => (mkData (d_nD d) v' (d_rel d) (d_floor d), None)
    | Err e => (d, Some e)
    end.

  (** data.py 55-90: the constructor, for given [dobs]. *)
  Definition data_init (nD : nat) (dobs : list D) (rel fl std : uval) : result ddata :=
    do v0 <- fromvec nD dobs dobs;
    do r <- check_uncert nD rel;
    do f <- check_uncert nD fl;
    let d := mkData nD v0 r f in
    let is_none u := match u with UNone => true | _ => false end in
    let use_std u := match set_std d u with (d', None) => Ok d' | (_, Some e) => Err e end in
    if negb (is_none std) then use_std std
    else if is_none rel && is_none fl then use_std (UScalar 0)
    else Ok d.

  Inductive data_op :=
  | OSetRel (v : uval) | OSetFloor (v : uval) | OSetStd (v : uval)
  | OSetDobs (v : list D) | OSetItem (k : pkey) (v : list D).
  Definition data_step (l : list src) (d : ddata) (o : data_op) : ddata :=
    fst (match o with
         | OSetRel v => set_rel d v
         | OSetFloor v => set_floor d v
         | OSetStd v => set_std d v
         | OSetDobs v => set_dobs d v
         | OSetItem k v => set_item l d k v
         end).
  Definition data_run (l : list src) (d : ddata) (ops : list data_op) : ddata :=
    fold_left (data_step l) ops d.
End Uncertainty.
Arguments ddata : clear implicits.
Arguments data_op : clear implicits.
