(** Model of simpeg/fields.py: fields stored per source and per time. *)
From Coq Require Import ZArith String.
From Verif Require Import Py Survey Validators.

Section Fields.
  (** Entries of the field arrays; [zero] is what [np.zeros] holds. *)
  Context {A : Type} (zero : A).
  Notation col := (list A).

  (** What is assigned: a number, a 1-D array, or the columns of a 2-D array. *)
  Inductive fval := FScal (x : A) | FVec (v : col) | FCols (cs : list col).

  (** The configuration (lines 68-88, 110-155): [knownFields] with the number of mesh
      points of their location in place of its name, and [aliasFields] with the name
      pointed at and the function (the location entry is unused). *)
  Record fconf := mkConf {
    c_srcs : list src;
    c_known : list (string * nat);
    c_alias : list (string * (string * (list col -> list nat -> list col))) }.
  Definition known (c : fconf) (n : string) : option nat := dict_get String.eqb n (c_known c).
  Definition alias (c : fconf) (n : string) := dict_get String.eqb n (c_alias c).

  (** [_fields]: each stored array as the list of its columns. *)
  Definition fstore := list (string * list col).

  (** 72-91: overlapping definitions are refused. *)
  Definition fields_init (c : fconf) : result fstore :=
    if existsb (fun k => match alias c (fst k) with Some _ => true | None => false end) (c_known c)
    then Err KeyError else Ok [].

  (** 224-242 (with 212-222: [_n_fields] columns). *)
  Definition init_store (c : fconf) (s : fstore) (n : string) : result (fstore * list col * nat) :=
    match known c n with
    | None => Err AssertionError
    | Some np =>
        match dict_get String.eqb n s with
        | Some f => Ok (s, f, np)
        | None => let f := repeat (repeat zero np) (n_fields (c_srcs c)) in Ok (dict_set String.eqb n f s, f, np)
        end
    end.

  (** Sources in a key: a source or a list of sources, or a slice [a:b]. *)
  Inductive skey := KSrcs (l : list nat) | KSlice (a b : nat).
  (** Positions selected by [a:b] in a sequence of length [n]. *)
  Definition slice_pos (a b n : nat) : list nat := filter (fun i => Nat.leb a i && Nat.ltb i b) (seq 0 n).
  (** 244-249 and 286-287: the columns (a slice is applied as it is to the columns) and
      the list of sources passed to alias functions. *)
  Definition src_index (c : fconf) (k : skey) : result (list nat) :=
    match k with
    | KSrcs l => get_source_indices (c_srcs c) l
    | KSlice a b => Ok (slice_pos a b (n_fields (c_srcs c)))
    end.
  Definition key_srcs (c : fconf) (k : skey) : list nat :=
    match k with
    | KSrcs l => l
    | KSlice a b => map (fun i => nth i (map src_id (c_srcs c)) O) (slice_pos a b (length (c_srcs c)))
    end.

  (** numpy broadcasting of the right-hand side of [field[:, ind] = val] (lines 315-320)
      to [np] rows and [m] columns. *)
  Definition expand (np : nat) (v : col) : option col :=
    if Nat.eqb (length v) np then Some v else match v with [x] => Some (repeat x np) | _ => None end.
  Fixpoint expands (np : nat) (cs : list col) : option (list col) :=
    match cs with
    | [] => Some []
    | v :: cs' => match expand np v, expands np cs' with Some w, Some ws => Some (w :: ws) | _, _ => None end
    end.
  Definition bcast (np m : nat) (v : fval) : option (list col) :=
    match v with
    | FScal x => Some (repeat (repeat x np) m)
    | FVec w => option_map (fun w' => repeat w' m) (expand np w)
    | FCols cs =>
        if Nat.eqb (length cs) m then expands np cs
        else match cs with [w] => option_map (fun w' => repeat w' m) (expand np w) | _ => None end
    end.
  (** [mkvc(val, 2)] when the store has a single column: the columns are stacked. *)
  Definition flat1 (np nf : nat) (v : fval) : fval :=
    match v with FCols cs => if Nat.eqb (np * nf) np then FVec (concat cs) else v | _ => v end.
  Fixpoint upd_col (i : nat) (w : col) (f : list col) : list col :=
    match f, i with [], _ => [] | _ :: f', O => w :: f' | y :: f', S i' => y :: upd_col i' w f' end.
  Definition set_cols (f : list col) (ind : list nat) (ws : list col) : list col :=
    fold_left (fun f p => upd_col (fst p) (snd p) f) (combine ind ws) f.
  (** 302-304 with 315-320, for one name: the store is created before the value is checked. *)
  Definition set_one (c : fconf) (s : fstore) (n : string) (ind : list nat) (v : fval) : fstore * option exn :=
    match init_store c s n with
    | Err e => (s, Some e)
    | Ok (s1, f, np) =>
        match bcast np (length ind) (flat1 np (length f) v) with
        | None => (s1, Some ValueError)
        | Some ws => (dict_set String.eqb n (set_cols f ind ws) s1, None)
        end
    end.
  Fixpoint set_many (c : fconf) (s : fstore) (ind : list nat) (vs : list (string * fval)) : fstore * option exn :=
    match vs with
    | [] => (s, None)
    | (n, v) :: vs' =>
        match set_one c s n ind v with
        | (s1, None) => set_many c s1 ind vs'
        | (s1, Some e) => (s1, Some e)
        end
    end.
  (** 290-304 [__setitem__]: with a name, or with a dictionary. *)
  Definition fset (c : fconf) (s : fstore) (k : skey) (n : string) (v : fval) : fstore * option exn :=
    match known c n with
    | None => (s, Some KeyError)
    | Some _ => match src_index c k with Err e => (s, Some e) | Ok ind => set_many c s ind [(n, v)] end
    end.
  Definition fset_dict (c : fconf) (s : fstore) (k : skey) (vs : list (string * fval)) : fstore * option exn :=
    match src_index c k with Err e => (s, Some e) | Ok ind => set_many c s ind vs end.

  (** 322-342 [_getField]; a list of columns is taken at [ind]. *)
  Definition take_cols (f : list col) (ind : list nat) : list col := map (fun i => nth i f []) ind.
  Definition get_field (c : fconf) (s : fstore) (n : string) (ind srcs : list nat) : result (list col) :=
    match dict_get String.eqb n s with
    | Some f => Ok (take_cols f ind)
    | None =>
        match alias c n with
        | None => Err KeyError
        | Some (a, fn) =>
            match dict_get String.eqb a s with
            | None => Err KeyError
            | Some f => Ok (fn (take_cols f ind) srcs)
            end
        end
    end.
  (** 306-313 [__getitem__] with a name (269-272: unknown names raise), and without one. *)
  Definition fget (c : fconf) (s : fstore) (k : skey) (n : string) : result (list col) :=
    match known c n, alias c n with
    | None, None => Err KeyError
    | _, _ => do ind <- src_index c k; get_field c s n ind (key_srcs c k)
    end.
  Definition fget_all (c : fconf) (s : fstore) (k : skey) : result (list (string * list col)) :=
    do ind <- src_index c k;
    mapM (fun p => do v <- get_field c s (fst p) ind (key_srcs c k); Ok (fst p, v)) s.
  (** 344-347 [__contains__]. *)
  Definition fcontains (c : fconf) (s : fstore) (n : string) : bool :=
    let n' := match alias c n with Some (a, _) => a | None => n end in
    match dict_get String.eqb n' s with Some _ => true | None => false end.

  (** A program of assignments; an exception ends its statement only. *)
  Record fwrite := mkW { w_key : skey; w_name : string; w_val : fval }.
  Definition fstep (c : fconf) (s : fstore) (w : fwrite) : fstore := fst (fset c s (w_key w) (w_name w) (w_val w)).
  Definition frun (c : fconf) (s : fstore) (ws : list fwrite) : fstore := fold_left (fstep c) ws s.

  (** ** TimeFields (350-534): an array is a list (sources) of lists (times) of columns. *)
  Definition tarr := list (list col).
  Definition tstore := list (string * tarr).
  (** Time index: an integer, a slice [a:b], or a list of integers. *)
  Inductive tkey := TInt (z : Z) | TSlice (a b : nat) | TList (l : list Z).
  Definition time_index (nt : nat) (k : tkey) : result (list nat) :=
    match k with
    | TInt z => do i <- norm_index nt z; Ok [i]
    | TSlice a b => Ok (slice_pos a b nt)
    | TList l => mapM (norm_index nt) l
    end.
  Definition outer (si ti : list nat) : list (nat * nat) := flat_map (fun t => map (fun i => (i, t)) si) ti.
  (** The cells addressed by [field[:, srcInd, timeInd]], source index fastest (Fortran
      order); two lists are paired entry by entry (numpy's advanced indexing). *)
  Definition cells (islist : bool) (si : list nat) (k : tkey) (ti : list nat) : result (list (nat * nat)) :=
    match islist, k with
    | true, TList _ =>
        if Nat.eqb (length si) (length ti) then Ok (combine si ti)
        else if Nat.eqb (length si) 1 || Nat.eqb (length ti) 1 then Ok (outer si ti)
        else Err IndexError
    | _, _ => Ok (outer si ti)
    end.
  (** [TimeFields] has one column per source, whatever [_fields_per_source] (line 434). *)
  Definition tsrc_index (c : fconf) (k : skey) : result (list nat) :=
    match k with
    | KSrcs l => get_source_indices (c_srcs c) l
    | KSlice a b => Ok (slice_pos a b (length (c_srcs c)))
    end.
  (** numpy's bounds check on the source indices *)
  Definition in_range (c : fconf) (si : list nat) : result (list nat) :=
    if forallb (fun i => Nat.ltb i (length (c_srcs c))) si then Ok si else Err IndexError.
  Definition is_list (k : skey) : bool := match k with KSrcs _ => true | KSlice _ _ => false end.
  Definition tcell (f : tarr) (p : nat * nat) : col := nth (snd p) (nth (fst p) f []) [].
  Fixpoint upd_row (i : nat) (g : list col -> list col) (f : tarr) : tarr :=
    match f, i with [], _ => [] | r :: f', O => g r :: f' | r :: f', S i' => r :: upd_row i' g f' end.
  Definition upd_cell (f : tarr) (p : nat * nat) (w : col) : tarr := upd_row (fst p) (upd_col (snd p) w) f.
  Definition set_cells (f : tarr) (ps : list (nat * nat)) (ws : list col) : tarr :=
    fold_left (fun f q => upd_cell f (fst q) (snd q)) (combine ps ws) f.
  (** Fortran-order splitting of a flat array in [k] columns of [np] rows. *)
  Fixpoint chunks (np k : nat) (v : list A) : list col :=
    match k with O => [] | S k' => firstn np v :: chunks np k' (skipn np v) end.
  (** Assigned values: a number (or a 1-D array of size one, 475-479), or an array given
      by its entries in Fortran order.  Arrays of size one with more dimensions are not modelled. *)
  Inductive tval := TScal (x : A) | TArr (v : list A).
  Definition tval_norm (v : tval) : tval := match v with TArr [x] => TScal x | _ => v end.
  (** 427-436 and 224-242 *)
  Definition tinit_store (c : fconf) (nt : nat) (s : tstore) (n : string) : result (tstore * tarr * nat) :=
    match known c n with
    | None => Err AssertionError
    | Some np =>
        match dict_get String.eqb n s with
        | Some f => Ok (s, f, np)
        | None => let f := repeat (repeat (repeat zero np) nt) (length (c_srcs c)) in Ok (dict_set String.eqb n f s, f, np)
        end
    end.
  (** 472-483 *)
  Definition tset_cells (np : nat) (f : tarr) (si ti : list nat) (rps : result (list (nat * nat))) (v : tval) : result tarr :=
    match tval_norm v with
    | TScal x => do ps <- rps; Ok (set_cells f ps (repeat (repeat x np) (length ps)))
    | TArr w =>
        if Nat.eqb (length w) (np * length si * length ti) then
          do ps <- rps;
          if Nat.eqb (length w) (np * length ps) then Ok (set_cells f ps (chunks np (length ps) w)) else Err ValueError
        else Err ValueError
    end.
  (** 290-304 with 438-454 *)
  Definition tset (c : fconf) (nt : nat) (s : tstore) (k : skey) (n : string) (t : tkey) (v : tval) : tstore * option exn :=
    match known c n with
    | None => (s, Some KeyError)
    | Some _ =>
        match tsrc_index c k with
        | Err e => (s, Some e)
        | Ok si =>
            match tinit_store c nt s n with
            | Err e => (s, Some e)
            | Ok (s1, f, np) =>
                match (do _ <- in_range c si; do ti <- time_index nt t;
                       tset_cells np f si ti (cells (is_list k) si t ti) v) with
                | Err e => (s1, Some e)
                | Ok f' => (dict_set String.eqb n f' s1, None)
                end
            end
        end
    end.
  (** 485-489, 533-534: the entries in Fortran order; the reshape to the (deflated) shape
      needs as many entries as points x sources x times.  Aliased time fields are not modelled. *)
  Definition tget (c : fconf) (nt : nat) (s : tstore) (k : skey) (n : string) (t : tkey) : result (list A) :=
    match known c n with
    | None => Err KeyError
    | Some np =>
        do si <- tsrc_index c k;
        match dict_get String.eqb n s with
        | None => Err KeyError
        | Some f =>
            do _ <- in_range c si;
            do ti <- time_index nt t;
            do ps <- cells (is_list k) si t ti;
            let out := concat (map (tcell f) ps) in
            if Nat.eqb (length out) (np * length si * length ti) then Ok out else Err ValueError
        end
    end.
  Record twrite := mkTW { tw_key : skey; tw_name : string; tw_time : tkey; tw_val : tval }.
  Definition tstep (c : fconf) (nt : nat) (s : tstore) (w : twrite) : tstore :=
    fst (tset c nt s (tw_key w) (tw_name w) (tw_time w) (tw_val w)).
  Definition trun (c : fconf) (nt : nat) (s : tstore) (ws : list twrite) : tstore := fold_left (tstep c nt) ws s.
End Fields.
Arguments mkConf {A}.
