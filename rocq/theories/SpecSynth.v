(** Specification of data objects by value: every object owns its numbers. *)
From Verif Require Import Py Vec Survey DataM Synth.
Local Open Scope R_scope.
Local Open Scope list_scope.

(** An object as the numbers it shows: data, uncertainties (the container of C04), whether
    the data are complex, clean data. *)
Record value := mkValue { v_data : @ddata cplx; v_cplx : bool; v_clean : option (list cplx) }.
Definition kind (h : heap) (i : nat) : bool := match nth_error h i with Some a => a_cplx a | None => false end.
Definition view (nD : nat) (h : heap) (o : obj) : value :=
  mkValue (mkData nD (shown h (o_dobs o)) (shown_real h (o_rel o)) (shown_real h (o_floor o))) (kind h (o_dobs o)) (option_map (shown h) (o_clean o)).
Definition views (nD : nat) (s : state) : list value := map (view nD (st_heap s)) (st_objs s).

(** The numbers of an argument at the moment of the call. *)
Definition value_of (h : heap) (u : uref) : result uval :=
  match u with
  | RNone => Ok UNone
  | RNum x => Ok (UScalar x)
  | RArr i => do a <- get_arr h i; if a_cplx a then Err TypeError else Ok (UVec (map fst (a_vals a)))
  end.
(** The number for datum [i]: one for all, or one each. *)
Definition at_datum (u : uval) (i : nat) : R :=
  match u with UNone => 0 | UScalar x => x | UVec [x] => x | UVec v => nth i v 0 end.
(** The standard deviation of the noise of datum [d]. *)
Definition sigma (rel fl : R) (d : cplx) : R := sqrt ((rel * cmod d) * (rel * cmod d) + fl * fl).
Definition noisy (clean : list cplx) (rel fl : uval) (z : nat -> R) : list cplx :=
  map (fun i => let d := nth i clean (0, 0) in (fst d + sigma (at_datum rel i) (at_datum fl i) d * z i, snd d)) (seq 0 (length clean)).

Definition change (l : list value) (k : nat) (f : value -> value) : list value :=
  match nth_error l k with
  | Some v => firstn k l ++ f v :: skipn (Datatypes.S k) l
  | None => l
  end.
Definition with_data (v : value) (d : @ddata cplx) : value := mkValue d (v_cplx v) (v_clean v).

(** What each statement does to the list of objects, by value; a statement that raises leaves
    them as [DataM] says. *)
Definition by_value (l : list src) (nD : nat) (h : heap) (vs : list value) (o : op) : list value :=
  match o with
  | ONew _ => vs
  | OData d r f sd =>
      match (do a <- get_arr h d; do r' <- value_of h r; do f' <- value_of h f; do s' <- value_of h sd;
             do x <- data_init nD (a_vals a) r' f' s'; Ok (mkValue x (a_cplx a) None)) with
      | Ok v => vs ++ [v] | Err _ => vs end
  | OSynth p r f n z kw =>
      match (do r' <- value_of h r; do f' <- value_of h f;
             do u <- (if kw then Err TypeError else match n, r', f' with FTrue, UNone, _ | FTrue, _, UNone => Err TypeError | _, _, _ => Ok tt end);
             do x <- data_init nD (match n with FTrue => noisy (a_vals p) r' f' z | _ => a_vals p end) r' f' UNone;
             Ok (mkValue x (a_cplx p) (Some (a_vals p)))) with
      | Ok v => vs ++ [v] | Err _ => vs end
  | OItem k key w => change vs k (fun v => with_data v (fst (set_item l (v_data v) key (map (cast (v_cplx v)) w))))
  | OSetDobs k i =>
      match get_arr h i with
      | Ok a => if Nat.eqb (length (a_vals a)) nD then change vs k (fun v => mkValue (fst (set_dobs (v_data v) (a_vals a))) (a_cplx a) (v_clean v)) else vs
      | Err _ => vs end
  | OSetClean k i =>
      match get_arr h i with
      | Ok a => if Nat.eqb (length (a_vals a)) nD then change vs k (fun v => mkValue (v_data v) (v_cplx v) (Some (a_vals a))) else vs
      | Err _ => vs end
  | OSetRel k u => match value_of h u with Ok x => change vs k (fun v => with_data v (fst (set_rel (v_data v) x))) | Err _ => vs end
  | OSetFloor k u => match value_of h u with Ok x => change vs k (fun v => with_data v (fst (set_floor (v_data v) x))) | Err _ => vs end
  | OSetStd k u =>
      match value_of h u with
      | Ok x => change vs k (fun v => with_data v (fst (set_std (v_data v) x)))
      | Err _ => change vs k (fun v => with_data v (fst (set_rel (v_data v) (UVec (vzero (length (d_dobs (v_data v))))))))
      end
  end.

(** The arrays a statement hands over to the object it makes or changes. *)
Definition refs (u : uref) : list nat := match u with RArr i => [i] | _ => [] end.
Definition opt (o : option nat) : list nat := match o with Some i => [i] | None => [] end.
Definition given (o : op) : list nat :=
  match o with
  | ONew _ | OItem _ _ _ => []
  | OData d r f sd => d :: refs r ++ refs f ++ refs sd
  | OSynth _ r f _ _ _ => refs r ++ refs f
  | OSetDobs _ i | OSetClean _ i => [i]
  | OSetRel _ u | OSetFloor _ u | OSetStd _ u => refs u
  end.
(** The arrays an object holds. *)
Definition held (o : obj) : list nat := o_dobs o :: opt (o_clean o) ++ opt (o_rel o) ++ opt (o_floor o).
(** A statement that hands over arrays (that exist) no object holds, each once; synthetic data
    are made with noise. *)
Definition unshared (s : state) (o : op) : Prop :=
  NoDup (given o) /\ (forall i, In i (given o) -> (i < length (st_heap s))%nat /\ forall x, In x (st_objs s) -> ~ In i (held x))
  /\ match o with OSynth _ _ _ n _ _ => n = FTrue | _ => True end.
Fixpoint all_unshared (l : list src) (nD : nat) (s : state) (ops : list op) : Prop :=
  match ops with
  | [] => True
  | o :: r => unshared s o /\ all_unshared l nD (after l nD s o) r
  end.
Definition start : state := mkState [] [].

(** A survey of two data, predicted data and a program, for the examples. *)
Definition demo_srcs : list src := [mkSrc 1 [mkRx 2 1] 1; mkSrc 3 [mkRx 4 1] 1].
Definition demo_p : arr := mkArr false [(1, 0); (2, 0)].
Definition demo_ops : list op := [ONew (real_arr [3; 4]); OSynth demo_p (RNum 1) (RNum 0) FTrue (fun _ => 1) false; OData 0 (RNum 1) RNone RNone; OItem 0 (1, 2)%nat [(7, 0)]].
