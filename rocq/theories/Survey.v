(** Model of surveys: sources, receivers and the flat-array slices of the pairs.
    Models simpeg/survey.py.  Object identity ([is]) is a [nat] identifier. *)
From Verif Require Import Py.

(** survey.py 24-104, 194-221: a receiver.  Only its identity and its number of
    data [nD] matter here (locations and times are abstracted to their count). *)
Record rx := mkRx { rx_id : nat; rx_nD : nat }.

(** survey.py 282-411: a source, with its receiver list and the number of fields
    columns it owns ([_fields_per_source], survey.py 413-416). *)
Record src := mkSrc { src_id : nat; src_rxs : list rx; src_nf : nat }.

(** survey.py 335-339 and 456-460 with utils/code_utils.py 939-989
    ([ensure_unique=True]): the list setters reject repeated objects. *)
Definition valid_rx_list (l : list rx) : bool := nodupb (map rx_id l).
Definition valid_src_list (l : list src) : bool := nodupb (map src_id l).

(** A list of sources that every setter involved has accepted. *)
Definition accepted (l : list src) : bool :=
  valid_src_list l && forallb (fun s => valid_rx_list (src_rxs s)) l.

(** survey.py 391-411 [BaseSrc.vnD] / [BaseSrc.nD]. *)
Definition list_sum_nat (l : list nat) : nat := fold_left Nat.add l 0.
Definition src_vnD (s : src) : list nat := map rx_nD (src_rxs s).
Definition src_nD (s : src) : nat := list_sum_nat (src_vnD s).

(** A slice object [slice(start, stop)]. *)
Definition slice := (nat * nat)%type.
(** A (source, receiver) dictionary key, compared by identity. *)
Definition pkey := (nat * nat)%type.
Definition pkey_eqb (a b : pkey) : bool := Nat.eqb (fst a) (fst b) && Nat.eqb (snd a) (snd b).

(** survey.py 568-571 / 612-615: the generator of (src, rx) pairs. *)
Definition pairs (l : list src) : list (src * rx) :=
  flat_map (fun s => map (fun r => (s, r)) (src_rxs s)) l.

(** survey.py 574-582: the search loop of [get_slice]. *)
Fixpoint get_slice_loop (ps : list (src * rx)) (end_offset : nat) (k : pkey) : option slice :=
  match ps with
  | [] => None
  | (s, r) :: ps' =>
      let start_offset := end_offset in
      let end_offset := end_offset + rx_nD r in
      if Nat.eqb (src_id s) (fst k) && Nat.eqb (rx_id r) (snd k)
      then Some (start_offset, end_offset)
      else get_slice_loop ps' end_offset k
  end.

(** survey.py 542-590 [BaseSurvey.get_slice]. *)
Definition get_slice (l : list src) (k : pkey) : result slice :=
  match get_slice_loop (pairs l) 0 k with
  | Some sl => Ok sl
  | None => Err KeyError
  end.

(** survey.py 618-626: body of the loop of [get_all_slices]; the state is the
    dictionary and the running offset. *)
Definition all_slices_step (st : list (pkey * slice) * nat) (p : src * rx)
  : list (pkey * slice) * nat :=
  let '(d, end_offset) := st in
  let start_offset := end_offset in
  let end_offset := end_offset + rx_nD (snd p) in
  (dict_set pkey_eqb (src_id (fst p), rx_id (snd p)) (start_offset, end_offset) d, end_offset).

(** survey.py 592-626 [BaseSurvey.get_all_slices]. *)
Definition get_all_slices (l : list src) : list (pkey * slice) :=
  fst (fold_left all_slices_step (pairs l) ([], 0)).

(** survey.py 462-471 [_sourceOrder]: source identity -> field columns.  The
    guard [getattr(self, "__sourceOrder", None)] never sees the (name-mangled)
    cached attribute, so the dictionary is rebuilt at every access. *)
Definition source_order_step (st : list (nat * list nat) * nat) (s : src) :=
  let '(d, ii) := st in
  (dict_set Nat.eqb (src_id s) (map (fun i => ii + i) (seq 0 (src_nf s))) d, ii + src_nf s).
Definition source_order (l : list src) : list (nat * list nat) :=
  fst (fold_left source_order_step l ([], 0)).

(** survey.py 485-500 [get_source_indices] for a list of source identities. *)
Fixpoint get_source_indices (l : list src) (sources : list nat) : result (list nat) :=
  match sources with
  | [] => Ok []
  | s :: rest =>
      match dict_get Nat.eqb s (source_order l) with
      | None => Err KeyError
      | Some ind => do tl <- get_source_indices l rest; Ok (ind ++ tl)
      end
  end.

(** survey.py 536-539 [_n_fields]. *)
Definition n_fields (l : list src) : nat := list_sum_nat (map src_nf l).

(** ** The survey object with its cached [vnD] *)

(** survey.py 418-541: the mutable survey: its source list and the cache [_vnD]
    (survey.py 522-524), which no setter clears. *)
Record survey := mkSurvey { sv_srcs : list src; sv_vnD : option (list nat) }.

(** survey.py 430-437: the constructor goes through the [source_list] setter. *)
Definition survey_init (l : list src) : result survey :=
  if valid_src_list l then Ok (mkSurvey l None) else Err ValueError.

(** survey.py 513-524 [vnD] (value, new object state). *)
Definition survey_vnD (s : survey) : list nat * survey :=
  match sv_vnD s with
  | Some v => (v, s)
  | None => let v := map src_nD (sv_srcs s) in (v, mkSurvey (sv_srcs s) (Some v))
  end.

(** survey.py 502-511 [nD]. *)
Definition survey_nD (s : survey) : nat * survey :=
  let '(v, s') := survey_vnD s in (list_sum_nat v, s').

(** survey.py 456-460: the [source_list] setter; a rejected list raises before
    the assignment. *)
Definition survey_set_sources (s : survey) (l : list src) : survey :=
  if valid_src_list l then mkSurvey l (sv_vnD s) else s.

(** survey.py 335-339: the [receiver_list] setter of one of the survey's sources
    (the survey shares the source object). *)
Definition survey_set_receivers (s : survey) (sid : nat) (rxs : list rx) : survey :=
  if valid_rx_list rxs
  then mkSurvey (map (fun x => if Nat.eqb (src_id x) sid
                               then mkSrc (src_id x) rxs (src_nf x) else x) (sv_srcs s))
                (sv_vnD s)
  else s.

(** The calls a user can make on a survey, and their effect. *)
Inductive survey_op :=
| OpReadND
| OpSetSources (l : list src)
| OpSetReceivers (sid : nat) (rxs : list rx).
Definition survey_step (s : survey) (o : survey_op) : survey :=
  match o with
  | OpReadND => snd (survey_nD s)
  | OpSetSources l => survey_set_sources s l
  | OpSetReceivers sid rxs => survey_set_receivers s sid rxs
  end.
Definition survey_run (s : survey) (ops : list survey_op) : survey := fold_left survey_step ops s.

(** survey.py 364-389 [BaseSrc.get_receiver_indices]: [_rxOrder] (341-349)
    evaluates [getattr(self.__rxOrder, None)], whose second argument is not a
    string: TypeError (or AttributeError before [__rxOrder] exists; it always
    exists, 341-346).  So the call raises for every non-empty request. *)
Definition get_receiver_indices (s : src) (receivers : list nat) : result (list nat) :=
  match receivers with
  | [] => Ok []
  | _ :: _ => Err TypeError
  end.

(** ** Receiver projection caches *)

(** survey.py 130-164 [BaseRx.getP]: a receiver's locations, the flag
    [storeProjections] and the cache [_Ps]; the projection itself is an arbitrary
    function [interp] of (locations, mesh, grid). *)
Section Projections.
  Context {Loc Mat : Type} (interp : Loc -> nat -> nat -> Mat).
  Record prx := mkPrx { p_locs : Loc; p_store : bool; p_cache : list ((nat * nat) * Mat) }.
  Definition getP (r : prx) (mesh grid : nat) : Mat * prx :=
    match dict_get pkey_eqb (mesh, grid) (p_cache r) with
    | Some P => (P, r)
    | None =>
        let P := interp (p_locs r) mesh grid in
        (P, if p_store r
            then mkPrx (p_locs r) true (dict_set pkey_eqb (mesh, grid) P (p_cache r))
            else r)
    end.
  (** survey.py 68-72: the locations setter leaves [_Ps] alone. *)
  Definition set_locations (r : prx) (l : Loc) : prx := mkPrx l (p_store r) (p_cache r).
  (** survey.py 84-92: the [storeProjections] setter leaves [_Ps] alone. *)
  Definition set_store (r : prx) (b : bool) : prx := mkPrx (p_locs r) b (p_cache r).
  Inductive prx_op := PGet (mesh grid : nat) | PSetLoc (l : Loc) | PSetStore (b : bool).
  Definition prx_step (r : prx) (o : prx_op) : prx :=
    match o with
    | PGet m g => snd (getP r m g)
    | PSetLoc l => set_locations r l
    | PSetStore b => set_store r b
    end.
  Definition prx_run (r : prx) (ops : list prx_op) : prx := fold_left prx_step ops r.
End Projections.
Arguments prx : clear implicits.
Arguments mkPrx {Loc Mat}.
Arguments PGet {Loc}.
Arguments PSetLoc {Loc}.
Arguments PSetStore {Loc}.
Arguments prx_op : clear implicits.

(** survey.py 258-279 [BaseTimeRx.getP] with [storeProjections] on: the cache key
    is (mesh, time_mesh) only; [projected_grid] and [projected_time_grid] are read
    only on a miss.  The Kronecker product of the two interpolation matrices is
    an arbitrary function [interpT]. *)
Section TimeProjections.
  Context {Mat : Type} (interpT : nat -> nat -> nat -> nat -> Mat).
  Definition time_getP (cache : list ((nat * nat) * Mat)) (mesh tmesh grid tgrid : nat)
    : Mat * list ((nat * nat) * Mat) :=
    match dict_get pkey_eqb (mesh, tmesh) cache with
    | Some P => (P, cache)
    | None =>
        let P := interpT mesh tmesh grid tgrid in
        (P, dict_set pkey_eqb (mesh, tmesh) P cache)
    end.
End TimeProjections.
