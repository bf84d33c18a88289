(** Properties C27 and C28: stored fields as a map from (source, name[, time]) to values. *)
From Coq Require Import ZArith String.
From Verif Require Import Py Survey Validators FieldsM SpecFields FieldsFacts.

(** C27.  Whatever was written before, and whatever harmless writes follow, reading the
    columns of a successful write returns exactly the value it spread over them. *)
Theorem C27_read_latest : forall (A : Type) (zero : A) c before w after ind np ws,
  good_conf c -> known c (w_name w) = Some np -> addresses c (w_key w) ind -> NoDup ind ->
  spreads (n_fields (c_srcs c)) np (length ind) (w_val w) ws ->
  Forall (harmless c (n_fields (c_srcs c)) np (w_name w) ind) after ->
  fget c (frun zero c [] (before ++ w :: after)) (w_key w) (w_name w) = Ok ws.
Proof. exact @read_latest. Qed.
Print Assumptions C27_read_latest.
(** Distinct sources own distinct columns, and disjoint lists of sources disjoint columns. *)
Theorem C27_sources_separate : forall l ks ks' ind ind', valid_src_list l = true ->
  get_source_indices l ks = Ok ind -> get_source_indices l ks' = Ok ind' ->
  (NoDup ks -> NoDup ind) /\ ((forall k, In k ks -> ~ In k ks') -> disjoint ind ind').
Proof. intros l ks ks' ind ind' Hv H H'. split; [eapply indices_nodup; eassumption|eapply indices_disjoint; eassumption]. Qed.
Print Assumptions C27_sources_separate.
(** Reads a write does not concern are unchanged by it. *)
Theorem C27_frame : forall (A : Type) (zero : A) c ws w k n np ind,
  good_conf c -> known c n = Some np -> addresses c k ind -> harmless c (n_fields (c_srcs c)) np n ind w ->
  forall v, fget c (frun zero c [] ws) k n = Ok v -> fget c (frun zero c [] (ws ++ [w])) k n = Ok v.
Proof. exact @frame. Qed.
Print Assumptions C27_frame.
(** A field no write has named raises when read. *)
Theorem C27_unwritten_raises : forall (A : Type) (zero : A) c ws k n, good_conf c -> known c n <> None ->
  Forall (fun w => w_name w <> n) ws -> (exists ind, addresses c k ind) -> fget c (frun zero c [] ws) k n = Err KeyError.
Proof. exact @unwritten_raises. Qed.
Print Assumptions C27_unwritten_raises.
(** Aliases and unknown names cannot be written (alone or in a dictionary) and unknown
    names cannot be read; nothing changes. *)
Theorem C27_not_writable : forall (A : Type) (zero : A) c s k n v, known c n = None ->
  fset zero c s k n v = (s, Some KeyError) /\ (alias c n = None -> fget c s k n = Err KeyError).
Proof. exact @unknown_raises. Qed.
Print Assumptions C27_not_writable.
Theorem C27_not_writable_dict : forall (A : Type) (zero : A) c s ind n v vs, known c n = None ->
  set_many zero c s ind ((n, v) :: vs) = (s, Some AssertionError).
Proof. exact @dict_unknown. Qed.
Print Assumptions C27_not_writable_dict.
(** The constructor refuses names that are both known and aliased. *)
Theorem C27_no_overlap : forall (A : Type) (c : @fconf A) s, fields_init c = Ok s ->
  s = [] /\ forall n np, known c n = Some np -> alias c n = None.
Proof. exact @init_no_overlap. Qed.
Print Assumptions C27_no_overlap.
(** Reading an alias applies its function to the current value of its target. *)
Theorem C27_alias_read : forall (A : Type) (zero : A) c ws k n a fn ind v, good_conf c ->
  known c n = None -> alias c n = Some (a, fn) -> known c a <> None -> addresses c k ind ->
  fget c (frun zero c [] ws) k a = Ok v -> fget c (frun zero c [] ws) k n = Ok (fn v (key_srcs c k)).
Proof. exact @alias_read_run. Qed.
Print Assumptions C27_alias_read.
(** Assigning a dictionary is assigning its entries in turn, up to the first that raises. *)
Theorem C27_dictionary : forall (A : Type) (zero : A) c k ind vs, addresses c k ind -> forall s, Forall (fun p => known c (fst p) <> None) vs ->
  exists done rest, vs = done ++ rest /\ fst (fset_dict zero c s k vs) = frun zero c s (map (fun p => mkW k (fst p) (snd p)) done) /\
    (snd (fset_dict zero c s k vs) = None -> rest = []).
Proof. exact @dict_sequence. Qed.
Print Assumptions C27_dictionary.
(** Finding: a write that raises makes an unwritten field readable, as zeros ... *)
Theorem C27_failed_write_refuted : ~ forall (c : @fconf nat) s k n v e r, good_conf c ->
  snd (fset 0 c s k n v) = Some e -> fget c (fst (fset 0 c s k n v)) k n = Ok r -> fget c s k n = Ok r.
Proof.
  intros H. destruct failed_write_visible as (A & B & C). specialize (H _ _ _ _ _ _ _ ex_conf_good B C). rewrite A in H. discriminate.
Qed.
Print Assumptions C27_failed_write_refuted.
(** ... and so does a write to another source. *)
Theorem C27_other_source_refuted : ~ forall (c : @fconf nat) k k' n v r, good_conf c ->
  (forall ind ind', addresses c k ind -> addresses c k' ind' -> disjoint ind ind') ->
  fget c (fst (fset 0 c [] k n v)) k' n = Ok r -> fget c [] k' n = Ok r.
Proof.
  intros H. assert (E : fget ex_conf [] (KSrcs [7]) "e" = Ok [[0; 0]]); [|discriminate E].
  apply (H ex_conf (KSrcs [5]) (KSrcs [7]) "e"%string (FVec [1; 2]) _ ex_conf_good); [|exact unwritten_source_reads].
  intros ind ind' H1 H2. injection H1 as <-. injection H2 as <-. intros i [<-|[]] [E|[]]. discriminate.
Qed.
Print Assumptions C27_other_source_refuted.
(** Finding: with several columns per source (natural-source EM), a slice of sources picks
    columns by position, not the columns of the sliced sources. *)
Theorem C27_slice_refuted : exists (c : @fconf nat) s a b n r1 r2, fget c s (KSlice a b) n = Ok r1 /\ fget c s (KSrcs (key_srcs c (KSlice a b))) n = Ok r2 /\ r1 <> r2.
Proof.
  exists (mkConf [mkSrc 5 [] 2; mkSrc 7 [] 2] [("e"%string, 1)] []), [("e"%string, [[1]; [2]; [3]; [4]])], 0, 1, "e"%string, [[1]], [[1]; [2]].
  destruct slice_columns as (E & A & B). split; [exact A|]. split; [rewrite E; exact B|discriminate].
Qed.
Print Assumptions C27_slice_refuted.
Example C27_example : good_conf ex_conf /\ addresses ex_conf (KSrcs [7; 5]) [1; 0] /\ spreads 2 2 2 (FCols [[1; 2]; [3; 4]]) [[1; 2]; [3; 4]] /\
  harmless ex_conf 2 2 "e" [1] (mkW (KSrcs [5]) "e" (FScal 3)).
Proof.
  split; [exact ex_conf_good|]. split; [reflexivity|]. split.
  - apply sp_cols; [discriminate|reflexivity|]. repeat constructor.
  - right. left. intros ind' H. injection H as <-. intros i [<-|[]] [E|[]]. discriminate.
Qed.

(** C28.  Writing some times of some sources reads back exactly after any earlier history
    and any later writes to other fields, sources or times ... *)
Theorem C28_read_latest : forall (A : Type) (zero : A) c nt before w after si ti np out, known c (tw_name w) = Some np ->
  tsrc_index c (tw_key w) = Ok si -> Forall (fun i => i < length (c_srcs c)) si -> NoDup si ->
  time_index nt (tw_time w) = Ok ti -> NoDup ti -> plain_key (tw_key w) (tw_time w) si ti ->
  fills np (length si * length ti) (tw_val w) out -> Forall (harmless_t c nt (tw_name w) si ti) after ->
  tget c nt (trun zero c nt [] (before ++ w :: after)) (tw_key w) (tw_name w) (tw_time w) = Ok out.
Proof. exact @tread_latest. Qed.
Print Assumptions C28_read_latest.
(** ... and every other slot keeps its value. *)
Theorem C28_frame : forall (A : Type) (zero : A) c nt ws w k n t si ti np, known c n = Some np ->
  tsrc_index c k = Ok si -> Forall (fun i => i < length (c_srcs c)) si -> time_index nt t = Ok ti -> plain_key k t si ti ->
  harmless_t c nt n si ti w ->
  forall v, tget c nt (trun zero c nt [] ws) k n t = Ok v -> tget c nt (trun zero c nt [] (ws ++ [w])) k n t = Ok v.
Proof. exact @tframe. Qed.
Print Assumptions C28_frame.
(** The range condition holds for every key when each source owns one column. *)
Theorem C28_in_range : forall (A : Type) (c : @fconf A) k si, valid_src_list (c_srcs c) = true -> Forall (fun s => src_nf s = 1) (c_srcs c) ->
  tsrc_index c k = Ok si -> Forall (fun i => i < length (c_srcs c)) si.
Proof. exact @tsrc_range. Qed.
Print Assumptions C28_in_range.
(** Finding: a list of sources with a list of times is paired entry by entry: a constant
    written to two sources and two times reaches two of the four slots, without an error,
    and reading back with the same key raises. *)
Theorem C28_paired_lists_refuted : ~ forall (c : @fconf nat) nt ks n l x i t,
  snd (tset 0 c nt [] (KSrcs ks) n (TList l) (TScal x)) = None -> In i ks -> In t l ->
  exists m, tget c nt (fst (tset 0 c nt [] (KSrcs ks) n (TList l) (TScal x))) (KSrcs [i]) n (TInt t) = Ok (repeat x m).
Proof.
  intros H. destruct (H ex_conf 3 [5; 7] "e"%string [0; 1]%Z 9 5 1%Z) as [m E]; [reflexivity|left; reflexivity|right; left; reflexivity|].
  vm_compute in E. destruct m as [|m]; discriminate E.
Qed.
Print Assumptions C28_paired_lists_refuted.
Example C28_example : time_index 4 (TInt (-1)%Z) = Ok [3] /\ tsrc_index ex_conf (KSrcs [7]) = Ok [1] /\ fills 2 1 (TArr [4; 5]) [4; 5] /\
  harmless_t ex_conf 4 "e" [1] [3] (mkTW (KSrcs [7]) "e" (TSlice 0 3) (TScal 0)).
Proof.
  split; [reflexivity|]. split; [reflexivity|]. split; [constructor; reflexivity|]. right. right. intros ti' H. injection H as <-.
  intros i [<-|[]] H. cbn in H. intuition discriminate.
Qed.
