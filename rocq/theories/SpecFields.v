(** Specification vocabulary for stored fields. *)
From Coq Require Import ZArith String.
From Verif Require Import Py Survey FieldsM.

Section Fields.
  Context {A : Type}.
  (** A column of [np] rows given by [v]: itself, or a single entry repeated. *)
  Inductive fit (np : nat) : list A -> list A -> Prop :=
  | fit_same v : length v = np -> fit np v v
  | fit_one x : fit np [x] (repeat x np).
  (** What a value means for [m] columns of [np] rows in a store of [nf] columns: a number
      fills them, a 1-D array (or a single column) is copied to each of them, [m] columns go
      one to each; a store with a single column takes any 2-D array stacked into one. *)
  Inductive spreads (nf np m : nat) : @fval A -> list (list A) -> Prop :=
  | sp_scal x : spreads nf np m (FScal x) (repeat (repeat x np) m)
  | sp_vec v w : fit np v w -> spreads nf np m (FVec v) (repeat w m)
  | sp_cols cs ws : nf <> 1 -> length cs = m -> Forall2 (fit np) cs ws -> spreads nf np m (FCols cs) ws
  | sp_col v w : nf <> 1 -> fit np v w -> spreads nf np m (FCols [v]) (repeat w m)
  | sp_stack cs w : nf = 1 -> fit np (concat cs) w -> spreads nf np m (FCols cs) (repeat w m).

  (** The columns a key addresses, and writes that cannot concern the columns [ind] of
      field [n]: another field, other columns, or a value that fits nowhere. *)
  Definition addresses (c : fconf) (k : skey) (ind : list nat) : Prop := src_index c (A:=A) k = Ok ind.
  Definition disjoint (a b : list nat) : Prop := forall i, In i a -> ~ In i b.
  Definition harmless (c : fconf) (nf np : nat) (n : string) (ind : list nat) (w : @fwrite A) : Prop :=
    w_name w <> n \/
    (forall ind', addresses c (w_key w) ind' -> disjoint ind ind') \/
    (forall ind' ws, addresses c (w_key w) ind' -> ~ spreads nf np (length ind') (w_val w) ws).

  (** A configuration the constructors accept, with at least one mesh point per field and
      as many columns per source as they like. *)
  Definition good_conf (c : fconf) : Prop :=
    valid_src_list (c_srcs (A:=A) c) = true /\ Forall (fun p => 0 < snd p) (c_known c) /\
    forall n np, known c n = Some np -> alias c n = None.

  (** A write concerning other cells of a time-dependent field. *)
  Definition harmless_t (c : fconf) (nt : nat) (n : string) (si ti : list nat) (w : @twrite A) : Prop :=
    tw_name w <> n \/
    (forall si', tsrc_index c (A:=A) (tw_key w) = Ok si' -> disjoint si si') \/
    (forall ti', time_index nt (tw_time w) = Ok ti' -> disjoint ti ti').
  (** Not two lists of several sources and several times (numpy pairs those). *)
  Definition plain_key (k : skey) (t : tkey) (si ti : list nat) : Prop :=
    match k, t with KSrcs _, TList _ => length si = 1 \/ length ti = 1 | _, _ => True end.
  (** Entries of a value in [k] cells of [np] rows. *)
  Inductive fills (np k : nat) : @tval A -> list A -> Prop :=
  | fl_scal x : fills np k (TScal x) (repeat x (np * k))
  | fl_arr v : length v = np * k -> fills np k (TArr v) v
  | fl_one x : fills np k (TArr [x]) (repeat x (np * k)).
End Fields.
