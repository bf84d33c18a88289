(** Specification vocabulary for worker processes. *)
From Verif Require Import Py Vec Meta SpecMeta Multi.
Local Open Scope R_scope.
Section P.
Context {F : Type}.
(** A simulation that never raises. *)
Record good (c : @csim F) (fl : vec -> F) (dp : vec -> vec) (jv jt : vec -> vec -> vec) : Prop := mkGood {
  g_set : forall m, c_set c m = Ok tt; g_fields : forall m, c_fields c m = Ok (fl m); g_dpred : forall m, c_dpred c m (fl m) = Ok (dp m);
  g_jvec : forall m v, c_jvec c m (fl m) v = Ok (jv m v); g_jtvec : forall m w, c_jtvec c m (fl m) w = Ok (jt m w) }.
(** No step is possible. *)
Definition stuck (s : @prog * list (@worker F)) : Prop := forall s', ~ step s s'.
End P.
Section Q.
Context {F : Type}.
(** The chunk of a worker: a meta simulation of some of the simulations. *)
Definition chunk_fields (ck : list (@msim F * mmap)) (m : vec) : list F := map (fun q => s_fields (fst q) (p_f (snd q) m)) ck.
Definition chunk_dpred (ck : list (@msim F * mmap)) (m : vec) (f : list F) : vec := concat (map (fun q => s_dpred (fst (fst q)) (p_f (snd (fst q)) m) (snd q)) (combine ck f)).
Definition chunk_Jvec (ck : list (@msim F * mmap)) (m : vec) (f : list F) (v : vec) : vec :=
  concat (map (fun q => mv (s_J (fst (fst q)) (p_f (snd (fst q)) m) (snd q)) (mv (p_J (snd (fst q)) m) v)) (combine ck f)).
Definition chunk_nD (ck : list (@msim F * mmap)) : nat := list_sum (map (fun q => s_nD (fst q)) ck).
Fixpoint chunk_Jtvec (n : nat) (ck : list (@msim F * mmap)) (m : vec) (f : list F) (w : vec) : vec :=
  match ck, f with
  | (s, p) :: ck', u :: f' => vadd (mtv n (p_J p m) (mtv (s_nP s) (s_J s (p_f p m) u) (firstn (s_nD s) w))) (chunk_Jtvec n ck' m f' (skipn (s_nD s) w))
  | _, _ => vzero n
  end.
Definition chunk_sim (n : nat) (ck : list (@msim F * mmap)) : @csim (list F) :=
  mkC (chunk_nD ck) (fun _ => Ok tt) (fun m => Ok (chunk_fields ck m)) (fun m f => Ok (chunk_dpred ck m f)) (fun m f v => Ok (chunk_Jvec ck m f v)) (fun m f w => Ok (chunk_Jtvec n ck m f w)).
(** The workers for [n_proc] processes. *)
Definition split (n_proc : nat) (l : list (@msim F * mmap)) : list (list (@msim F * mmap)) := chunks (chunk_sizes n_proc (length l)) l.
Definition started (n n_proc : nat) (l : list (@msim F * mmap)) : list (@worker (list F)) := map (fun ck => start_worker (chunk_sim n ck)) (split n_proc l).
Definition program (kd : kind) (n n_proc : nat) (l : list (@msim F * mmap)) (cs : list call) : prog := history kd n (map chunk_nD (split n_proc l)) cs None [].
(** What the serial simulation answers, freshly made, to one call. *)
Definition serial (n : nat) (sims : list (@msim F)) (maps : list mmap) (c : call) : result vec :=
  match c with
  | CDpred m => snd (meta_dpred sims maps (meta_start sims) (Some m) None)
  | CJvec m v => snd (meta_Jvec sims maps (meta_start sims) m v None)
  | CJtvec m w => snd (meta_Jtvec n sims maps (meta_start sims) m w None)
  end.
Definition serial_sum (n nD : nat) (sims : list (@msim F)) (maps : list mmap) (c : call) : result vec :=
  match c with
  | CDpred m => snd (sum_dpred nD sims maps (meta_start sims) (Some m) None)
  | CJvec m v => snd (sum_Jvec nD sims maps (meta_start sims) m v None)
  | CJtvec m w => snd (sum_Jtvec n sims maps (meta_start sims) m w None)
  end.
Definition call_ok (nD : nat) (c : call) : Prop := match c with CJtvec _ w => length w = nD | _ => True end.
End Q.

(** For the refutations: one datum, d = 5 m; setting the model or computing fields fails
    for some models. *)
Definition line (bad_set bad_fields : R) : @csim R :=
  mkC 1 (fun m => if Req_EM_T (hd 0 m) bad_set then Err ValueError else Ok tt) (fun m => if Req_EM_T (hd 0 m) bad_fields then Err TypeError else Ok (hd 0 m))
      (fun m f => Ok [5 * f]) (fun m f v => Ok [5 * hd 0 v]) (fun m f w => Ok [5 * hd 0 w]).
(** [f = fields([1])]; then [Jvec([bad], [1], f)], [Jvec([1], [2], f)] and [Jvec([1], [3], f)]. *)
Definition kept_fields : prog :=
  fields_prog 1 [1] (fun keys => call_f_prog Stack 1 [1%nat] (CJvec [7] [1]) keys (fun r1 =>
    call_f_prog Stack 1 [1%nat] (CJvec [1] [2]) keys (fun r2 => call_f_prog Stack 1 [1%nat] (CJvec [1] [3]) keys (fun r3 => Ret [r1; r2; r3])))).
