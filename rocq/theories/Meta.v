(** Model of simpeg/meta/simulation.py: [MetaSimulation], [SumMetaSimulation] and
    [RepeatedSimulation]. *)
From Verif Require Import Py Vec.
Local Open Scope R_scope.

Section P.
(** The fields objects of the inner simulations. *)
Context {F : Type}.
(** An inner simulation: number of data, number of model parameters, [fields], [dpred] and
    the sensitivity matrix.  Simplification: its [Jvec], [Jtvec] and [getJtJdiag] are those
    of that matrix, and depend on the model it is given, not on hidden state. *)
Record msim := mkMs { s_nD : nat; s_nP : nat; s_fields : vec -> F; s_dpred : vec -> F -> vec; s_J : vec -> F -> mat }.
(** A mapping with its derivative. *)
Record mmap := mkMm { p_in : nat; p_out : nat; p_f : vec -> vec; p_J : vec -> mat }.
Definition sJvec (s : msim) (x : vec) (u : F) (v : vec) : vec := mv (s_J s x u) v.
Definition sJtvec (s : msim) (x : vec) (u : F) (w : vec) : vec := mtv (s_nP s) (s_J s x u) w.
(** Row i of J times w_i, columns squared and summed. *)
Definition sJtJ (s : msim) (x : vec) (u : F) (w : vec) : vec :=
  map (fun k => vsum (map (fun p => (fst p * nth k (snd p) 0) ^ 2) (combine w (s_J s x u)))) (seq 0 (s_nP s)).

(** 139-164 [mappings.setter] with the checks 120-124 ([ids]: object identities) of a
    non-repeated simulation. *)
Definition meta_init (ids : list nat) (sims : list msim) (maps : list mmap) : result unit :=
  if negb (nodupb ids) then Err TypeError else
  if negb (Nat.eqb (length maps) (length sims)) then Err ValueError else
  match maps with
  | [] => Err IndexError
  | mp0 :: _ => if forallb (fun q => Nat.eqb (p_in (fst q)) (p_in mp0) && Nat.eqb (s_nP (snd q)) (p_out (fst q))) (combine maps sims) then Ok tt else Err ValueError
  end.

(** The meta simulation's own model, the model each inner simulation holds, and the cached
    diagonal. *)
Record mst := mkMst { m_model : option vec; m_inner : list (option vec); m_jtj : option vec }.
(** [np.array_equal]-style comparison of the model setter (props.py HasModel.model). *)
Fixpoint veqb (a b : vec) : bool :=
  match a, b with
  | [], [] => true
  | x :: a', y :: b' => if Req_EM_T x y then veqb a' b' else false
  | _, _ => false
  end.
(** 183-192 *)
Definition set_model (maps : list mmap) (st : mst) (m : vec) : mst :=
  match m_model st with
  | Some old => if veqb old m then st else mkMst (Some m) (map (fun p => Some (p_f p m)) maps) None
  | None => mkMst (Some m) (map (fun p => Some (p_f p m)) maps) None
  end.
(** Using an inner simulation directly: [sims[i].model = x]. *)
Fixpoint set_at {A} (i : nat) (x : A) (l : list A) : list A :=
  match l, i with
  | [], _ => []
  | _ :: l', O => x :: l'
  | a :: l', S i' => a :: set_at i' x l'
  end.
Definition touch (st : mst) (i : nat) (x : vec) : mst := mkMst (m_model st) (set_at i (Some x) (m_inner st)) (m_jtj st).

(** [zip(self.mappings, self.simulations, f)], with the inner model of each. *)
Fixpoint zip4 (maps : list mmap) (sims : list msim) (inner : list (option vec)) (f : list F) : list (mmap * msim * option vec * F) :=
  match maps, sims, inner, f with
  | p :: maps', s :: sims', x :: inner', u :: f' => (p, s, x, u) :: zip4 maps' sims' inner' f'
  | _, _, _, _ => []
  end.
(** What a simulation does without a model is its own business; here it raises. *)
Definition need {A} (x : option A) : result A := match x with Some a => Ok a | None => Err AttributeError end.

(** 194-217 *)
Fixpoint inner_fields (sims : list msim) (inner : list (option vec)) : result (list F) :=
  match sims, inner with
  | s :: sims', x :: inner' => do x <- need x; do r <- inner_fields sims' inner'; Ok (s_fields s x :: r)
  | _, _ => Ok []
  end.
Definition meta_fields (sims : list msim) (maps : list mmap) (st : mst) (m : vec) : mst * result (list F) :=
  let st' := set_model maps st m in (st', inner_fields sims (m_inner st')).
(** The fields used: those given, or new ones. *)
Definition get_f (sims : list msim) (st : mst) (f : option (list F)) : result (list F) :=
  match f with Some f => Ok f | None => inner_fields sims (m_inner st) end.

(** 219-229 *)
Definition meta_dpred (sims : list msim) (maps : list mmap) (st : mst) (m : option vec) (f : option (list F)) : mst * result vec :=
  let st' := match f, m with None, Some m => set_model maps st m | _, _ => st end in
  (st', do f <- get_f sims st' f;
        do l <- mapM (fun q : mmap * msim * option vec * F => let '(p, s, x, u) := q in do x <- need x; Ok (s_dpred s x u)) (zip4 maps sims (m_inner st') f);
        Ok (concat l)).
(** 231-241 *)
Definition meta_Jvec (sims : list msim) (maps : list mmap) (st : mst) (m v : vec) (f : option (list F)) : mst * result vec :=
  let st' := set_model maps st m in
  (st', do f <- get_f sims st' f;
        do l <- mapM (fun q : mmap * msim * option vec * F => let '(p, s, x, u) := q in do x <- need x; do mm <- need (m_model st'); Ok (sJvec s x u (mv (p_J p mm) v)))
                     (zip4 maps sims (m_inner st') f);
        Ok (concat l)).
(** [_data_offsets] slices (102, 253): [v[off[i] : off[i+1]]]. *)
Definition offset (sims : list msim) (i : nat) : nat := list_sum (map s_nD (firstn i sims)).
Definition slice (sims : list msim) (i : nat) (v : vec) : vec := firstn (offset sims (S i) - offset sims i) (skipn (offset sims i) v).
(** 243-255; [n]: length of the model. *)
Fixpoint jt_loop (n : nat) (sims : list msim) (mm : option vec) (w : vec) (i : nat) (q : list (mmap * msim * option vec * F)) : result vec :=
  match q with
  | [] => Ok (vzero n)
  | (p, s, x, u) :: q' =>
      do x <- need x; do mm' <- need mm;
      do r <- jt_loop n sims mm w (S i) q';
      Ok (vadd (mtv n (p_J p mm') (sJtvec s x u (slice sims i w))) r)
  end.
Definition meta_Jtvec (n : nat) (sims : list msim) (maps : list mmap) (st : mst) (m w : vec) (f : option (list F)) : mst * result vec :=
  let st' := set_model maps st m in
  (st', do f <- get_f sims st' f; jt_loop n sims (m_model st') w 0 (zip4 maps sims (m_inner st') f)).
(** 318-322: [(diags(sqrt(jtj)) @ m_deriv).power(2).sum(axis=0)] *)
Definition push_diag (n : nat) (d : vec) (P : mat) : vec :=
  map (fun c => vsum (map (fun q => (sqrt (fst q) * nth c (snd q) 0) ^ 2) (combine d P))) (seq 0 n).
Fixpoint jtj_loop (n : nat) (sims : list msim) (mm : option vec) (W : vec) (i : nat) (q : list (mmap * msim * option vec * F)) : result vec :=
  match q with
  | [] => Ok (vzero n)
  | (p, s, x, u) :: q' =>
      do x <- need x; do mm' <- need mm;
      do r <- jtj_loop n sims mm W (S i) q';
      Ok (vadd (push_diag n (sJtJ s x u (slice sims i W)) (p_J p mm')) r)
  end.
(** 257-325; [W] is the diagonal of the given matrix (ones when None). *)
Definition meta_jtjdiag (n : nat) (sims : list msim) (maps : list mmap) (st : mst) (m : vec) (W : vec) (f : option (list F)) : mst * result vec :=
  let st' := set_model maps st m in
  match m_jtj st' with
  | Some d => (st', Ok d)
  | None =>
      match (do f <- get_f sims st' f; jtj_loop n sims (m_model st') W 0 (zip4 maps sims (m_inner st') f)) with
      | Ok d => (mkMst (m_model st') (m_inner st') (Some d), Ok d)
      | Err e => (st', Err e)
      end
  end.

(** ** SumMetaSimulation *)
(** 378-386, 388-398, 400-407, 409-423 *)
Fixpoint vsums (n : nat) (l : list vec) : vec := match l with [] => vzero n | a :: l' => vadd a (vsums n l') end.
Definition sum_dpred (nD : nat) (sims : list msim) (maps : list mmap) (st : mst) (m : option vec) (f : option (list F)) : mst * result vec :=
  let st' := match f, m with None, Some m => set_model maps st m | _, _ => st end in
  (st', do f <- get_f sims st' f;
        do l <- mapM (fun q : mmap * msim * option vec * F => let '(p, s, x, u) := q in do x <- need x; Ok (s_dpred s x u)) (zip4 maps sims (m_inner st') f);
        Ok (vsums nD l)).
Definition sum_Jvec (nD : nat) (sims : list msim) (maps : list mmap) (st : mst) (m v : vec) (f : option (list F)) : mst * result vec :=
  let st' := set_model maps st m in
  (st', do f <- get_f sims st' f;
        do l <- mapM (fun q : mmap * msim * option vec * F => let '(p, s, x, u) := q in do x <- need x; do mm <- need (m_model st'); Ok (sJvec s x u (mv (p_J p mm) v)))
                     (zip4 maps sims (m_inner st') f);
        Ok (vsums nD l)).
Definition sum_Jtvec (n : nat) (sims : list msim) (maps : list mmap) (st : mst) (m w : vec) (f : option (list F)) : mst * result vec :=
  let st' := set_model maps st m in
  (st', do f <- get_f sims st' f;
        do l <- mapM (fun q : mmap * msim * option vec * F => let '(p, s, x, u) := q in do x <- need x; do mm <- need (m_model st'); Ok (mtv n (p_J p mm) (sJtvec s x u w)))
                     (zip4 maps sims (m_inner st') f);
        Ok (vsums n l)).
Definition sum_jtjdiag (n : nat) (sims : list msim) (maps : list mmap) (st : mst) (m : vec) (W : vec) (f : option (list F)) : mst * result vec :=
  let st' := set_model maps st m in
  match m_jtj st' with
  | Some d => (st', Ok d)
  | None =>
      match (do f <- get_f sims st' f;
             do l <- mapM (fun q : mmap * msim * option vec * F => let '(p, s, x, u) := q in do x <- need x; do mm <- need (m_model st'); Ok (push_diag n (sJtJ s x u W) (p_J p mm)))
                          (zip4 maps sims (m_inner st') f);
             Ok (vsums n l)) with
      | Ok d => (mkMst (m_model st') (m_inner st') (Some d), Ok d)
      | Err e => (st', Err e)
      end
  end.

(** ** RepeatedSimulation (426-478): one simulation, whose model is set before each use
    (214-215, 226-227, 237-238, 251-252); so only the mappings and the model matter. *)
Record rst := mkRst { q_model : option vec; q_inner : option vec }.
Definition rset_model (st : rst) (m : vec) : rst :=
  match q_model st with
  | Some old => if veqb old m then st else mkRst (Some m) (q_inner st)
  | None => mkRst (Some m) (q_inner st)
  end.
Fixpoint rep_fields (s : msim) (maps : list mmap) (mm : vec) (inner : option vec) : option vec * list F :=
  match maps with
  | [] => (inner, [])
  | p :: maps' => let x := p_f p mm in let '(i', l) := rep_fields s maps' mm (Some x) in (i', s_fields s x :: l)
  end.
Fixpoint rep_loop {A} (g : mmap -> vec -> F -> A) (maps : list mmap) (mm : vec) (f : list F) (inner : option vec) : option vec * list A :=
  match maps, f with
  | p :: maps', u :: f' => let x := p_f p mm in let '(i', l) := rep_loop g maps' mm f' (Some x) in (i', g p x u :: l)
  | _, _ => (inner, [])
  end.
Definition rep_run {A} (s : msim) (maps : list mmap) (st : rst) (f : option (list F)) (g : mmap -> vec -> F -> A) : rst * result (list A) :=
  match q_model st with
  | None => (st, Err TypeError)
  | Some mm =>
      let '(i1, f) := match f with Some f => (q_inner st, f) | None => rep_fields s maps mm (q_inner st) end in
      let '(i2, l) := rep_loop g maps mm f i1 in (mkRst (q_model st) i2, Ok l)
  end.
Definition rep_dpred (s : msim) (maps : list mmap) (st : rst) (m : option vec) (f : option (list F)) : rst * result vec :=
  let st' := match f, m with None, Some m => rset_model st m | _, _ => st end in
  let '(st2, r) := rep_run s maps st' f (fun p x u => s_dpred s x u) in (st2, do l <- r; Ok (concat l)).
Definition rep_Jvec (s : msim) (maps : list mmap) (st : rst) (m v : vec) (f : option (list F)) : rst * result vec :=
  let '(st2, r) := rep_run s maps (rset_model st m) f (fun p x u => sJvec s x u (mv (p_J p m) v)) in (st2, do l <- r; Ok (concat l)).

(** Operations a user may perform. *)
Inductive mop :=
  | MSet (m : vec) | MFields (m : vec) | MDpred (m : option vec) (f : option (list F))
  | MJvec (m v : vec) (f : option (list F)) | MJtvec (m w : vec) (f : option (list F)) | MDiag (m W : vec) (f : option (list F))
  | MTouch (i : nat) (x : vec).
Definition meta_step (n : nat) (sims : list msim) (maps : list mmap) (st : mst) (o : mop) : mst :=
  match o with
  | MSet m => set_model maps st m
  | MFields m => fst (meta_fields sims maps st m)
  | MDpred m f => fst (meta_dpred sims maps st m f)
  | MJvec m v f => fst (meta_Jvec sims maps st m v f)
  | MJtvec m w f => fst (meta_Jtvec n sims maps st m w f)
  | MDiag m W f => fst (meta_jtjdiag n sims maps st m W f)
  | MTouch i x => touch st i x
  end.
Definition sum_step (n nD : nat) (sims : list msim) (maps : list mmap) (st : mst) (o : mop) : mst :=
  match o with
  | MSet m => set_model maps st m
  | MFields m => fst (meta_fields sims maps st m)
  | MDpred m f => fst (sum_dpred nD sims maps st m f)
  | MJvec m v f => fst (sum_Jvec nD sims maps st m v f)
  | MJtvec m w f => fst (sum_Jtvec n sims maps st m w f)
  | MDiag m W f => fst (sum_jtjdiag n sims maps st m W f)
  | MTouch i x => touch st i x
  end.
(** 96-98: no model, so no inner model is set. *)
Definition meta_start (sims : list msim) : mst := mkMst None (map (fun _ => None) sims) None.
End P.
