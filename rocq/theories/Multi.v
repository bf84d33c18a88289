(** Model of simpeg/meta/multiprocessing.py: worker processes with a task queue and a result
    queue each, and [MultiprocessingMetaSimulation]. *)
From Verif Require Import Py Vec Meta.
Local Open Scope R_scope.

(** 234-256: how many simulations each process gets (processes without any are not
    started). *)
Fixpoint incr_first (k : nat) (l : list nat) : list nat :=
  match l, k with
  | x :: l', S k' => S x :: incr_first k' l'
  | _, _ => l
  end.
Definition chunk_sizes (n_proc n_sim : nat) : list nat :=
  filter (fun c => negb (Nat.eqb c 0)) (incr_first (n_sim mod n_proc) (repeat (n_sim / n_proc)%nat (Nat.min n_proc n_sim))).
(** 241-256: consecutive slices of the list. *)
Fixpoint chunks {A} (sizes : list nat) (l : list A) : list (list A) :=
  match sizes with
  | [] => []
  | c :: sizes' => firstn c l :: chunks sizes' (skipn c l)
  end.

Section P.
(** The fields objects kept by a worker. *)
Context {F : Type}.
(** The simulation of a worker (a MetaSimulation of its chunk, 248-250).  Its only state is
    the model; setting it and every computation may raise. *)
Record csim := mkC {
  c_nD : nat; c_set : vec -> result unit; c_fields : vec -> result F; c_dpred : vec -> F -> result vec;
  c_jvec : vec -> F -> vec -> result vec; c_jtvec : vec -> F -> vec -> result vec }.
(** 47-48: what a worker keeps: the simulation's model, cached fields by key.  Keys are
    fresh (uuid4); here, increasing numbers. *)
Record wst := mkW { w_model : option vec; w_cache : list (nat * F); w_next : nat }.
Inductive reply := RKey (k : nat) | RVec (v : vec) | RErr (e : exn).
(** Whatever was received as a key is sent back as one. *)
Inductive task := TStore (m : vec) | TFields | TDpred (k : reply) | TJvec (v : vec) (k : reply) | TJtvec (v : vec) (k : reply) | TDel (k : reply).
Fixpoint lookup (k : nat) (l : list (nat * F)) : option F :=
  match l with [] => None | (j, f) :: l' => if Nat.eqb j k then Some f else lookup k l' end.
Definition cached (s : wst) (k : reply) : result F :=
  match k with
  | RKey k => match lookup k (w_cache s) with Some f => Ok f | None => Err KeyError end
  | _ => Err KeyError
  end.
Definition model_of (s : wst) : result vec := match w_model s with Some m => Ok m | None => Err AttributeError end.
Definition answer (r : result vec) : reply := match r with Ok v => RVec v | Err e => RErr e end.
(** 54-115: one turn of the worker's loop: the new state and what it puts on the result
    queue. *)
Definition work (c : csim) (s : wst) (t : task) : wst * list reply :=
  match t with
  | TStore m => match c_set c m with
                | Ok _ => (mkW (Some m) (w_cache s) (w_next s), [])
                | Err e => (s, [RErr e])
                end
  | TFields => match (do m <- model_of s; c_fields c m) with
               | Ok f => (mkW (w_model s) ((w_next s, f) :: w_cache s) (S (w_next s)), [RKey (w_next s)])
               | Err e => (mkW (w_model s) (w_cache s) (S (w_next s)), [RKey (w_next s); RErr e])
               end
  | TDpred k => (s, [answer (do f <- cached s k; do m <- model_of s; c_dpred c m f)])
  | TJvec v k => (s, [answer (do f <- cached s k; do m <- model_of s; c_jvec c m f v)])
  | TJtvec v k => (s, [answer (do f <- cached s k; do m <- model_of s; c_jtvec c m f v)])
  | TDel k => (match k with RKey k => mkW (w_model s) (filter (fun p => negb (Nat.eqb (fst p) k)) (w_cache s)) (w_next s) | _ => s end, [])
  end.

(** ** The head process: puts on task queues and (blocking) gets from result queues. *)
Inductive prog :=
  | Ret (o : list (result vec))
  | Put (w : nat) (t : task) (k : prog)
  | Get (w : nat) (k : reply -> prog).
Record worker := mkWk { wk_sim : csim; wk_st : wst; wk_tq : list task; wk_rq : list reply }.
(** One step of the whole system: the head acts, or any worker with a pending task does. *)
Inductive step : prog * list worker -> prog * list worker -> Prop :=
  | s_put w t k ws x : nth_error ws w = Some x ->
      step (Put w t k, ws) (k, set_at w (mkWk (wk_sim x) (wk_st x) (wk_tq x ++ [t]) (wk_rq x)) ws)
  | s_get w k ws x r rq : nth_error ws w = Some x -> wk_rq x = r :: rq ->
      step (Get w k, ws) (k r, set_at w (mkWk (wk_sim x) (wk_st x) (wk_tq x) rq) ws)
  | s_work p ws w x t tq : nth_error ws w = Some x -> wk_tq x = t :: tq ->
      step (p, ws) (p, set_at w (mkWk (wk_sim x) (fst (work (wk_sim x) (wk_st x) t)) tq (wk_rq x ++ snd (work (wk_sim x) (wk_st x) t))) ws).
Inductive steps : prog * list worker -> prog * list worker -> Prop :=
  | steps_refl c : steps c c
  | steps_cons a b c : step a b -> steps b c -> steps a c.

(** ** Calls of MultiprocessingMetaSimulation, with [f=None]. *)
Fixpoint puts (i : nat) (ts : list task) (k : prog) : prog :=
  match ts with [] => k | t :: ts' => Put i t (puts (S i) ts' k) end.
(** 130-136, 287-288 *)
Fixpoint get_keys (i n : nat) (acc : list reply) (k : list reply -> prog) : prog :=
  match n with O => k (rev acc) | S n' => Put i TFields (Get i (fun r => get_keys (S i) n' (r :: acc) k)) end.
(** 300-301, 311-312, 324-325 *)
Fixpoint gets (i n : nat) (acc : list reply) (k : list reply -> prog) : prog :=
  match n with O => k (rev acc) | S n' => Get i (fun r => gets (S i) n' (r :: acc) k) end.
Inductive call := CDpred (m : vec) | CJvec (m v : vec) | CJtvec (m w : vec).
Definition call_model (c : call) : vec := match c with CDpred m => m | CJvec m _ => m | CJtvec m _ => m end.
(** 296-297, 308-309, 319-321 *)
Definition chunk_slices (sizes : list nat) (v : vec) : list vec := chunks sizes v.
Fixpoint jt_tasks (vs : list vec) (keys : list reply) : list task :=
  match vs, keys with v :: vs', k :: keys' => TJtvec v k :: jt_tasks vs' keys' | _, _ => [] end.
(** MultiprocessingMetaSimulation, or MultiprocessingSumMetaSimulation (352-409), which
    sends the whole vector to every worker. *)
Inductive kind := Stack | Sum.
Definition call_tasks (kd : kind) (nds : list nat) (c : call) (keys : list reply) : list task :=
  match c with
  | CDpred _ => map TDpred keys
  | CJvec _ v => map (TJvec v) keys
  | CJtvec _ w => match kd with Stack => jt_tasks (chunk_slices nds w) keys | Sum => map (TJtvec w) keys end
  end.
(** [np.concatenate] and [np.sum(..., axis=0)] of the replies; a reply that is not an array
    (an exception is returned, not raised, 167-169) makes them raise. *)
Fixpoint arrays (l : list reply) : result (list vec) :=
  match l with
  | [] => Ok []
  | RVec v :: l' => do r <- arrays l'; Ok (v :: r)
  | _ :: _ => Err ValueError
  end.
(** Sum of arrays, which must have equal lengths (broadcasting of length 1 is left out). *)
Definition np_sum (vs : list vec) : result vec :=
  match vs with
  | [] => Err ValueError
  | v :: _ => if forallb (fun w => Nat.eqb (length w) (length v)) vs then Ok (vsums (length v) vs) else Err ValueError
  end.
Definition call_result (kd : kind) (n : nat) (c : call) (l : list reply) : result vec :=
  do vs <- arrays l;
  match kd, c with
  | Stack, CDpred _ | Stack, CJvec _ _ => Ok (concat vs)
  | Stack, CJtvec _ _ => Ok (vsums n vs)
  | Sum, _ => np_sum vs
  end.
(** 261-289 then 291-326: store the model if it changed, create fields, start the tasks, get
    the results; the futures are dropped at the end (26-28). *)
Definition call_prog (kd : kind) (n : nat) (nds : list nat) (c : call) (upd : bool) (k : result vec -> prog) : prog :=
  let nw := length nds in
  puts 0 (if upd then repeat (TStore (call_model c)) nw else []) (
  get_keys 0 nw [] (fun keys =>
  puts 0 (call_tasks kd nds c keys) (
  gets 0 nw [] (fun rs =>
  puts 0 (map TDel keys) (k (call_result kd n c rs)))))).
(** 269-289: [fields(m)], whose futures the user keeps. *)
Definition fields_prog (nw : nat) (m : vec) (k : list reply -> prog) : prog :=
  puts 0 (repeat (TStore m) nw) (get_keys 0 nw [] k).
(** 304-326: [Jvec(m, v, f=f)], [Jtvec(m, v, f=f)] at a new model with kept futures. *)
Definition call_f_prog (kd : kind) (n : nat) (nds : list nat) (c : call) (keys : list reply) (k : result vec -> prog) : prog :=
  let nw := length nds in
  puts 0 (repeat (TStore (call_model c)) nw) (
  puts 0 (call_tasks kd nds c keys) (
  gets 0 nw [] (fun rs => k (call_result kd n c rs)))).
(** A history of calls; [cur] is the head's model, compared by value (props.py). *)
Fixpoint history (kd : kind) (n : nat) (nds : list nat) (cs : list call) (cur : option vec) (acc : list (result vec)) : prog :=
  match cs with
  | [] => Ret (rev acc)
  | c :: cs' =>
      let upd := match cur with Some m => negb (veqb m (call_model c)) | None => true end in
      call_prog kd n nds c upd (fun r => history kd n nds cs' (Some (call_model c)) (r :: acc))
  end.
(** Workers as started (252-255): no model, empty queues. *)
Definition start_worker (c : csim) : worker := mkWk c (mkW None [] 0) [] [].
End P.
