(** Proofs about worker processes. *)
From Coq Require Import Lra.
From Verif Require Import Py Vec Meta SpecMeta MetaFacts Multi SpecMulti.
Local Open Scope R_scope.

(** ** Chunks *)
Lemma lsum_cons a l : list_sum (a :: l) = (a + list_sum l)%nat.
Proof. reflexivity. Qed.
Lemma concat_chunks {A} : forall sizes (l : list A), list_sum sizes = length l -> concat (chunks sizes l) = l.
Proof.
  induction sizes as [|c sizes IH]; intros l H; [cbn in *; destruct l; [reflexivity|discriminate]|]. rewrite lsum_cons in H. cbn [chunks concat].
  rewrite IH; [apply firstn_skipn|]. rewrite skipn_length. lia.
Qed.
Lemma chunks_lengths {A} : forall sizes (l : list A), list_sum sizes = length l -> map (@length A) (chunks sizes l) = sizes.
Proof.
  induction sizes as [|c sizes IH]; intros l H; [reflexivity|]. rewrite lsum_cons in H. cbn [chunks map]. rewrite firstn_length, IH by (rewrite skipn_length; lia). f_equal. lia.
Qed.
Lemma sum_filter l : list_sum (filter (fun c => negb (Nat.eqb c 0)) l) = list_sum l.
Proof. induction l as [|[|x] l IH]; [reflexivity|exact IH|]. cbn [filter negb Nat.eqb]. rewrite !lsum_cons, IH. reflexivity. Qed.
Lemma sum_incr : forall k l, (k <= length l)%nat -> list_sum (incr_first k l) = (k + list_sum l)%nat.
Proof.
  induction k as [|k IH]; intros l H; [destruct l; reflexivity|]. destruct l as [|x l]; [cbn in H; lia|]. cbn [incr_first]. rewrite !lsum_cons, IH by (cbn in H; lia). lia.
Qed.
Lemma sum_repeat x n : list_sum (repeat x n) = (n * x)%nat.
Proof. induction n; cbn [repeat]; [reflexivity|]. rewrite lsum_cons. lia. Qed.
Lemma sizes_sum p n : (0 < p)%nat -> list_sum (chunk_sizes p n) = n.
Proof.
  intros Hp. unfold chunk_sizes. rewrite sum_filter. pose proof (Nat.div_mod n p ltac:(lia)) as E. pose proof (Nat.mod_upper_bound n p ltac:(lia)) as B.
  destruct (le_lt_dec p n) as [G|G].
  - rewrite sum_incr, sum_repeat, Nat.min_l by (rewrite ?repeat_length, ?Nat.min_l; lia). lia.
  - rewrite Nat.div_small, Nat.mod_small, Nat.min_r by lia. rewrite sum_incr, sum_repeat by (rewrite repeat_length; lia). lia.
Qed.
Lemma incr_in : forall k l x c, (forall y, In y l -> y = x) -> In c (incr_first k l) -> c = x \/ c = S x.
Proof.
  induction k as [|k IH]; intros l x c H I; [left; apply H; destruct l; exact I|]. destruct l as [|y l]; [destruct I|]. cbn in I. destruct I as [<-|I].
  - right. f_equal. apply H. left. reflexivity.
  - apply (IH l x c); [intros z Hz; apply H; right; exact Hz|exact I].
Qed.
Lemma sizes_even p n c : In c (chunk_sizes p n) -> (0 < c)%nat /\ (c = n / p \/ c = S (n / p))%nat.
Proof.
  unfold chunk_sizes. intros H. apply filter_In in H as [H N]. split; [destruct c; [discriminate|lia]|].
  eapply incr_in; [|exact H]. intros y Hy. apply repeat_spec in Hy. exact Hy.
Qed.
Lemma incr_length k l : length (incr_first k l) = length l.
Proof. revert l; induction k as [|k IH]; intros [|x l]; cbn; auto. Qed.
Lemma filter_len {A} (f : A -> bool) l : (length (filter f l) <= length l)%nat.
Proof. induction l as [|a l IH]; cbn; [lia|]. destruct (f a); cbn; lia. Qed.
Lemma sizes_count p n : (length (chunk_sizes p n) <= Nat.min p n)%nat.
Proof.
  unfold chunk_sizes. etransitivity; [apply filter_len|]. rewrite incr_length, repeat_length. lia.
Qed.

(** ** Schedules *)
Lemma set_at_same {A} : forall (l : list A) w x, nth_error l w = Some x -> set_at w x l = l.
Proof. induction l as [|a l IH]; intros [|w] x H; try discriminate; cbn in *; [congruence|]. rewrite IH by exact H. reflexivity. Qed.
Lemma set_at_map {A B} (f : A -> B) : forall l w x, map f (set_at w x l) = set_at w (f x) (map f l).
Proof. induction l as [|a l IH]; intros [|w] x; cbn; try reflexivity. rewrite IH. reflexivity. Qed.
Lemma set_at_app {A} (d : list A) x t y : set_at (length d) y (d ++ x :: t) = d ++ y :: t.
Proof. induction d as [|a d IH]; cbn; [reflexivity|]. rewrite IH. reflexivity. Qed.
Lemma nth_error_mid {A} (d : list A) x t : nth_error (d ++ x :: t) (length d) = Some x.
Proof. induction d; cbn; auto. Qed.

Section P.
Context {F : Type}.
Implicit Types (ws : list (@worker F)) (c : @csim F).
(** A worker that has done everything it was asked. *)
Definition idle : Type := @csim F * @wst F * list reply.
Definition push (i : idle) (t : task) : idle := let '(c, s, rq) := i in (c, fst (work c s t), rq ++ snd (work c s t)).
Definition flush (w : @worker F) : idle := fold_left push (wk_tq w) (wk_sim w, wk_st w, wk_rq w).
Fixpoint eval (p : prog) (l : list idle) : option (list (result vec)) :=
  match p with
  | Ret o => Some o
  | Put w t k => match nth_error l w with Some i => eval k (set_at w (push i t) l) | None => None end
  | Get w k => match nth_error l w with Some (c, s, r :: rq) => eval (k r) (set_at w (c, s, rq) l) | _ => None end
  end.
Lemma push_get c s r rq t : push (c, s, r :: rq) t = (let '(c', s', q) := push (c, s, rq) t in (c', s', r :: q)).
Proof. reflexivity. Qed.
Lemma fold_get : forall ts c s r rq, fold_left push ts (c, s, r :: rq) = (let '(c', s', q) := fold_left push ts (c, s, rq) in (c', s', r :: q)).
Proof. induction ts as [|t ts IH]; intros c s r rq; [reflexivity|]. cbn [fold_left push]. rewrite <- IH. reflexivity. Qed.
Lemma step_eval a b : step a b -> eval (fst b) (map flush (snd b)) = eval (fst a) (map flush (snd a)).
Proof.
  intros H. destruct H as [w t k ws x E|w k ws x r rq E Er|p ws w x t tq E Et]; cbn [fst snd eval].
  - rewrite (map_nth_error flush w ws E), set_at_map. f_equal. f_equal. unfold flush. cbn [wk_tq wk_sim wk_st wk_rq]. rewrite fold_left_app. reflexivity.
  - rewrite (map_nth_error flush w ws E), set_at_map. unfold flush at 3. rewrite Er, fold_get. unfold flush at 1. cbn [wk_tq wk_sim wk_st wk_rq].
    destruct (fold_left push (wk_tq x) (wk_sim x, wk_st x, rq)) as [[c' s'] q]. reflexivity.
  - rewrite set_at_map. f_equal. apply set_at_same. rewrite (map_nth_error flush w ws E). f_equal. unfold flush. rewrite Et. reflexivity.
Qed.
Lemma steps_eval a b : steps a b -> eval (fst b) (map flush (snd b)) = eval (fst a) (map flush (snd a)).
Proof. induction 1 as [|a b c H _ IH]; [reflexivity|]. rewrite IH. apply step_eval, H. Qed.
Lemma stuck_done a o : eval (fst a) (map flush (snd a)) = Some o -> stuck a -> exists ws, a = (Ret o, ws).
Proof.
  destruct a as [p ws]. cbn [fst snd]. intros E N. destruct p as [o'|w t k|w k]; cbn [eval] in E.
  - injection E as ->. exists ws. reflexivity.
  - exfalso. rewrite nth_error_map in E. destruct (nth_error ws w) as [x|] eqn:X; [|discriminate]. eapply N. econstructor. exact X.
  - exfalso. rewrite nth_error_map in E. destruct (nth_error ws w) as [x|] eqn:X; [|discriminate]. cbn [option_map] in E.
    destruct (wk_tq x) as [|t tq] eqn:T.
    + destruct (wk_rq x) as [|r rq] eqn:Q; [unfold flush in E; rewrite T, Q in E; discriminate|]. eapply N. eapply s_get; eassumption.
    + eapply N. eapply s_work; eassumption.
Qed.
(** Termination: every step decreases pending work. *)
Fixpoint psize_bound (p : prog) (l : list idle) : nat :=
  match p with
  | Ret _ => 0
  | Put w t k => match nth_error l w with Some i => 2 + psize_bound k (set_at w (push i t) l) | None => 0 end
  | Get w k => match nth_error l w with Some (c, s, r :: rq) => 1 + psize_bound (k r) (set_at w (c, s, rq) l) | _ => 0 end
  end.
Definition pending ws : nat := list_sum (map (fun w => length (wk_tq w)) ws).
Lemma pending_set : forall ws w x y, nth_error ws w = Some x -> (pending (set_at w y ws) + length (wk_tq x) = pending ws + length (wk_tq y))%nat.
Proof.
  induction ws as [|a ws IH]; intros [|w] x y H; try discriminate; cbn [set_at nth_error] in *.
  - injection H as ->. unfold pending. cbn [map]. rewrite !lsum_cons. lia.
  - specialize (IH w x y H). unfold pending in *. cbn [map]. rewrite !lsum_cons. lia.
Qed.
Definition measure (a : @prog * list (@worker F)) : nat := psize_bound (fst a) (map flush (snd a)) + pending (snd a).
Lemma step_measure a b : step a b -> (measure b < measure a)%nat.
Proof.
  unfold measure. intros H. destruct H as [w t k ws x E|w k ws x r rq E Er|p ws w x t tq E Et]; cbn [fst snd psize_bound].
  - rewrite (map_nth_error flush w ws E), set_at_map. pose proof (pending_set ws w x (mkWk (wk_sim x) (wk_st x) (wk_tq x ++ [t]) (wk_rq x)) E) as P.
    cbn [wk_tq] in P. rewrite app_length in P. cbn [length] in P. assert (Ef : flush (mkWk (wk_sim x) (wk_st x) (wk_tq x ++ [t]) (wk_rq x)) = push (flush x) t).
    { unfold flush. cbn [wk_tq wk_sim wk_st wk_rq]. rewrite fold_left_app. reflexivity. } rewrite Ef. lia.
  - rewrite (map_nth_error flush w ws E), set_at_map. pose proof (pending_set ws w x (mkWk (wk_sim x) (wk_st x) (wk_tq x) rq) E) as P. cbn [wk_tq] in P.
    unfold flush at 3. rewrite Er, fold_get. unfold flush at 1. cbn [wk_tq wk_sim wk_st wk_rq]. destruct (fold_left push (wk_tq x) (wk_sim x, wk_st x, rq)) as [[c' s'] q]. rewrite (proj1 (Nat.add_cancel_r _ _ _) P). apply Nat.lt_succ_diag_r.
  - match goal with |- context [set_at w ?y ws] => pose proof (pending_set ws w x y E) as P end. cbn [wk_tq] in P. rewrite Et in P. cbn [length] in P.
    rewrite set_at_map. match goal with |- context [set_at w ?y (map flush ws)] => rewrite (set_at_same (map flush ws) w y) end; [lia|].
    rewrite (map_nth_error flush w ws E). f_equal. unfold flush. rewrite Et. reflexivity.
Qed.
Lemma step_wf : well_founded (fun b a : @prog * list (@worker F) => step a b).
Proof. apply (Wf_nat.well_founded_lt_compat _ measure). intros b a H. apply step_measure, H. Qed.
(** ** Phases of a call on well-behaved workers *)
Lemma eval_puts k : forall ts t0 d l, length ts = length l -> t0 = length d -> eval (puts t0 ts k) (d ++ l) = eval k (d ++ map (fun q => push (fst q) (snd q)) (combine l ts)).
Proof.
  induction ts as [|t ts IH]; intros t0 d l L ->; destruct l as [|i l]; try discriminate; [reflexivity|].
  cbn [puts eval]. rewrite nth_error_mid, set_at_app. cbn [combine map fst snd].
  replace (d ++ push i t :: l) with ((d ++ [push i t]) ++ l) by (rewrite <- app_assoc; reflexivity).
  rewrite IH; [rewrite <- app_assoc; reflexivity|cbn in L; congruence|rewrite app_length; cbn; lia].
Qed.
(** Idle workers with one reply each. *)
Lemma eval_gets k : forall (l : list (@csim F * @wst F * reply)) d acc i0 n, i0 = length d -> n = length l ->
  eval (gets i0 n acc k) (d ++ map (fun q => (fst (fst q), snd (fst q), [snd q])) l) =
  eval (k (rev acc ++ map snd l)) (d ++ map (fun q => (fst (fst q), snd (fst q), [])) l).
Proof.
  induction l as [|[[c s] r] l IH]; intros d acc i0 n -> ->; cbn [length gets eval map fst snd].
  - rewrite !app_nil_r. reflexivity.
  - rewrite nth_error_mid, set_at_app.
    replace (d ++ (c, s, []) :: map (fun q => (fst (fst q), snd (fst q), [snd q])) l) with ((d ++ [(c, s, [])]) ++ map (fun q : @csim F * @wst F * reply => (fst (fst q), snd (fst q), [snd q])) l) by (rewrite <- app_assoc; reflexivity).
    rewrite IH; [|rewrite app_length; cbn; lia|reflexivity]. cbn [rev]. rewrite <- !app_assoc. reflexivity.
Qed.
(** A chunk: its simulation and what it computes. *)
Record chunk := mkCk { k_c : @csim F; k_fl : vec -> F; k_dp : vec -> vec; k_jv : vec -> vec -> vec; k_jt : vec -> vec -> vec }.
Definition k_good (k : chunk) : Prop := good (k_c k) (k_fl k) (k_dp k) (k_jv k) (k_jt k).
Definition fresh (s : @wst F) : Prop := forall j f, In (j, f) (w_cache s) -> (j < w_next s)%nat.
Lemma eval_keys m kk : forall (l : list (chunk * @wst F)) d acc i0 n, i0 = length d -> n = length l ->
  (forall q, In q l -> k_good (fst q) /\ w_model (snd q) = Some m) ->
  eval (get_keys i0 n acc kk) (d ++ map (fun q => (k_c (fst q), snd q, [])) l) =
  eval (kk (rev acc ++ map (fun q => RKey (w_next (snd q))) l))
       (d ++ map (fun q => (k_c (fst q), mkW (Some m) ((w_next (snd q), k_fl (fst q) m) :: w_cache (snd q)) (S (w_next (snd q))), [])) l).
Proof.
  induction l as [|[c s] l IH]; intros d acc i0 n -> -> H; cbn [length get_keys eval map fst snd].
  - rewrite !app_nil_r. reflexivity.
  - destruct (H (c, s) (or_introl eq_refl)) as [G E]. cbn [fst snd] in G, E. rewrite nth_error_mid, set_at_app. cbn [push app].
    assert (W : work (k_c c) s TFields = (mkW (Some m) ((w_next s, k_fl c m) :: w_cache s) (S (w_next s)), [RKey (w_next s)])).
    { unfold work, model_of. rewrite E. cbn [bind]. rewrite (g_fields _ _ _ _ _ G). rewrite <- E. reflexivity. }
    rewrite W. cbn [fst snd]. rewrite nth_error_mid, set_at_app.
    match goal with |- eval _ (d ++ ?x :: ?r) = _ => replace (d ++ x :: r) with ((d ++ [x]) ++ r) by (rewrite <- app_assoc; reflexivity) end.
    rewrite IH; [|rewrite app_length; cbn; lia|reflexivity|intros q Hq; apply H; right; exact Hq]. cbn [rev]. rewrite <- !app_assoc. reflexivity.
Qed.
(** What each worker answers. *)
Definition ck_answer (k : chunk) (cl : call) (w : vec) : vec :=
  match cl with CDpred m => k_dp k m | CJvec m v => k_jv k m v | CJtvec m _ => k_jt k m w end.
Definition ck_answers (kd : kind) (ks : list chunk) (nds : list nat) (cl : call) : list vec :=
  match cl with
  | CJtvec m w => match kd with Stack => map (fun q => ck_answer (fst q) cl (snd q)) (combine ks (chunk_slices nds w)) | Sum => map (fun k => ck_answer k cl w) ks end
  | _ => map (fun k => ck_answer k cl []) ks
  end.
Definition rest (q : chunk * @wst F) : idle := (k_c (fst q), snd q, []).
Definition with_f (m : vec) (q : chunk * @wst F) : @wst F := mkW (Some m) ((w_next (snd q), k_fl (fst q) m) :: w_cache (snd q)) (S (w_next (snd q))).
Lemma chunks_count {A} : forall sizes (l : list A), length (chunks sizes l) = length sizes.
Proof. induction sizes as [|c sizes IH]; intros l; cbn; [reflexivity|]. rewrite IH. reflexivity. Qed.
Lemma jt_tasks_length : forall vs keys, length vs = length keys -> length (jt_tasks vs keys) = length keys.
Proof. induction vs as [|v vs IH]; intros [|k keys] L; try discriminate; cbn; [reflexivity|]. rewrite IH by (cbn in L; congruence). reflexivity. Qed.
Lemma tasks_length kd nds cl keys : length nds = length keys -> length (call_tasks kd nds cl keys) = length keys.
Proof. intros L. destruct cl, kd; cbn; rewrite ?map_length; try reflexivity. apply jt_tasks_length. unfold chunk_slices. rewrite chunks_count. exact L. Qed.
Lemma cached_ok m q : cached (with_f m q) (RKey (w_next (snd q))) = Ok (k_fl (fst q) m).
Proof. cbn. rewrite Nat.eqb_refl. reflexivity. Qed.
Definition answered (kd : kind) (m : vec) (nds : list nat) (cl : call) (l : list (chunk * @wst F)) : list (@csim F * @wst F * reply) :=
  combine (map (fun q => (k_c (fst q), with_f m q)) l) (map RVec (ck_answers kd (map fst l) nds cl)).
Lemma phase_tasks kd nds cl : forall l, length nds = length l -> (forall q, In q l -> k_good (fst q)) ->
  map (fun q => push (fst q) (snd q)) (combine (map (fun q => (k_c (fst q), with_f (call_model cl) q, [])) l) (call_tasks kd nds cl (map (fun q => RKey (w_next (snd q))) l))) =
  map (fun q => (fst (fst q), snd (fst q), [snd q])) (answered kd (call_model cl) nds cl l).
Proof.
  intros l L H. unfold answered. destruct cl as [m|m v|m w]; cbn [call_tasks call_model ck_answers].
  - clear L. induction l as [|q l IH]; [reflexivity|]. cbn [map combine fst snd]. rewrite IH by (intros x Hx; apply H; right; exact Hx). f_equal.
    cbn [push work fst snd app]. rewrite cached_ok. cbn [bind with_f model_of w_model]. rewrite (g_dpred _ _ _ _ _ (H q (or_introl eq_refl))). reflexivity.
  - clear L. induction l as [|q l IH]; [reflexivity|]. cbn [map combine fst snd]. rewrite IH by (intros x Hx; apply H; right; exact Hx). f_equal.
    cbn [push work fst snd app]. rewrite cached_ok. cbn [bind with_f model_of w_model]. rewrite (g_jvec _ _ _ _ _ (H q (or_introl eq_refl))). reflexivity.
  - destruct kd; [|clear L; induction l as [|q l IH]; [reflexivity|]; cbn [map combine fst snd]; rewrite IH by (intros x Hx; apply H; right; exact Hx); f_equal;
      cbn [push work fst snd app]; rewrite cached_ok; cbn [bind with_f model_of w_model]; rewrite (g_jtvec _ _ _ _ _ (H q (or_introl eq_refl))); reflexivity].
    assert (Lv : length (chunk_slices nds w) = length l) by (unfold chunk_slices; rewrite chunks_count; exact L). revert Lv. generalize (chunk_slices nds w). clear L.
    induction l as [|q l IH]; intros [|v vs] Lv; try discriminate; [reflexivity|]. cbn [map jt_tasks combine fst snd]. rewrite IH by (try (intros x Hx; apply H; right; exact Hx); cbn in Lv; congruence).
    f_equal. cbn [push work fst snd app ck_answer]. rewrite cached_ok. cbn [bind with_f model_of w_model]. rewrite (g_jtvec _ _ _ _ _ (H q (or_introl eq_refl))). reflexivity.
Qed.
Lemma answers_length kd nds cl (l : list (chunk * @wst F)) : length nds = length l -> length (ck_answers kd (map fst l) nds cl) = length l.
Proof.
  intros L. destruct cl, kd; cbn; rewrite ?map_length, ?combine_length, ?map_length; try reflexivity. unfold chunk_slices. rewrite chunks_count. lia.
Qed.
Lemma map_snd_combine {A B} : forall (a : list A) (b : list B), length a = length b -> map snd (combine a b) = b.
Proof. induction a as [|x a IH]; intros [|y b] L; try discriminate; cbn; [reflexivity|]. rewrite IH by (cbn in L; congruence). reflexivity. Qed.
Lemma map_fst_combine {A B} : forall (a : list A) (b : list B), length a = length b -> map fst (combine a b) = a.
Proof. induction a as [|x a IH]; intros [|y b] L; try discriminate; cbn; [reflexivity|]. rewrite IH by (cbn in L; congruence). reflexivity. Qed.
Definition cleared (m : vec) (q : chunk * @wst F) : chunk * @wst F := (fst q, fst (work (k_c (fst q)) (with_f m q) (TDel (RKey (w_next (snd q)))))).
Lemma arrays_ok : forall vs : list vec, arrays (map RVec vs) = Ok vs.
Proof. induction vs as [|v vs IH]; cbn; [reflexivity|]. rewrite IH. reflexivity. Qed.
Definition expected (kd : kind) (n : nat) (ks : list chunk) (nds : list nat) (cl : call) : result vec :=
  match kd, cl with Sum, _ => np_sum (ck_answers kd ks nds cl) | Stack, CJtvec _ _ => Ok (vsums n (ck_answers kd ks nds cl)) | _, _ => Ok (concat (ck_answers kd ks nds cl)) end.
Lemma call_eval kd n nds cl (l : list (chunk * @wst F)) k : length nds = length l -> (forall q, In q l -> k_good (fst q) /\ w_model (snd q) = Some (call_model cl)) ->
  eval (call_prog kd n nds cl false k) (map rest l) = eval (k (expected kd n (map fst l) nds cl)) (map rest (map (cleared (call_model cl)) l)).
Proof.
  intros L H. unfold call_prog. cbn [puts].
  pose proof (eval_keys (call_model cl) (fun keys => puts 0 (call_tasks kd nds cl keys) (gets 0 (length nds) [] (fun rs => puts 0 (map TDel keys) (k (call_result kd n cl rs))))) l [] [] 0%nat (length nds) eq_refl L H) as E1.
  cbn [app rev] in E1. unfold rest at 1. etransitivity; [exact E1|]. clear E1.
  rewrite (eval_puts _ (call_tasks kd nds cl _) 0 [] (map (fun q => (k_c (fst q), with_f (call_model cl) q, [])) l)); [|rewrite tasks_length; rewrite !map_length; congruence|reflexivity].
  cbn [app]. rewrite phase_tasks; [|exact L|intros q Hq; apply H; exact Hq].
  assert (La : length (answered kd (call_model cl) nds cl l) = length l) by (unfold answered; rewrite combine_length, !map_length, answers_length by exact L; lia).
  rewrite (eval_gets _ (answered kd (call_model cl) nds cl l) [] [] 0%nat (length nds) eq_refl) by congruence. cbn [app rev].
  match goal with |- eval (puts 0 ?ts _) ?x = _ => rewrite (eval_puts _ ts 0 [] x) by (rewrite ?map_length; first [reflexivity|congruence]) end. cbn [app].
  assert (Es : map snd (answered kd (call_model cl) nds cl l) = map RVec (ck_answers kd (map fst l) nds cl)) by (apply map_snd_combine; rewrite !map_length, answers_length by exact L; reflexivity).
  rewrite Es. f_equal.
  - f_equal. unfold call_result. rewrite arrays_ok. cbn [bind]. destruct cl; reflexivity.
  - replace (map (fun q : @csim F * @wst F * reply => (fst (fst q), snd (fst q), @nil reply)) (answered kd (call_model cl) nds cl l)) with (map (fun q => (fst q, snd q, @nil reply)) (map fst (answered kd (call_model cl) nds cl l))) by (rewrite map_map; reflexivity).
    unfold answered. rewrite map_fst_combine by (rewrite !map_length, answers_length by exact L; reflexivity).
    clear. induction l as [|q l IH]; [reflexivity|]. cbn [map combine]. f_equal. exact IH.
Qed.
Lemma call_upd_ok kd n nds cl (l : list (chunk * @wst F)) k : length nds = length l -> (forall q, In q l -> k_good (fst q)) ->
  eval (call_prog kd n nds cl true k) (map rest l) = eval (call_prog kd n nds cl false k) (map rest (map (fun q => (fst q, mkW (Some (call_model cl)) (w_cache (snd q)) (w_next (snd q)))) l)).
Proof.
  intros L H. unfold call_prog at 1. cbn zeta. rewrite (eval_puts _ (repeat (TStore (call_model cl)) (length nds)) 0 [] (map rest l)) by (rewrite ?repeat_length, ?map_length; first [reflexivity|congruence]).
  cbn [app]. unfold call_prog. cbn [puts]. cbn zeta. f_equal. rewrite L. clear nds L k.
  induction l as [|q l IH]; [reflexivity|]. cbn [length repeat map combine fst snd]. rewrite IH by (intros x Hx; apply H; right; exact Hx). f_equal.
  unfold rest. cbn [push work fst snd app]. rewrite (g_set _ _ _ _ _ (H q (or_introl eq_refl))). reflexivity.
Qed.
Lemma history_ok kd n nds ks : length nds = length ks -> (forall k, In k ks -> k_good k) -> forall cs cur acc l, map fst l = ks ->
  (forall m q, cur = Some m -> In q l -> w_model (snd q) = Some m) ->
  eval (history kd n nds cs cur acc) (map rest l) = Some (rev acc ++ map (fun cl => expected kd n ks nds cl) cs).
Proof.
  intros L G. induction cs as [|cl cs IH]; intros cur acc l E H; cbn [history]; [cbn; rewrite app_nil_r; reflexivity|].
  assert (Ll : length nds = length l) by (rewrite L, <- E, map_length; reflexivity).
  assert (Gl : forall q, In q l -> k_good (fst q)) by (intros q Hq; apply G; rewrite <- E; apply in_map, Hq).
  assert (K : forall l', map fst l' = ks -> (forall q, In q l' -> w_model (snd q) = Some (call_model cl)) -> forall k,
     (forall l'', map fst l'' = ks -> (forall q, In q l'' -> w_model (snd q) = Some (call_model cl)) -> eval (k (expected kd n ks nds cl)) (map rest l'') = Some (rev acc ++ map (fun cl => expected kd n ks nds cl) (cl :: cs))) ->
     eval (call_prog kd n nds cl false k) (map rest l') = Some (rev acc ++ map (fun cl => expected kd n ks nds cl) (cl :: cs))).
  { intros l' E' M k Hk. rewrite call_eval.
    - rewrite E'. apply Hk.
      + rewrite map_map. cbn [cleared fst]. exact E'.
      + intros q Hq. apply in_map_iff in Hq as (q' & <- & Hq'). reflexivity.
    - rewrite L, <- E', map_length. reflexivity.
    - intros q Hq. split; [apply G; rewrite <- E'; apply in_map, Hq|apply M, Hq]. }
  assert (KI : forall l'', map fst l'' = ks -> (forall q, In q l'' -> w_model (snd q) = Some (call_model cl)) ->
     eval (history kd n nds cs (Some (call_model cl)) (expected kd n ks nds cl :: acc)) (map rest l'') = Some (rev acc ++ map (fun cl => expected kd n ks nds cl) (cl :: cs))).
  { intros l'' E'' M. rewrite IH; [cbn [rev map]; rewrite <- app_assoc; reflexivity|exact E''|]. intros m q [= <-] Hq. apply M, Hq. }
  assert (KU : eval (call_prog kd n nds cl true (fun r => history kd n nds cs (Some (call_model cl)) (r :: acc))) (map rest l) = Some (rev acc ++ map (fun cl => expected kd n ks nds cl) (cl :: cs))).
  { rewrite call_upd_ok by assumption. apply K; [rewrite map_map; exact E| |exact KI]. intros q Hq. apply in_map_iff in Hq as (q' & <- & Hq'). reflexivity. }
  destruct cur as [m|]; cbn zeta; [|exact KU]. destruct (veqb m (call_model cl)) eqn:V; cbn [negb]; [|exact KU].
  apply veqb_eq in V. subst m. apply K; [exact E| |exact KI]. intros q Hq. apply (H _ q eq_refl Hq).
Qed.
(** Any complete execution, however scheduled. *)
Lemma schedule_ok kd n nds ks cs o ws : length nds = length ks -> (forall k, In k ks -> k_good k) ->
  steps (history kd n nds cs None [], map (fun k => start_worker (k_c k)) ks) (Ret o, ws) -> o = map (fun cl => expected kd n ks nds cl) cs.
Proof.
  intros L G S. apply steps_eval in S. cbn [fst snd eval] in S. rewrite map_map in S.
  assert (E : map (fun k => flush (start_worker (k_c k))) ks = map rest (map (fun k => (k, mkW None [] 0)) ks)) by (rewrite map_map; reflexivity).
  rewrite E in S. rewrite (history_ok kd n nds ks) in S; [|assumption|assumption|rewrite map_map; apply map_id|discriminate]. cbn in S. congruence.
Qed.
Lemma schedule_runs kd n nds ks cs a : length nds = length ks -> (forall k, In k ks -> k_good k) ->
  steps (history kd n nds cs None [], map (fun k => start_worker (k_c k)) ks) a -> stuck a -> exists o ws, a = (Ret o, ws).
Proof.
  intros L G S N. apply steps_eval in S. cbn [fst snd] in S. rewrite map_map in S.
  assert (E : map (fun k => flush (start_worker (k_c k))) ks = map rest (map (fun k => (k, mkW None [] 0)) ks)) by (rewrite map_map; reflexivity).
  rewrite E in S. rewrite (history_ok kd n nds ks) in S; [|assumption|assumption|rewrite map_map; apply map_id|discriminate].
  eexists. eapply stuck_done; eassumption.
Qed.
End P.

(** ** The chunks are meta simulations *)
Section Q.
Context {F : Type}.
Implicit Types (ck l a b : list (@msim F * mmap)) (sims : list (@msim F)).
Definition mk_chunk (n : nat) ck : @chunk (list F) :=
  mkCk (chunk_sim n ck) (chunk_fields ck) (fun m => chunk_dpred ck m (chunk_fields ck m)) (fun m => chunk_Jvec ck m (chunk_fields ck m)) (fun m => chunk_Jtvec n ck m (chunk_fields ck m)).
Lemma mk_good n ck : k_good (mk_chunk n ck).
Proof. constructor; reflexivity. Qed.
Lemma dpred_app a b m : chunk_dpred (a ++ b) m (chunk_fields (a ++ b) m) = chunk_dpred a m (chunk_fields a m) ++ chunk_dpred b m (chunk_fields b m).
Proof. unfold chunk_dpred, chunk_fields. induction a as [|q a IH]; [reflexivity|]. cbn [app map combine concat fst snd]. rewrite IH, app_assoc. reflexivity. Qed.
Lemma Jvec_app a b m v : chunk_Jvec (a ++ b) m (chunk_fields (a ++ b) m) v = chunk_Jvec a m (chunk_fields a m) v ++ chunk_Jvec b m (chunk_fields b m) v.
Proof. unfold chunk_Jvec, chunk_fields. induction a as [|q a IH]; [reflexivity|]. cbn [app map combine concat fst snd]. rewrite IH, app_assoc. reflexivity. Qed.
Definition ck_shaped n m ck : Prop := forall q, In q ck -> shaped n m (fst q) (snd q).
Lemma Jtvec_len n m : forall ck f w, ck_shaped n m ck -> length (chunk_Jtvec n ck m f w) = n.
Proof.
  induction ck as [|[s p] ck IH]; intros f w H; [apply vzero_length|]. destruct f as [|u f]; [apply vzero_length|]. cbn [chunk_Jtvec].
  rewrite vadd_length; [apply (mtv_length (s_nP s))|rewrite IH, (mtv_length (s_nP s)); [reflexivity| |intros q Hq; apply H; right; exact Hq]]; apply (H (s, p)); left; reflexivity.
Qed.
Lemma Jtvec_app n m b : ck_shaped n m b -> forall a w, ck_shaped n m a ->
  chunk_Jtvec n (a ++ b) m (chunk_fields (a ++ b) m) w = vadd (chunk_Jtvec n a m (chunk_fields a m) (firstn (chunk_nD a) w)) (chunk_Jtvec n b m (chunk_fields b m) (skipn (chunk_nD a) w)).
Proof.
  intros Hb. induction a as [|[s p] a IH]; intros w Ha.
  - cbn [app chunk_Jtvec chunk_fields map chunk_nD list_sum fold_right skipn]. rewrite vadd_zero_l; [reflexivity|]. apply Jtvec_len, Hb.
  - cbn [app chunk_fields map fst snd chunk_Jtvec]. fold (chunk_fields (a ++ b) m) (chunk_fields a m). rewrite IH by (intros q Hq; apply Ha; right; exact Hq).
    assert (Ec : chunk_nD ((s, p) :: a) = (s_nD s + chunk_nD a)%nat) by reflexivity. rewrite Ec, firstn_firstn, Nat.min_l, skipn_skipn by lia.
    rewrite vadd_assoc, skipn_firstn_comm. replace (s_nD s + chunk_nD a - s_nD s)%nat with (chunk_nD a) by lia. rewrite (Nat.add_comm (chunk_nD a)). reflexivity.
Qed.
Lemma chunk_app a b : chunk_nD (a ++ b) = (chunk_nD a + chunk_nD b)%nat.
Proof. unfold chunk_nD. rewrite map_app, list_sum_app. reflexivity. Qed.
Lemma expected_ok n cks cl : (forall q, In q (concat cks) -> shaped n (call_model cl) (fst q) (snd q)) ->
  expected Stack n (map (mk_chunk n) cks) (map chunk_nD cks) cl =
  Ok match cl with CDpred m => chunk_dpred (concat cks) m (chunk_fields (concat cks) m) | CJvec m v => chunk_Jvec (concat cks) m (chunk_fields (concat cks) m) v
  | CJtvec m w => chunk_Jtvec n (concat cks) m (chunk_fields (concat cks) m) w end.
Proof.
  intros H. destruct cl as [m|m v|m w]; unfold expected, ck_answers, ck_answer; f_equal.
  - clear H. rewrite map_map. cbn [k_dp mk_chunk]. induction cks as [|a cks IH]; [reflexivity|]. cbn [map concat]. rewrite IH, dpred_app. reflexivity.
  - clear H. rewrite map_map. cbn [k_jv mk_chunk]. induction cks as [|a cks IH]; [reflexivity|]. cbn [map concat]. rewrite IH, Jvec_app. reflexivity.
  - cbn [call_model] in H. revert w. induction cks as [|a cks IH]; intros w; [reflexivity|]. cbn [map concat chunk_slices chunks combine vsums fst snd]. unfold chunk_slices in IH.
    rewrite IH by (intros q Hq; apply H; cbn [concat]; rewrite in_app_iff; auto). rewrite Jtvec_app; [reflexivity| |]; intros q Hq; apply H; cbn [concat]; rewrite in_app_iff; auto.
Qed.
(** ** ... and so is the serial simulation *)
Lemma each_combine {A} (g : @msim F -> mmap -> A) : forall sims maps, each g sims maps = map (fun q => g (fst q) (snd q)) (combine sims maps).
Proof. induction sims as [|s sims IH]; intros [|p maps]; cbn; try reflexivity. rewrite IH. reflexivity. Qed.
Lemma combine_self {A B C} (f : A -> B) (g : A * B -> C) : forall l : list A, map g (combine l (map f l)) = map (fun q => g (q, f q)) l.
Proof. induction l as [|a l IH]; cbn; [reflexivity|]. rewrite IH. reflexivity. Qed.
Lemma start_synced sims maps : synced maps (@meta_start F sims).
Proof. exact I. Qed.
Lemma serial_dpred n sims maps m : length sims = length maps -> serial n sims maps (CDpred m) = Ok (chunk_dpred (combine sims maps) m (chunk_fields (combine sims maps) m)).
Proof.
  intros L. cbn [serial]. rewrite dpred_ok by (try apply start_synced; exact L). f_equal. unfold chunk_fields, chunk_dpred, chunk_Jvec. rewrite combine_self, each_combine. reflexivity.
Qed.
Lemma serial_Jvec n sims maps m v : length sims = length maps -> serial n sims maps (CJvec m v) = Ok (chunk_Jvec (combine sims maps) m (chunk_fields (combine sims maps) m) v).
Proof.
  intros L. cbn [serial]. rewrite Jvec_ok by (try apply start_synced; exact L). f_equal. unfold chunk_fields, chunk_dpred, chunk_Jvec. rewrite combine_self, each_combine. reflexivity.
Qed.
Lemma serial_Jtvec n sims maps m w : length sims = length maps -> serial n sims maps (CJtvec m w) = Ok (chunk_Jtvec n (combine sims maps) m (chunk_fields (combine sims maps) m) w).
Proof.
  intros L. cbn [serial]. unfold meta_Jtvec. cbn [snd get_f]. destruct (set_synced maps (@meta_start F sims) m (start_synced sims maps)) as (_ & -> & ->). rewrite inner_fields_ok by exact L.
  cbn [bind]. revert maps L w. induction sims as [|s sims IH]; intros [|p maps] L w; try discriminate; [reflexivity|].
  cbn [own_fields each map zip4 jt_loop need bind combine chunk_fields chunk_Jtvec fst snd]. rewrite jt_loop_shift. unfold own_fields, chunk_fields in IH.
  rewrite IH by (cbn in L; congruence). cbn [bind]. rewrite slice_0. reflexivity.
Qed.
Lemma serial_expected n p sims maps cl : (0 < p)%nat -> all_shaped n (call_model cl) sims maps ->
  serial n sims maps cl = expected Stack n (map (mk_chunk n) (split p (combine sims maps))) (map chunk_nD (split p (combine sims maps))) cl.
Proof.
  intros Hp [L H]. assert (E : concat (split p (combine sims maps)) = combine sims maps) by (unfold split; apply concat_chunks, sizes_sum, Hp).
  rewrite expected_ok by (rewrite E; exact H). rewrite E. destruct cl as [m|m v|m w]; [apply serial_dpred|apply serial_Jvec|apply serial_Jtvec]; exact L.
Qed.
Lemma parallel_serial n p sims maps cs o ws : (0 < p)%nat -> (forall cl, In cl cs -> all_shaped n (call_model cl) sims maps) ->
  steps (program Stack n p (combine sims maps) cs, started n p (combine sims maps)) (Ret o, ws) -> o = map (serial n sims maps) cs.
Proof.
  intros Hp H S. unfold program, started in S. replace (map (fun ck => start_worker (chunk_sim n ck)) (split p (combine sims maps)))
    with (map (fun k => start_worker (k_c k)) (map (mk_chunk n) (split p (combine sims maps)))) in S by (rewrite map_map; reflexivity).
  apply schedule_ok in S; [|rewrite !map_length; reflexivity|intros k Hk; apply in_map_iff in Hk as (ck & <- & _); apply mk_good]. rewrite S. apply map_ext_in.
  intros cl Hcl. symmetry. apply serial_expected; [exact Hp|]. apply H, Hcl.
Qed.
Lemma parallel_runs kd n p sims maps cs (a : @prog * list (@worker (list F))) :
  steps (program kd n p (combine sims maps) cs, started n p (combine sims maps)) a -> stuck a -> exists o ws, a = (Ret o, ws).
Proof.
  intros S. unfold program, started in S. replace (map (fun ck => start_worker (chunk_sim n ck)) (split p (combine sims maps)))
    with (map (fun k => start_worker (k_c k)) (map (mk_chunk n) (split p (combine sims maps)))) in S by (rewrite map_map; reflexivity).
  eapply schedule_runs; [| |exact S]; [rewrite !map_length; reflexivity|intros k Hk; apply in_map_iff in Hk as (ck & <- & _); apply mk_good].
Qed.
(** ** Sums over one simulation per process *)
Lemma incr_zero k : forall j, (k <= j)%nat -> filter (fun c => negb (Nat.eqb c 0)) (incr_first k (repeat O j)) = repeat 1%nat k.
Proof.
  induction k as [|k IH]; intros j H; [destruct j as [|j]; [reflexivity|]; cbn; clear; induction j as [|j IHj]; [reflexivity|exact IHj]|]. destruct j as [|j]; [lia|]. cbn. rewrite IH by lia. reflexivity.
Qed.
Lemma sizes_one p n : (n <= p)%nat -> (0 < p)%nat -> chunk_sizes p n = repeat 1%nat n.
Proof.
  intros H Hp. unfold chunk_sizes. destruct (Nat.eq_dec n p) as [->|N].
  - rewrite Nat.mod_same, Nat.div_same, Nat.min_id by lia. replace (incr_first 0 (repeat 1%nat p)) with (repeat 1%nat p) by (destruct p; reflexivity). clear. induction p; cbn; [reflexivity|]. rewrite IHp at 1. reflexivity.
  - rewrite Nat.mod_small, Nat.div_small, Nat.min_r by lia. apply incr_zero. lia.
Qed.
Lemma split_one p l : (length l <= p)%nat -> (0 < p)%nat -> split p l = map (fun q => [q]) l.
Proof.
  intros H Hp. unfold split. rewrite sizes_one by assumption. clear. induction l as [|q l IH]; [reflexivity|]. cbn [length repeat chunks firstn skipn map]. rewrite IH. reflexivity.
Qed.
Lemma np_sum_ok k vs : vs <> [] -> (forall v, In v vs -> length v = k) -> np_sum vs = Ok (vsums k vs).
Proof.
  intros N H. unfold np_sum. destruct vs as [|v vs]; [congruence|]. rewrite (H v) by (left; reflexivity).
  assert (E : forallb (fun w => Nat.eqb (length w) k) (v :: vs) = true) by (apply forallb_forall; intros w Hw; apply Nat.eqb_eq, H, Hw). rewrite E. reflexivity.
Qed.
Lemma sum_expected n nD sims maps cl : sims <> [] -> all_shaped n (call_model cl) sims maps -> (forall s, In s sims -> s_nD s = nD) -> call_ok nD cl ->
  serial_sum n nD sims maps cl = expected Sum n (map (mk_chunk n) (map (fun q => [q]) (combine sims maps))) (map chunk_nD (map (fun q => [q]) (combine sims maps))) cl.
Proof.
  intros N [L H] HD Hw. assert (Nc : combine sims maps <> []) by (destruct sims, maps; cbn in *; congruence).
  assert (HD' : forall q, In q (combine sims maps) -> s_nD (fst q) = nD) by (intros [s p] Hq; apply HD; eapply in_combine_l; exact Hq).
  unfold expected, ck_answers, ck_answer. rewrite !map_map. destruct cl as [m|m v|m w]; cbn [call_model call_ok] in *; cbn [k_dp k_jv k_jt mk_chunk].
  - rewrite (np_sum_ok nD).
    + cbn [serial_sum]. unfold sum_dpred. cbn [snd get_f]. destruct (set_synced maps (@meta_start F sims) m (start_synced sims maps)) as (_ & _ & ->). rewrite inner_fields_ok by exact L.
      cbn [bind]. rewrite (zip_ok m (fun p s x u => s_dpred s x u)) by exact L. cbn [bind]. rewrite each_combine. do 2 f_equal. apply map_ext. intros q. cbn. rewrite app_nil_r. reflexivity.
    + destruct (combine sims maps); [congruence|discriminate].
    + intros v Hv. apply in_map_iff in Hv as (q & <- & Hq). cbn. rewrite app_nil_r, <- (HD' q Hq). apply (H q Hq).
  - rewrite (np_sum_ok nD).
    + cbn [serial_sum]. unfold sum_Jvec. cbn [snd get_f]. destruct (set_synced maps (@meta_start F sims) m (start_synced sims maps)) as (_ & -> & ->). rewrite inner_fields_ok by exact L.
      cbn [bind]. rewrite (zip_ok2 m (fun p s x u mm => sJvec s x u (mv (p_J p mm) v))) by exact L. cbn [bind]. rewrite each_combine. do 2 f_equal. apply map_ext. intros q. cbn. rewrite app_nil_r. reflexivity.
    + destruct (combine sims maps); [congruence|discriminate].
    + intros x Hv. apply in_map_iff in Hv as (q & <- & Hq). cbn. rewrite app_nil_r, <- (HD' q Hq). apply (part_length n m (fst q) (snd q) v (H q Hq)).
  - rewrite !map_map. cbn [k_jt mk_chunk]. rewrite (np_sum_ok n).
    + cbn [serial_sum]. unfold sum_Jtvec. cbn [snd get_f]. destruct (set_synced maps (@meta_start F sims) m (start_synced sims maps)) as (_ & -> & ->). rewrite inner_fields_ok by exact L.
      cbn [bind]. rewrite (zip_ok2 m (fun p s x u mm => mtv n (p_J p mm) (sJtvec s x u w))) by exact L. cbn [bind]. rewrite each_combine. do 2 f_equal. apply map_ext_in. intros [s p] Hq. cbn [fst snd chunk_fields map chunk_Jtvec].
      rewrite (HD' _ Hq : s_nD s = nD), <- Hw, firstn_all, vadd_zero_r; [reflexivity|]. apply (mtv_length (s_nP s)), (H _ Hq).
    + destruct (combine sims maps); [congruence|discriminate].
    + intros x Hv. apply in_map_iff in Hv as (q & <- & Hq). apply Jtvec_len. intros z [<-|[]]. apply H, Hq.
Qed.
Lemma parallel_sum n nD p sims maps cs o ws : sims <> [] -> (length sims <= p)%nat -> (forall cl, In cl cs -> all_shaped n (call_model cl) sims maps /\ call_ok nD cl) ->
  (forall s, In s sims -> s_nD s = nD) ->
  steps (program Sum n p (combine sims maps) cs, started n p (combine sims maps)) (Ret o, ws) -> o = map (serial_sum n nD sims maps) cs.
Proof.
  intros N Hp H HD S. unfold program, started in S. replace (map (fun ck => start_worker (chunk_sim n ck)) (split p (combine sims maps)))
    with (map (fun k => start_worker (k_c k)) (map (mk_chunk n) (split p (combine sims maps)))) in S by (rewrite map_map; reflexivity).
  apply schedule_ok in S; [|rewrite !map_length; reflexivity|intros k Hk; apply in_map_iff in Hk as (ck & <- & _); apply mk_good]. rewrite S. apply map_ext_in.
  intros cl Hcl. symmetry. destruct (H cl Hcl) as [H1 H2]. rewrite split_one; [apply sum_expected; assumption| |].
  - rewrite combine_length. lia.
  - destruct sims; [congruence|cbn in Hp; lia].
Qed.
Lemma parallel_any kd n p l cs o ws : steps (program kd n p l cs, started n p l) (Ret o, ws) -> o = map (expected kd n (map (mk_chunk n) (split p l)) (map chunk_nD (split p l))) cs.
Proof.
  intros S. unfold program, started in S. replace (map (fun ck => start_worker (chunk_sim n ck)) (split p l))
    with (map (fun k => start_worker (k_c k)) (map (mk_chunk n) (split p l))) in S by (rewrite map_map; reflexivity).
  apply schedule_ok in S; [|rewrite !map_length; reflexivity|intros k Hk; apply in_map_iff in Hk as (ck & <- & _); apply mk_good]. exact S.
Qed.
End Q.
(** Deciding equalities of numerals in a hypothesis. *)
Ltac eqs := repeat match goal with
  | H : context [Req_EM_T ?a ?b] |- _ => destruct (Req_EM_T a b); [first [exfalso; lra|idtac]|first [exfalso; lra|idtac]]; cbn -[Rmult] in H
  end.
