From Verif Require Import Py Vec VecDeriv Joint CplxFacts SolveDeriv RichardsFacts RichardsFacts2 RichardsFacts3 DcFacts DcFacts4 Tdem SpecTdem TdemFacts TdemFacts2 TdemFacts3 TdemFacts4 TdemFacts5.
From Verif Require JointFacts LinSimFacts.
From Coq Require Import Reals Lra Lia.
Local Open Scope R_scope.

Lemma over_seq {A} (f : nat -> vec -> A) us : forall k, over f k us = map (fun i => f (k + i)%nat (nth i us [])) (seq 0 (length us)).
Proof.
  induction us as [|u us IH]; intros k; [reflexivity|]. cbn [over length seq map nth]. rewrite Nat.add_0_r. f_equal. rewrite IH. rewrite <- seq_shift, map_map. apply map_ext. intros i. cbn [nth]. f_equal. lia.
Qed.
Lemma over2_seq {A} (f : nat -> vec -> vec -> A) us : forall k ws, length ws = length us -> over2 f k us ws = map (fun i => f (k + i)%nat (nth i us []) (nth i ws [])) (seq 0 (length us)).
Proof.
  induction us as [|u us IH]; intros k [|w ws] L; try discriminate; [reflexivity|]. cbn [over2 length seq map nth]. rewrite Nat.add_0_r. f_equal. rewrite IH by (cbn in L; lia). rewrite <- seq_shift, map_map. apply map_ext. intros i. cbn [nth]. f_equal. lia.
Qed.
Lemma vderiv_flat {A} (l : list A) (size : A -> nat) (F : A -> R -> vec) (F' : A -> vec) : (forall a, In a l -> vderiv (size a) (F a) 0 (F' a)) ->
  vderiv (list_sum (map size l)) (fun t => concat (map (fun a => F a t) l)) 0 (concat (map F' l)).
Proof.
  induction l as [|a l IH]; intros H; [apply (vderiv_const 0 []); reflexivity|]. cbn [map concat]. change (list_sum (size a :: map size l)) with (size a + list_sum (map size l))%nat.
  apply JointFacts.vderiv_app; [apply H; left; reflexivity|apply IH; intros; apply H; right; assumption].
Qed.
Lemma list_sum_const {A} (l : list A) n : list_sum (map (fun _ => n) l) = (length l * n)%nat.
Proof. induction l; [reflexivity|]. cbn [map length]. change (list_sum (n :: map (fun _ => n) l)) with (n + list_sum (map (fun _ => n) l))%nat. rewrite IHl. lia. Qed.
Lemma each_source_ok {A} (f : source -> list vec -> result A) (g : source -> list vec) (h : source -> A) (srcs : list source) : (forall src, In src srcs -> f src (g src) = Ok (h src)) ->
  each_source f srcs (map g srcs) = Ok (map h srcs).
Proof. induction srcs as [|x l IH]; intros H; [reflexivity|]. cbn [map each_source]. rewrite H by (left; reflexivity). cbn. rewrite IH by (intros; apply H; right; assumption). reflexivity. Qed.
Lemma concat_len_map {A} (l : list A) (f : A -> vec) (size : A -> nat) : (forall a, In a l -> length (f a) = size a) -> length (concat (map f l)) = list_sum (map size l).
Proof. induction l as [|a l IH]; intros H; [reflexivity|]. cbn [map concat]. rewrite app_length, (H a) by (left; reflexivity). rewrite IH by (intros; apply H; right; assumption). reflexivity. Qed.

Section Data.
  Context (s : td) (srcs : list source) (ST : setup_ok s srcs).
  Let SZ : sizes s := proj1 ST.
  Lemma src_good src : In src srcs -> src_ok s src /\ Forall (rx_ok s) (s_rx src). Proof. intros. pose proof (proj2 ST) as F. rewrite Forall_forall in F. auto. Qed.
  Lemma rx_good src r : In src srcs -> In r (s_rx src) -> rx_ok s r. Proof. intros I J. destruct (src_good src I) as [_ F]. rewrite Forall_forall in F. auto. Qed.
  Lemma rxP_mat r : rx_ok s r -> is_mat (r_nD r) (S (nT s) * locs s (r_field r)) (rxP s r).
  Proof. intros (H1 & H2 & _). unfold rxP, locs. destruct (on_edges s (r_field r)); assumption. Qed.
  Definition D_src (m : vec) (src : source) : vec := concat (map (fun r => mv (rxP s r) (concat (history_of s m src (r_field r) (solution s m src)))) (s_rx src)).
  Definition D0 (m : vec) : vec := concat (map (D_src m) srcs).
  Lemma dpred_val m : dpred s srcs m None = Ok (D0 m).
  Proof.
    unfold dpred. cbn [given]. rewrite fields_ok by exact ST. cbn [bind fst snd]. rewrite (each_source_ok _ (solution s m) (D_src m)); [reflexivity|].
    intros src I. unfold D_src, rx_eval. rewrite (LinSimFacts.mapM_all _ (fun r => mv (rxP s r) (concat (history_of s m src (r_field r) (solution s m src))))); [reflexivity|].
    intros r J. destruct (rx_good src r I J) as (_ & _ & NF). rewrite NF. reflexivity.
  Qed.
  Definition JM_src (m v : vec) (src : source) : vec :=
    concat (map (fun r => mv (rxP s r) (concat (dfield s m m v src (solution s m src) (dsolution s m v src (solution s m src)) (r_field r)))) (s_rx src)).
  Lemma Jvec_val m v : Jvec s srcs m v None = Ok (concat (map (JM_src m v) srcs)).
  Proof.
    unfold Jvec. cbn [given]. rewrite fields_ok by exact ST. cbn [bind fst snd]. rewrite (each_source_ok _ (solution s m) (JM_src m v)); [reflexivity|].
    intros src I. unfold JM_src, rx_deriv. rewrite (LinSimFacts.mapM_all _ (fun r => mv (rxP s r) (concat (dfield s m m v src (solution s m src) (dsolution s m v src (solution s m src)) (r_field r))))); [reflexivity|].
    intros r J. destruct (rx_good src r I J) as (_ & _ & NF). unfold no_deriv. rewrite NF. reflexivity.
  Qed.
  (** the derivative at all nodes *)
  Definition df (m v : vec) (src : source) (x : fname) (k : nat) (u du : vec) : vec := vadd (field_du s m x du) (field_dm s m m src k x u v).
  Definition JT_rx (m v : vec) (src : source) (us dus : list vec) (r : receiver) : vec := mv (rxP s r) (concat (over2 (df m v src (r_field r)) 0 us dus)).
  Definition JT_src (m v : vec) (src : source) : vec := concat (map (JT_rx m v src (solution s m src) (dsolution s m v src (solution s m src))) (s_rx src)).
  Definition JT (m v : vec) : vec := concat (map (JT_src m v) srcs).
  (** lengths *)
  Lemma len_field_du m x z : no_field s x = None -> length z = dim s -> length (field_du s m x z) = locs s x.
  Proof.
    intros NF Lz. unfold no_field, gloc, locs, on_edges, gloc, field_du, dim in *. destruct (t_form s) eqn:K; destruct x; try discriminate; lens s SZ K; ln.
  Qed.
  Lemma len_field_dm m src k x u v : src_ok s src -> no_field s x = None -> length u = dim s -> length (field_dm s m m src k x u v) = locs s x.
  Proof.
    intros SO NF Lu. pose proof (len_s_e s SZ src (time s k) SO) as LE. unfold no_field, gloc, locs, on_edges, gloc, field_dm, eB_dm, dim in *. unfold getfield. destruct (t_form s) eqn:K; destruct x; try discriminate; lens s SZ K; cbv zeta;
      try apply vzero_length; try ln; repeat lazymatch goal with |- length (Sd _ _ _ _) = _ => apply H7; ln | |- length (SId _ _ _ _) = _ => apply H8; ln | |- length (vmul _ _) = _ => apply ln_mul; try ln | |- length (vopp _) = _ => apply ln_opp; try ln | |- length (vadd _ _) = _ => apply ln_add; try ln end.
  Qed.
  Lemma len_df m v src x k u du : src_ok s src -> no_field s x = None -> length u = dim s -> length du = dim s -> length (df m v src x k u du) = locs s x.
  Proof. intros. unfold df. apply ln_add; [apply len_field_du; assumption|apply len_field_dm; assumption]. Qed.
  Lemma len_initial_d m src u0 v : src_ok s src -> length u0 = dim s -> length (initial_d s m src u0 v) = dim s.
  Proof.
    intros SO Lu. pose proof (len_grad s SZ) as LG. unfold initial_d, e0_d, j0_d. destruct (s_init src); [|apply vzero_length]. destruct (t_form s) eqn:K; destruct (s_kind src) as [pp kk|q a g]; lens s SZ K; try apply vzero_length; try ln.
    - destruct g; [ln|apply vzero_length].
  Qed.
  Lemma len_jrhs m v src k dt u u' : src_ok s src -> length u = dim s -> length u' = dim s -> length (vsub (vsub (getRHSDeriv s k m src v) (getAsubDeriv s dt m u v)) (getADeriv s dt m u' v)) = dim s.
  Proof.
    intros SO Lu Lu'. pose proof (len_s_e s SZ src (time s k) SO) as LE. unfold getRHSDeriv, getAsubDeriv, getADeriv, dim in *. destruct (t_form s) eqn:K; lens s SZ K;
      repeat lazymatch goal with |- length (Sd _ _ _ _) = _ => apply H7; ln | |- length (SId _ _ _ _) = _ => apply H8; ln | |- length (vmul _ _) = _ => apply ln_mul; try ln | |- length (vsub _ _) = _ => apply ln_sub; try ln | |- length (vscale _ _) = _ => apply ln_scale; try ln end; ln.
  Qed.
  Lemma psens_lengths m v src : src_ok s src -> forall dts k us du, length us = S (length dts) -> (forall i, (i <= length dts)%nat -> length (nth i us []) = dim s) -> length du = dim s ->
    length (psens s m v src k us du dts) = length dts /\ forall i, (i < length dts)%nat -> length (nth i (psens s m v src k us du dts) []) = dim s.
  Proof.
    intros SO. induction dts as [|dt dts IH]; intros k us du L LL Ld; [destruct us; split; [reflexivity|intros i Hi; cbn in Hi; lia|reflexivity|intros i Hi; cbn in Hi; lia]|].
    destruct us as [|u us]; [discriminate|]. cbn [psens]. cbv zeta.
    set (du' := t_solve s _ _). assert (Ld' : length du' = dim s).
    { apply (len_solve s SZ). apply ln_sub; [|rewrite (Asub_apply s SZ) by exact Ld; apply (len_Asub s SZ); exact Ld]. apply len_jrhs; [exact SO|apply (LL 0%nat); lia|]. destruct us as [|u' us]; [discriminate|]. apply (LL 1%nat). cbn. lia. }
    destruct (IH (S k) us du' ltac:(cbn in L; lia) (fun i Hi => LL (S i) ltac:(cbn; lia)) Ld') as [I1 I2]. split; [cbn [length]; rewrite I1; reflexivity|]. intros [|i] Hi; [exact Ld'|]. apply I2. cbn in Hi. lia.
  Qed.
  Lemma solution_lengths m src : src_ok s src -> forall i, (i <= nT s)%nat -> length (nth i (solution s m src) []) = dim s.
  Proof.
    intros SO. unfold solution, nT. cbv zeta. generalize (len_initial s SZ m src SO). generalize (initial s m src), (@None (R * mx)), 0%nat. induction (t_steps s) as [|dt dts IH]; intros u prev k Lu i Hi; [destruct i; [exact Lu|cbn in Hi; lia]|].
    destruct i as [|i]; [exact Lu|]. cbn [march nth]. apply IH; [|cbn in Hi; lia]. apply (len_solve s SZ). rewrite (Asub_apply s SZ) by exact Lu. apply ln_sub; [apply (len_rhs s SZ); exact SO|apply (len_Asub s SZ); exact Lu].
  Qed.
  Lemma dsolution_lengths m v src : src_ok s src -> length (dsolution s m v src (solution s m src)) = S (nT s) /\ forall i, (i <= nT s)%nat -> length (nth i (dsolution s m v src (solution s m src)) []) = dim s.
  Proof.
    intros SO. rewrite dsolution_pure. pose proof (solution_lengths m src SO) as LL. pose proof (len_initial_d m src (hd [] (solution s m src)) v SO) as LI. specialize (LI (LL 0%nat ltac:(lia))).
    destruct (psens_lengths m v src SO (t_steps s) 0 (solution s m src) _ (solution_length s m src) LL LI) as [I1 I2]. split; [cbn [length]; rewrite I1; reflexivity|]. intros [|i] Hi; [exact LI|]. apply I2. unfold nT in Hi. lia.
  Qed.
  (** ** The derivative of the data *)
  Lemma jac (AP : apart (t_thr s) (t_steps s)) m : regular s m -> has_jacobian (t_p s) (data_size srcs) D0 m (JT m).
  Proof.
    intros (Lm & HJ & NR) v Lv. unfold D0, JT, data_size. apply vderiv_flat. intros src I. destruct (src_good src I) as [SO _]. unfold D_src, JT_src, src_nD. apply vderiv_flat. intros r J. pose proof (rx_good src r I J) as RO. pose proof RO as (_ & _ & NF).
    apply (vderiv_lin (S (nT s) * locs s (r_field r)) (r_nD r) (mv (rxP s r))); [apply lin_mv; apply rxP_mat; exact RO|].
    destruct (dsolution_lengths m v src SO) as [L1 L2]. rewrite over2_seq by (rewrite L1, solution_length; reflexivity). rewrite solution_length.
    apply (vderiv_ext _ (fun t => concat (map (fun i => getfield s (mt m v t) src i (r_field r) (nth i (solution s (mt m v t) src) [])) (seq 0 (S (nT s)))))).
    { intros t. unfold history_of. rewrite over_seq, solution_length. reflexivity. }
    replace (S (nT s) * locs s (r_field r))%nat with (list_sum (map (fun _ : nat => locs s (r_field r)) (seq 0 (S (nT s))))) by (rewrite list_sum_const, seq_length; reflexivity).
    apply (vderiv_flat (seq 0 (S (nT s))) (fun _ => locs s (r_field r)) (fun i t => getfield s (mt m v t) src i (r_field r) (nth i (solution s (mt m v t) src) []))).
    intros i Hi. apply in_seq in Hi. eapply vderiv_eq; [|apply (D_field s SZ m v Lm Lv HJ NR src SO i (r_field r) (fun t => nth i (solution s (mt m v t) src) [])); [exact NF|apply (D_solution s SZ m v Lm Lv HJ NR src SO AP); lia]].
    cbv beta. rewrite (mt0 s m v Lm Lv). reflexivity.
  Qed.
  Lemma firstn_seq_nth n (us : list vec) : forall i, (i < n)%nat -> nth i (firstn n us) [] = nth i us [].
  Proof. revert us. induction n; intros us i Hi; [lia|]. destruct us; [destruct i; reflexivity|]. destruct i; [reflexivity|]. cbn. apply IHn. lia. Qed.
  Lemma JM_JT m v : Forall (fun src => Forall (not_last s) (s_rx src)) srcs -> concat (map (JM_src m v) srcs) = JT m v.
  Proof.
    intros NL. unfold JT. f_equal. apply map_ext_in. intros src I. destruct (src_good src I) as [SO _]. unfold JM_src, JT_src. f_equal. apply map_ext_in. intros r J. rewrite Forall_forall in NL. specialize (NL src I). rewrite Forall_forall in NL. specialize (NL r J).
    pose proof (rx_good src r I J) as RO. pose proof RO as (_ & _ & NF). destruct (dsolution_lengths m v src SO) as [L1 L2]. pose proof (solution_length s m src) as L3. pose proof (solution_lengths m src SO) as L4. unfold JT_rx, dfield.
    set (us := solution s m src) in *. set (dus := dsolution s m v src us) in *. rewrite (over2_seq _ us) by congruence. rewrite L3. rewrite over2_seq by (rewrite !firstn_length; congruence). rewrite firstn_length, L3. replace (Nat.min (nT s) (S (nT s))) with (nT s) by lia.
    rewrite concat_app. cbn [concat]. rewrite app_nil_r. rewrite seq_S, map_app, concat_app. cbn [map concat Nat.add]. rewrite app_nil_r.
    symmetry. rewrite (NL (concat (map _ (seq 0 (nT s))))).
    - do 3 f_equal. apply map_ext_in. intros i Hi. apply in_seq in Hi. rewrite !firstn_seq_nth by lia. reflexivity.
    - rewrite (concat_len_map _ _ (fun _ => locs s (r_field r))); [rewrite list_sum_const, seq_length; reflexivity|]. intros i Hi. apply in_seq in Hi. apply len_df; [exact SO|exact NF|apply L4; lia|apply L2; lia].
    - apply len_df; [exact SO|exact NF|apply L4; lia|apply L2; lia].
  Qed.
End Data.
