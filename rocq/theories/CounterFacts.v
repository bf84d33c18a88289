From Coq Require Import String.
From Verif Require Import Py Vec Counter SpecCounter.
From Coq Require Import Lra.
Local Open Scope R_scope.

Section CallInd.
  Context (P : call -> Prop) (H : forall k name t0 t1 body ca ra, Forall P body -> P (Call k name t0 t1 body ca ra)).
  Fixpoint call_ind' (x : call) : P x :=
    match x with
    | Call k name t0 t1 body ca ra =>
        H k name t0 t1 body ca ra ((fix go l : Forall P l := match l with [] => Forall_nil P | y :: l' => Forall_cons y (call_ind' y) (go l') end) body)
    end.
End CallInd.
Lemma eqs a b : String.eqb a b = true <-> a = b. Proof. apply String.eqb_eq. Qed.
(** ** Elementary operations *)
Lemma count_count c n m : count_of (cn_count c n) m = ((if String.eqb m n then 1 else 0) + count_of c m)%nat.
Proof.
  unfold count_of, cn_count. cbn [countList]. destruct (String.eqb_spec m n) as [->|N]; [rewrite (dict_get_set_eq _ eqs); reflexivity|rewrite (dict_get_set_neq _ eqs) by assumption; reflexivity].
Qed.
Lemma times_count c n m : times_of (cn_count c n) m = times_of c m. Proof. reflexivity. Qed.
Lemma count_tic c n t m : count_of (cn_tic c n t) m = count_of c m. Proof. reflexivity. Qed.
Lemma times_tic c n t m : times_of (cn_tic c n t) m = times_of c m ++ (if String.eqb m n then [- t] else []).
Proof.
  unfold times_of, cn_tic. cbn [timeList]. destruct (String.eqb_spec m n) as [->|N]; [rewrite (dict_get_set_eq _ eqs); reflexivity|rewrite (dict_get_set_neq _ eqs), app_nil_r by assumption; reflexivity].
Qed.
Lemma add_last_app l x t : add_last (l ++ [x]) t = Ok (l ++ [x + t]).
Proof. induction l as [|y l IH]; [reflexivity|]. cbn. destruct (l ++ [x]) eqn:E; [destruct l; discriminate|]. rewrite IH. reflexivity. Qed.
Lemma toc_ok c n t l x : times_of c n = l ++ [x] -> exists c', cn_toc c n t = Ok c' /\ times_of c' n = l ++ [x + t] /\ (forall m, m <> n -> times_of c' m = times_of c m) /\ (forall m, count_of c' m = count_of c m).
Proof.
  unfold times_of, cn_toc. destruct (dict_get String.eqb n (timeList c)) as [l0|] eqn:E; intros H; [|destruct l; discriminate]. subst l0. rewrite add_last_app. cbn [bind]. eexists. split; [reflexivity|]. cbn [timeList]. rewrite (dict_get_set_eq _ eqs). split; [reflexivity|]. split; [|reflexivity].
  intros m N. rewrite (dict_get_set_neq _ eqs) by assumption. reflexivity.
Qed.
Lemma last_split (l : vec) : l <> [] -> exists a x, l = a ++ [x].
Proof. intros H. destruct (exists_last H) as (a & x & E). eauto. Qed.
(** ** The general invariant: counts, number and sum of entries, and outcome *)
Definition entries (name : string) (l : list made) : vec := map duration (filter (is_timed name) l).
Definition counted (name : string) (l : list made) : nat := length (filter (is_counted name) l).
Definition follows (f : counter -> counter * bool) (lg : list made * bool) : Prop :=
  forall c, snd (f c) = snd lg /\
    forall m, count_of (fst (f c)) m = (counted m (fst lg) + count_of c m)%nat /\
      length (times_of (fst (f c)) m) = (length (entries m (fst lg)) + length (times_of c m))%nat /\
      vsum (times_of (fst (f c)) m) = vsum (entries m (fst lg)) + vsum (times_of c m).
Lemma vsum_app a b : vsum (a ++ b) = vsum a + vsum b.
Proof. induction a as [|x a IH]; cbn; [lra|]. rewrite IH. lra. Qed.
Lemma entries_app m a b : entries m (a ++ b) = entries m a ++ entries m b.
Proof. unfold entries. rewrite filter_app, map_app. reflexivity. Qed.
Lemma counted_app m a b : counted m (a ++ b) = (counted m a + counted m b)%nat.
Proof. unfold counted. rewrite filter_app, app_length. reflexivity. Qed.
Lemma body_follows ca l : Forall (fun x => follows (exec x) (log x)) l -> follows (run_body exec ca l) (log_body log ca l).
Proof.
  induction l as [|x l IH]; intros H c; [cbn; split; [reflexivity|]; intros m; cbn; repeat split; lra|]. inversion H; subst. specialize (IH H3). cbn [run_body log_body].
  destruct (H2 c) as [E1 E2]. destruct (exec x c) as [c' r] eqn:EX. destruct (log x) as [a r0]. cbn [fst snd] in *. subst r0. destruct (r && negb ca); [cbn [fst snd]; auto|]. specialize (IH c'). destruct IH as [F1 F2].
  fold (run_body exec ca) in *. fold (log_body log ca). destruct (log_body log ca l) as [b r']. cbn [fst snd] in *. split; [exact F1|]. intros m. destruct (E2 m) as (A1 & A2 & A3). destruct (F2 m) as (B1 & B2 & B3).
  rewrite B1, B2, B3, A1, A2, A3, counted_app, entries_app, app_length, vsum_app. repeat split; lia || lra.
Qed.
Lemma exec_follows x : follows (exec x) (log x).
Proof.
  induction x as [k name t0 t1 body ca ra IH] using call_ind'. apply body_follows with (ca := ca) in IH. intros c. cbn [exec log].
  set (c1 := match k with Counted => cn_count c name | Timed => cn_tic c name t0 end). destruct (IH c1) as [E1 E2]. destruct (run_body exec ca body c1) as [c2 r]. destruct (log_body log ca body) as [lb r0]. cbn [fst snd] in *. subst r0.
  assert (C1 : forall m, count_of c1 m = ((if match k with Counted => String.eqb m name | Timed => false end then 1 else 0) + count_of c m)%nat) by (intros m; unfold c1; destruct k; [apply count_count|apply count_tic]).
  assert (T1 : forall m, times_of c1 m = times_of c m ++ (if match k with Timed => String.eqb m name | Counted => false end then [- t0] else [])) by (intros m; unfold c1; destruct k; [rewrite times_count, app_nil_r; reflexivity|apply times_tic]).
  assert (K : forall e m, counted m (mkMade k name t0 e :: lb) = ((if match k with Counted => String.eqb m name | Timed => false end then 1 else 0) + counted m lb)%nat) by (intros e m; unfold counted, is_counted; cbn; destruct k; [destruct (String.eqb m name)|]; reflexivity).
  assert (N : forall e m, entries m (mkMade k name t0 e :: lb) = (if match k with Timed => String.eqb m name | Counted => false end then [duration (mkMade k name t0 e)] else []) ++ entries m lb) by (intros e m; unfold entries, is_timed; cbn; destruct k; [|destruct (String.eqb m name)]; reflexivity).
  destruct (r || ra) eqn:ER; cbn [fst snd].
  - split; [reflexivity|]. intros m. destruct (E2 m) as (A1 & A2 & A3). rewrite K, N, A1, A2, A3, C1, T1, !app_length, !vsum_app. split; [lia|]. destruct (match k with Timed => _ | Counted => _ end); cbn; split; lia || lra.
  - destruct k.
    + cbn [fst snd]. split; [reflexivity|]. intros m. destruct (E2 m) as (A1 & A2 & A3). rewrite K, N, A1, A2, A3, C1, T1, !app_length, !vsum_app. cbn. repeat split; lia || lra.
    + assert (NE : times_of c2 name <> []). { intros Z. destruct (E2 name) as (_ & A2 & _). rewrite Z, T1, String.eqb_refl, app_length in A2. cbn in A2. lia. }
      destruct (last_split _ NE) as (l & x & EL). destruct (toc_ok c2 name t1 l x EL) as (c3 & -> & TE & TN & CE). cbn [fst snd]. split; [reflexivity|]. intros m. destruct (E2 m) as (A1 & A2 & A3). rewrite K, N, CE, A1, C1. split; [lia|].
      destruct (String.eqb_spec m name) as [->|NM].
      * rewrite EL in A2, A3. rewrite TE. rewrite T1, String.eqb_refl in A2, A3. rewrite !app_length in *. rewrite !vsum_app in *. unfold duration. cbn in *. split; lia || lra.
      * rewrite TN by assumption. rewrite A2, A3, T1. rewrite (proj2 (String.eqb_neq m name) NM), app_nil_r. cbn. split; [reflexivity|reflexivity].
Qed.
Lemma c50_general l name : let c := exec_all l new_counter in
  count_of c name = length (filter (is_counted name) (log_all l)) /\ length (times_of c name) = length (filter (is_timed name) (log_all l)) /\ vsum (times_of c name) = vsum (map duration (filter (is_timed name) (log_all l))).
Proof.
  cbv zeta. assert (F : follows (run_body exec true l) (log_body log true l)) by (apply body_follows, Forall_forall; intros x _; apply exec_follows). destruct (F new_counter) as [_ E]. destruct (E name) as (A & B & C). unfold exec_all, log_all. rewrite A, B, C. cbn. unfold entries, counted. rewrite map_length. repeat split; lia || lra.
Qed.
(** ** Without recursion *)
Lemma names_body name ca l : Forall (fun x => ~ In name (timed_names x) -> entries name (fst (log x)) = []) l -> ~ In name (flat_map timed_names l) -> entries name (fst (log_body log ca l)) = [].
Proof.
  induction l as [|x l IH]; intros H N; [reflexivity|]. inversion H; subst. cbn in N. rewrite in_app_iff in N. cbn [log_body]. fold (log_body log ca). specialize (H2 ltac:(tauto)). specialize (IH H3 ltac:(tauto)). destruct (log x) as [a r]. cbn [fst] in *.
  destruct (r && negb ca); [exact H2|]. destruct (log_body log ca l) as [b r']. cbn [fst] in *. rewrite entries_app, H2, IH. reflexivity.
Qed.
Lemma names_entries name x : ~ In name (timed_names x) -> entries name (fst (log x)) = [].
Proof.
  induction x as [k nm t0 t1 body ca ra IH] using call_ind'. intros N. cbn in N. rewrite in_app_iff in N. cbn [log]. pose proof (names_body name ca body IH ltac:(tauto)) as E. destruct (log_body log ca body) as [lb r]. cbn [fst] in *.
  unfold entries, is_timed in *. cbn. destruct k; [exact E|]. destruct (String.eqb_spec name nm) as [->|]; [exfalso; apply N; left; left; reflexivity|exact E].
Qed.
Lemma body_intervals name ca l : Forall (fun x => not_recursive name x -> forall c, times_of (fst (exec x c)) name = times_of c name ++ entries name (fst (log x))) l -> fold_right and True (map (not_recursive name) l) ->
  forall c, times_of (fst (run_body exec ca l c)) name = times_of c name ++ entries name (fst (log_body log ca l)).
Proof.
  induction l as [|x l IH]; intros H N c; [cbn; rewrite app_nil_r; reflexivity|]. inversion H; subst. destruct N as [N1 N2]. cbn [run_body log_body]. fold (run_body exec ca). fold (log_body log ca). specialize (H2 N1 c). destruct (exec_follows x c) as [ER _].
  destruct (exec x c) as [c' r]. destruct (log x) as [a r0]. cbn [fst snd] in *. subst r0. destruct (r && negb ca); [exact H2|]. specialize (IH H3 N2 c'). destruct (log_body log ca l) as [b r']. cbn [fst] in *. rewrite IH, H2, entries_app, app_assoc. reflexivity.
Qed.
Lemma exec_intervals name x : not_recursive name x -> forall c, times_of (fst (exec x c)) name = times_of c name ++ entries name (fst (log x)).
Proof.
  induction x as [k nm t0 t1 body ca ra IH] using call_ind'. intros [N1 N2] c. cbn [exec log]. pose proof (body_intervals name ca body IH N2) as B.
  assert (FB : follows (run_body exec ca body) (log_body log ca body)) by (apply body_follows, Forall_forall; intros x _; apply exec_follows).
  set (c1 := match k with Counted => cn_count c nm | Timed => cn_tic c nm t0 end). specialize (B c1). destruct (FB c1) as [ER E2]. pose proof (names_body name ca body) as NB. destruct (run_body exec ca body c1) as [c2 r]. destruct (log_body log ca body) as [lb r0]. cbn [fst snd] in *. subst r0.
  destruct k.
  - assert (E : times_of c2 name = times_of c name ++ entries name lb) by exact B. unfold entries, is_timed in *. destruct (r || ra); cbn; exact E.
  - unfold c1 in B. rewrite times_tic in B. destruct (String.eqb_spec name nm) as [->|NM].
    + rewrite NB in B by (try (apply Forall_forall; intros x _; apply names_entries); apply N1; reflexivity). rewrite app_nil_r in B. specialize (NB ltac:(apply Forall_forall; intros x _; apply names_entries) (N1 eq_refl eq_refl)).
      destruct (r || ra); [cbn [fst]; unfold entries, is_timed in *; cbn; rewrite String.eqb_refl; cbn; rewrite NB; exact B|]. destruct (toc_ok c2 nm t1 _ _ B) as (c3 & -> & TE & _). cbn [fst]. rewrite TE. unfold entries, is_timed in *. cbn. rewrite String.eqb_refl. cbn. rewrite NB. do 2 f_equal. unfold duration. cbn. lra.
    + rewrite app_nil_r in B. assert (EE : forall e, entries name (mkMade Timed nm t0 e :: lb) = entries name lb) by (intros e; unfold entries, is_timed; cbn; rewrite (proj2 (String.eqb_neq name nm) NM); reflexivity).
      destruct (r || ra); cbn [fst]; rewrite EE; [exact B|]. destruct (cn_toc c2 nm t1) as [c3|e] eqn:ET; cbn [fst]; [|exact B]. rewrite <- B.
      assert (NE : times_of c2 nm <> []). { intros Z. unfold times_of in Z. unfold cn_toc in ET. destruct (dict_get String.eqb nm (timeList c2)); [subst; discriminate|discriminate]. }
      destruct (last_split _ NE) as (l & y & EL). destruct (toc_ok c2 nm t1 l y EL) as (c3' & E3 & _ & TN & _). rewrite ET in E3. injection E3 as <-. apply TN. assumption.
Qed.
Lemma c50_intervals l name : Forall (not_recursive name) l -> times_of (exec_all l new_counter) name = map duration (filter (is_timed name) (log_all l)).
Proof.
  intros H. unfold exec_all, log_all. rewrite (body_intervals name true l); [reflexivity|apply Forall_forall; intros x _; apply exec_intervals|]. induction H; cbn; auto.
Qed.
(** ** Recursion *)
Lemma c50_recursive name t0 t1 u0 u1 : times_of (exec_all [Call Timed name t0 t1 [Call Timed name u0 u1 [] false false] false false] new_counter) name = [- t0; - u0 + u1 + t1].
Proof.
  unfold exec_all, times_of, run_body, exec, cn_tic, cn_toc, new_counter. cbn. repeat (rewrite String.eqb_refl; cbn). reflexivity.
Qed.
Lemma quiet_body ca l : Forall (fun x => quiet x -> log x = (nodes x, false)) l -> fold_right and True (map quiet l) -> log_body log ca l = (flat_map nodes l, false).
Proof. induction l as [|x l IH]; intros H Q; [reflexivity|]. inversion H; subst. destruct Q as [Q1 Q2]. cbn [log_body]. fold (log_body log ca). rewrite (H2 Q1), (IH H3 Q2). reflexivity. Qed.
Lemma quiet_log x : quiet x -> log x = (nodes x, false).
Proof. induction x as [k nm t0 t1 body ca ra IH] using call_ind'. intros [-> Q]. cbn [log nodes]. rewrite (quiet_body ca body IH Q). reflexivity. Qed.
Lemma c50_quiet l : Forall quiet l -> log_all l = flat_map nodes l.
Proof. intros H. unfold log_all. rewrite quiet_body; [reflexivity|apply Forall_forall; intros x _; apply quiet_log|]. induction H; cbn; auto. Qed.
