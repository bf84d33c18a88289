From Coq Require Import Reals Lra Lia.
From Verif Require Import Py Vec PgiMref SpecPgiMref.
Local Open Scope R_scope.

(** ** One step, seen from the PGI and from the others *)
Lemma pgi_update r t p : the_pgi t = Some p -> the_pgi (update r t) = Some (pgi_set_ref (Some r) p).
Proof.
  destruct t as [q|l]; cbn [the_pgi update]; [now intros [= ->]|].
  induction l as [|[q|w] l IH]; cbn; [discriminate|now intros [= ->]|exact IH].
Qed.
Lemma pgi_include r t p : the_pgi t = Some p -> the_pgi (include r t) = Some (pgi_set_flag true p).
Proof.
  destruct t as [q|l]; cbn [the_pgi include]; [now intros [= ->]|].
  induction l as [|[q|w] l IH]; cbn; [discriminate|now intros [= ->]|exact IH].
Qed.
Lemma others_update r t : others (update r t) = others t.
Proof. destruct t as [q|l]; cbn [others update]; auto. f_equal. induction l as [|[q|w] l IH]; cbn; congruence. Qed.
Definition give (r : vec) (t : term) : term := if smooth t then set_ref (Some r) t else t.
Lemma others_include r t : others (include r t) = map (map (give r)) (others t).
Proof.
  destruct t as [q|l]; cbn [others include]; auto.
  assert (E : forall l, concat (map (fun p => match p with PWls w => [w] | PPgi _ => [] end) (map (assign_part r) l))
     = map (map (give r)) (concat (map (fun p => match p with PWls w => [w] | PPgi _ => [] end) l))).
  { induction l0 as [|[q|w] l0 IH]; cbn; auto. now rewrite IH. }
  rewrite E. f_equal. f_equal. clear. induction l as [|[q|w] l IH]; cbn; congruence.
Qed.

(** ** The PGI after any history *)
Definition after (e : bool) (f : option vec -> option vec) (t : term) : term :=
  mkT (smooth t) (if smooth t then flag t || e else flag t) (f (ref t)).
Lemma after_flag e f t : after e f (set_flag true t) = mkT (smooth t) (if smooth t then true else flag t) (f (ref t)).
Proof. unfold after, set_flag. destruct t as [[] fl r]; reflexivity. Qed.
Lemma bind_step {A B} (r : result A) (k : A -> result B) y : bind r k = Ok y -> exists x, r = Ok x /\ k x = Ok y.
Proof. destruct r; cbn; [eauto|discriminate]. Qed.

Lemma mref_pgi o tg ops : o_targets o = Some tg -> forall s s' p, the_pgi (snd s) = Some p -> run o ops s = Ok s' ->
  exists q, the_pgi (snd s') = Some q /\
    small_ref q = learned (small_ref p) ops /\
    parts q = map (map (after (ever o tg (fst s) ops) (fun r => learned r ops))) (parts p).
Proof.
  intros T. induction ops as [|x ops IH]; intros s s' p Hp R.
  - injection R as <-. exists p; repeat split; auto. cbn [ever learned].
    rewrite <- (map_id (parts p)) at 1. apply map_ext; intros w. rewrite <- (map_id w) at 1. apply map_ext; intros [[] f r]; unfold after; cbn; now rewrite ?Bool.orb_false_r.
  - cbn [run] in R. apply bind_step in R as (s1 & R1 & R2). destruct x as [r|i].
    + cbn [step] in R1. injection R1 as <-.
      destruct (IH (fst s, update r (snd s)) s' _ (pgi_update r _ _ Hp) R2) as (q & Q1 & Q2 & Q3). exists q; repeat split; auto.
      rewrite Q3. cbn [parts pgi_set_ref ever learned fst]. rewrite map_map. apply map_ext; intros w. rewrite map_map. apply map_ext; intros t. reflexivity.
    + cbn [step] in R1. unfold end_iter in R1. rewrite T in R1.
      destruct (i_member i) as [|m0 ms] eqn:M; [discriminate|]. rewrite <- M in R1. injection R1 as <-.
      cbn [ever learned]. destruct (ready o tg (fst s) i) eqn:Rd; cbn [orb].
      * destruct (IH (i_member i, include (i_mref i) (snd s)) s' _ (pgi_include (i_mref i) _ _ Hp) R2) as (q & Q1 & Q2 & Q3). exists q; repeat split; auto.
        rewrite Q3. cbn [parts pgi_set_flag]. rewrite map_map. apply map_ext; intros w. rewrite map_map. apply map_ext; intros [[] f r]; unfold after, set_flag; cbn; now rewrite ?Bool.orb_true_r.
      * destruct (IH (i_member i, snd s) s' p Hp R2) as (q & Q1 & Q2 & Q3). exists q; repeat split; auto.
Qed.

Lemma mref_never o tg l s s' p : o_targets o = Some tg -> the_pgi (snd s) = Some p ->
  Forall (Forall (fun t => ref t = None)) (parts p) -> run o (map OEnd l) s = Ok s' ->
  exists q, the_pgi (snd s') = Some q /\ Forall (Forall (fun t => used t = None)) (parts q).
Proof.
  intros T Hp N R. destruct (mref_pgi o tg _ T s s' p Hp R) as (q & Q1 & _ & Q3). exists q; split; auto. rewrite Q3.
  assert (L : forall r, learned r (map OEnd l) = r) by (clear; induction l; cbn; auto).
  apply Forall_map. eapply Forall_impl; [|exact N]. intros w Hw. apply Forall_map. eapply Forall_impl; [|exact Hw].
  intros t Ht. unfold used, after; cbn. rewrite L, Ht. destruct (smooth t && _); auto.
Qed.

Lemma mref_updates o tg ops s s' p r : o_targets o = Some tg -> the_pgi (snd s) = Some p -> run o ops s = Ok s' ->
  ever o tg (fst s) ops = true -> learned None ops = Some r ->
  exists q, the_pgi (snd s') = Some q /\ Forall (Forall (fun t => smooth t = true -> used t = Some r)) (parts q).
Proof.
  intros T Hp R E L. destruct (mref_pgi o tg _ T s s' p Hp R) as (q & Q1 & _ & Q3). exists q; split; auto. rewrite Q3, E.
  assert (K : forall l a r, learned None l = Some r -> learned a l = Some r).
  { clear. induction l as [|[v|i] l IH]; cbn; intros; auto; discriminate. }
  apply Forall_map, Forall_forall; intros w _. apply Forall_map, Forall_forall; intros t _. unfold used, after; cbn.
  intros ->. rewrite Bool.orb_true_r. cbn. apply K; auto.
Qed.
Lemma mref_before o tg ops s s' p : o_targets o = Some tg -> the_pgi (snd s) = Some p -> run o ops s = Ok s' ->
  ever o tg (fst s) ops = false -> Forall (Forall (fun t => flag t = false)) (parts p) ->
  exists q, the_pgi (snd s') = Some q /\ Forall (Forall (fun t => used t = None)) (parts q).
Proof.
  intros T Hp R E N. destruct (mref_pgi o tg _ T s s' p Hp R) as (q & Q1 & _ & Q3). exists q; split; auto. rewrite Q3, E.
  apply Forall_map. eapply Forall_impl; [|exact N]. intros w Hw. apply Forall_map. eapply Forall_impl; [|exact Hw].
  intros t Ht. unfold used, after; cbn. rewrite Ht. destruct (smooth t); reflexivity.
Qed.

(** ** The others *)
Lemma mref_others o tg ops : o_targets o = Some tg -> forall s s', run o ops s = Ok s' ->
  others (snd s') = map (map (fun t => if smooth t then mkT true (flag t) (given o tg (fst s) (ref t) ops) else t)) (others (snd s)).
Proof.
  intros T. induction ops as [|x ops IH]; intros s s' R.
  - injection R as <-. rewrite <- (map_id (others (snd s))) at 1. apply map_ext; intros w. rewrite <- (map_id w) at 1. apply map_ext; intros [[] f r]; reflexivity.
  - cbn [run] in R. apply bind_step in R as (s1 & R1 & R2). destruct x as [r|i].
    + cbn [step] in R1. injection R1 as <-. rewrite (IH _ _ R2). cbn [snd fst given]. now rewrite others_update.
    + cbn [step] in R1. unfold end_iter in R1. rewrite T in R1.
      destruct (i_member i) as [|m0 ms] eqn:M; [discriminate|]. rewrite <- M in R1. injection R1 as <-.
      rewrite (IH _ _ R2). cbn [snd fst given]. destruct (ready o tg (fst s) i); [|reflexivity].
      rewrite others_include, map_map. apply map_ext; intros w. rewrite map_map. apply map_ext; intros [[] f r]; reflexivity.
Qed.
Lemma mref_others_unused o tg ops s s' : o_targets o = Some tg -> run o ops s = Ok s' ->
  Forall (Forall (fun t => flag t = false)) (others (snd s)) -> Forall (Forall (fun t => used t = None)) (others (snd s')).
Proof.
  intros T R N. rewrite (mref_others o tg ops T s s' R). apply Forall_map. eapply Forall_impl; [|exact N]. intros w Hw.
  apply Forall_map. eapply Forall_impl; [|exact Hw]. intros [[] f r] Hf; cbn in *; unfold used; cbn; auto. now rewrite Hf.
Qed.

(** ** Readiness *)
Lemma changed_0 a b : length a = length b -> changed a b = O <-> a = b.
Proof.
  revert b; induction a as [|x a IH]; intros [|y b]; cbn; intros E; try discriminate; [tauto|].
  destruct (Nat.eqb x y) eqn:H.
  - apply Nat.eqb_eq in H; subst. cbn. rewrite IH by lia. split; congruence.
  - apply Nat.eqb_neq in H. cbn. split; [discriminate|congruence].
Qed.
Lemma all_below_spec d tg c : length d = length tg -> all_below d tg c = true <-> Forall2 (fun x y => x < (1 + c) * y) d tg.
Proof.
  revert tg; induction d as [|x d IH]; intros [|y tg]; cbn; intros E; try discriminate; [split; auto|].
  rewrite Bool.andb_true_iff, IH by lia. destruct (Rlt_dec x ((1 + c) * y)); split.
  - intros [_ H]; auto.
  - intros H; inversion_clear H; auto.
  - intros [H _]; discriminate.
  - intros H; inversion_clear H; lra.
Qed.
Lemma mref_ready o tg prev i : o_wait o = true -> o_tol o = 0 -> length prev = length (i_member i) -> i_member i <> [] ->
  length (i_dmlist i) = length tg ->
  ready o tg prev i = true <->
  (i_dm i = true \/ Forall2 (fun x y => x < (1 + o_tol_phid o) * y) (i_dmlist i) tg) /\ i_member i = prev.
Proof.
  intros W Tl L NE LD. unfold ready. rewrite W, Tl, Bool.andb_true_iff, Bool.orb_true_iff, all_below_spec by auto. cbn [negb]. rewrite Bool.orb_false_r.
  assert (P : 0 < INR (length (i_member i))) by (apply lt_0_INR; destruct (i_member i); [congruence|cbn; lia]).
  assert (S : (Nat.eqb (changed prev (i_member i)) 0 || (if Rle_dec (INR (changed prev (i_member i)) / INR (length (i_member i))) 0 then true else false))%bool = true <-> i_member i = prev).
  { destruct (Nat.eqb (changed prev (i_member i)) 0) eqn:E; cbn [orb].
    - apply Nat.eqb_eq in E. rewrite changed_0 in E by auto. split; auto.
    - apply Nat.eqb_neq in E. split.
      + destruct (Rle_dec _ 0) as [H|]; [|discriminate]. exfalso. assert (0 < INR (changed prev (i_member i))) by (apply lt_0_INR; lia).
        assert (0 < INR (changed prev (i_member i)) / INR (length (i_member i))) by (apply Rdiv_lt_0_compat; auto). lra.
      + intros H. exfalso. apply E. apply changed_0; auto. }
  rewrite S. tauto.
Qed.
Lemma mref_no_target o ops s : o_targets o = None -> existsb is_end ops = true -> run o ops s = Err AttributeError.
Proof.
  intros T. revert s; induction ops as [|[r|i] ops IH]; intros s H; [discriminate| |].
  - cbn [run step bind]. now apply IH.
  - cbn [run step]. unfold end_iter. rewrite T. reflexivity.
Qed.
