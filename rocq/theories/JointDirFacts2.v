(** Directives of joint inversions: whole inversions. *)
From Verif Require Import Py Vec JointDir SpecJointDir JointDirFacts.
Local Open Scope R_scope.

Lemma run_app g : forall a b s, run g (a ++ b) s = (do s' <- run g a s; run g b s').
Proof. induction a as [|e a IH]; intros b s; [reflexivity|]. cbn. destruct (happen g e s); [apply IH|reflexivity]. Qed.
Lemma due_iff g k : (0 < set_rate g)%nat -> due g k <-> ((0 <? k) && (k mod set_rate g =? 0))%nat = true.
Proof.
  intros P. unfold due. rewrite andb_true_iff, Nat.ltb_lt, Nat.eqb_eq. rewrite Nat.mod_divide by lia. reflexivity.
Qed.
Lemma forallb_combine (f : R * R -> bool) : forall a b, len a = len b -> (forallb f (combine a b) = true <-> forall k, (k < len b)%nat -> f (nth k a 0, nth k b 0) = true).
Proof.
  induction a as [|x a IH]; intros [|y b] L; try discriminate; cbn; [split; [intros _ k H; lia|reflexivity]|]. cbn in L. rewrite andb_true_iff, (IH b) by lia. split.
  - intros [H1 H2] [|k] H; [exact H1|apply H2; lia].
  - intros H. split; [apply (H 0%nat); lia|]. intros k Hk. apply (H (S k)). lia.
Qed.

Section Runs.
Variable g : settings.
Variable n : nat.
Hypothesis G : proper g n.
Variables chi schi lambda : R.
Hypothesis Hchi : 0 < chi.
Hypothesis Hlam : lambda <> 0.
Notation dur := (during g n chi schi lambda).
Notation ok := (good g n chi schi lambda).
Notation next := (step_betas g chi).
Definition after1 (bs : vec) (i : step) : vec := if has Schedule (rest g) then next i bs else bs.
Definition afters (is : list step) (bs : vec) : vec := fold_left after1 is bs.
Lemma after1_len i bs : len (after1 bs i) = len bs.
Proof. unfold after1. destruct (has _ _); [apply step_len|reflexivity]. Qed.
Lemma afters_len is : forall bs, len (afters is bs) = len bs.
Proof. unfold afters. induction is as [|i is IH]; intros bs; cbn; [reflexivity|]. rewrite IH. apply after1_len. Qed.
Lemma start_good bs : len bs = n -> ok bs (start chi schi (bs ++ [lambda])).
Proof.
  intros L. unfold start. constructor; cbn; try assumption; try reflexivity.
  - rewrite map_length, removelast_last. exact L.
  - unfold betas, cell. cbn. now rewrite removelast_last.
Qed.
Definition base : nat := 1.
(** everything after a number of iterations *)
Record story (bs : vec) (is : list step) (s : js) : Prop := {
  sy_good : ok (afters is bs) s;
  sy_heap : len (js_heap s) = S (len is);
  sy_cells : forall k, (k < len is)%nat -> nth (S k) (js_heap s) [] = afters (firstn (S k) is) bs;
  sy_saved : has Save (rest g) = true -> js_saved s = seq 1 (len is);
  sy_saved_d : has Save (rest g) = true -> js_saved_d s = map st_d is;
  sy_file : has Save (rest g) = true -> set_disk g = true -> len (js_file s) = len is /\
     forall k, (k < len is)%nat -> nth k (js_file s) ([], []) = (if before_save (rest g) then next (nth k is (mkStep 0 [] [] [] [])) (afters (firstn k is) bs) else afters (firstn k is) bs, st_d (nth k is (mkStep 0 [] [] [] [])));
  sy_stop : js_stop s = has Stopping (rest g) && existsb (settled_b g schi) is }.
Lemma afters_snoc is i bs : afters (is ++ [i]) bs = after1 (afters is bs) i.
Proof. unfold afters. rewrite fold_left_app. reflexivity. Qed.
Lemma firstn_snoc {A} (l : list A) x k : (k <= len l)%nat -> firstn k (l ++ [x]) = firstn k l.
Proof. intros H. rewrite firstn_app. replace (k - len l)%nat with 0%nat by lia. cbn. apply app_nil_r. Qed.
Lemma the_story is : Forall (shaped n) is -> forall bs, len bs = n -> exists s, run g (map Iteration is) (start chi schi (bs ++ [lambda])) = Ok s /\ story bs is s.
Proof.
  induction is as [|i is IH] using rev_ind; intros F bs L.
  - eexists. split; [reflexivity|]. constructor; try reflexivity; cbn; try (intros; lia); try (now rewrite andb_false_r).
    + apply start_good. exact L.
    + intros _ _. split; [reflexivity|]. intros k H. lia.
  - apply Forall_app in F. destruct F as [F Fi]. apply Forall_inv in Fi. destruct (IH F bs L) as (s & E & S). rewrite map_app, run_app, E. cbn [map bind run].
    destruct S as [Sg Sh Sc Ss Sd Sf St]. destruct (iteration g n G chi schi lambda Hlam i (afters is bs) s Fi Sg) as (s' & E' & [Dg Dp Dh Dph Dst Dsv Dsd Dfl]).
    exists s'. cbn [run]. cbn [run] in *. rewrite E'. split; [reflexivity|]. constructor.
    + rewrite afters_snoc. exact Dg.
    + rewrite Dh, !app_length, Sh. cbn. lia.
    + intros k H. rewrite app_length in H. cbn in H. rewrite Dh. destruct (Nat.eq_dec k (len is)) as [->|N].
      * rewrite <- Sh, nth_snoc, Sh. replace (S (len is)) with (len (is ++ [i])) by (rewrite app_length; cbn; lia). rewrite firstn_all, afters_snoc. reflexivity.
      * rewrite app_nth1 by lia. rewrite firstn_snoc by lia. apply Sc. lia.
    + intros H. rewrite Dsv, H, (Ss H), Sh, app_length. cbn [len]. rewrite Nat.add_1_r, seq_S. reflexivity.
    + intros H. rewrite Dsd, H, (Sd H), map_app. reflexivity.
    + intros H Hd. destruct (Sf H Hd) as [Lf Nf]. rewrite Dfl, H, Hd. cbn [andb]. split; [rewrite !app_length, Lf; reflexivity|]. intros k Hk. rewrite app_length in Hk. cbn in Hk. destruct (Nat.eq_dec k (len is)) as [->|N].
      * rewrite <- Lf at 1. rewrite nth_snoc. rewrite nth_snoc, firstn_snoc, firstn_all by lia. reflexivity.
      * rewrite !app_nth1 by lia. rewrite firstn_snoc by lia. apply Nf. lia.
    + rewrite Dst, St, existsb_app. cbn. rewrite orb_false_r. destruct (has Stopping (rest g)); [reflexivity|]. reflexivity.
Qed.
Lemma sched_nth bs k : (k < n)%nat -> len bs = n -> forall is, Forall (shaped n) is -> has Schedule (rest g) = true ->
  scheduled g (nth k (set_nD g) 0 * chi) (nth k bs 0) (values k is) (nth k (afters is bs) 0).
Proof.
  intros K L is. revert bs L. induction is as [|i is IH]; intros bs L F H; [constructor|]. pose proof (Forall_inv F) as [S1 S2]. pose proof (Forall_inv_tail F) as F'. pose proof G as (_ & _ & Ld & Fd & Ln & Fn & Tol & Fc & Rt).
  pose proof (IH (after1 bs i)) as IH'. rewrite after1_len in IH'. specialize (IH' L F' H). cbn [values map]. unfold afters in *. cbn [fold_left].
  destruct ((0 <? st_iter i) && (st_iter i mod set_rate g =? 0))%nat eqn:Q.
  - apply sch_due with (nth k (after1 bs i) 0); [apply due_iff; assumption| |exact IH'].
    unfold after1, step_betas. rewrite H, Q. rewrite cool_all_nth by (rewrite ?(len_t g n G chi); lia).
    unfold targets. rewrite (map_nth_lt (fun c => c * chi) (set_nD g) k 0) by lia. apply cool_rule; [|exact Tol]. apply Rmult_lt_0_compat; [|exact Hchi]. rewrite Forall_forall in Fn. apply Fn, nth_In. lia.
  - apply sch_wait; [intros D; apply (due_iff g (st_iter i) Rt) in D; congruence|]. replace (nth k bs 0) with (nth k (after1 bs i) 0); [exact IH'|]. unfold after1, step_betas. rewrite H, Q. reflexivity.
Qed.
Lemma settled_iff i : shaped n i -> settled_b g schi i = true <-> settled g schi i.
Proof.
  intros [S1 S2]. pose proof G as (_ & _ & Ld & Fd & Ln & Fn & Tol & Fc & Rt). unfold settled_b, settled. rewrite andb_true_iff, forallb_combine by (unfold stargets; rewrite map_length; lia). unfold stargets. rewrite map_length. cbn [fst snd].
  assert (A : (forall k, (k < len (set_nD g))%nat -> within (set_sbtol g) (nth k (st_d i) 0) (nth k (map (fun c => c * schi) (set_nD g)) 0) = true) <->
    (forall k, (k < len (set_nD g))%nat -> Rabs (1 - nth k (st_d i) 0 / (nth k (set_nD g) 0 * schi)) < set_sbtol g)).
  { split; intros H k K; specialize (H k K); unfold within in *; rewrite (map_nth_lt (fun c => c * schi) (set_nD g) k 0 K) in *; destruct (Rle_dec _ _); try discriminate; try lra; reflexivity. }
  rewrite A. clear A. unfold small_change, norm.
  destruct (Req_EM_T (sqrt (dot (st_last i) (st_last i))) 0) as [Z|Z].
  - destruct (Req_EM_T _ 0) as [Y|Y]; split; intros H; try (split; [apply H|]); try (split; intros; [assumption|contradiction]); try reflexivity; destruct H as (_ & H); [discriminate|]. exfalso. apply Y, H, Z.
  - destruct (Rlt_dec _ _) as [Y|Y]; split; intros H; try (split; [apply H|]); try reflexivity.
    + destruct H; discriminate.
    + destruct H as (_ & _ & H). specialize (H Z). lra.
    + split; intros Q; [contradiction|lra].
Qed.
End Runs.

Theorem schedule_run g n chi schi lambda bs is : proper g n -> In Schedule (set_dirs g) -> 0 < chi -> lambda <> 0 -> len bs = n -> Forall (shaped n) is ->
  exists s, run g (map Iteration is) (start chi schi (bs ++ [lambda])) = Ok s /\ js_mults s = betas s ++ [lambda] /\ len (betas s) = n /\
    forall k, (k < n)%nat -> scheduled g (nth k (set_nD g) 0 * chi) (nth k bs 0) (values k is) (nth k (betas s) 0).
Proof.
  intros G Is C Lm L F. destruct (the_story g n G chi schi lambda Lm is F bs L) as (s & E & S). exists s. split; [exact E|]. destruct (sy_good _ _ _ _ _ _ _ _ S) as [L' M _ _ _ _ _ B].
  assert (H : has Schedule (rest g) = true) by (apply has_iff; rewrite (dirs_eq g n G) in Is; destruct Is as [Q|Q]; [discriminate|exact Q]).
  rewrite B. split; [exact M|]. split; [exact L'|]. intros k K. exact (sched_nth g n G chi C bs k K L is F H).
Qed.
Theorem no_schedule_run g n chi schi lambda bs is : proper g n -> ~ In Schedule (set_dirs g) -> lambda <> 0 -> len bs = n -> Forall (shaped n) is ->
  exists s, run g (map Iteration is) (start chi schi (bs ++ [lambda])) = Ok s /\ js_mults s = bs ++ [lambda].
Proof.
  intros G Is Lm L F. destruct (the_story g n G chi schi lambda Lm is F bs L) as (s & E & S). exists s. split; [exact E|]. destruct (sy_good _ _ _ _ _ _ _ _ S) as [L' M _ _ _ _ _ B].
  rewrite M. f_equal. assert (H : has Schedule (rest g) = false). { destruct (has _ _) eqn:Q; [|reflexivity]. exfalso. apply Is. rewrite (dirs_eq g n G). right. apply has_iff. exact Q. }
  unfold afters. clear E S L' M B F L. revert bs. induction is as [|i is IH]; intros bs; cbn; [reflexivity|]. rewrite IH. unfold after1. rewrite H. reflexivity.
Qed.
Theorem stop_run g n chi schi lambda bs is : proper g n -> In Stopping (set_dirs g) -> lambda <> 0 -> len bs = n -> Forall (shaped n) is ->
  exists s, run g (map Iteration is) (start chi schi (bs ++ [lambda])) = Ok s /\ (js_stop s = true <-> Exists (settled g schi) is).
Proof.
  intros G Is Lm L F. destruct (the_story g n G chi schi lambda Lm is F bs L) as (s & E & S). exists s. split; [exact E|]. rewrite (sy_stop _ _ _ _ _ _ _ _ S).
  assert (H : has Stopping (rest g) = true) by (apply has_iff; rewrite (dirs_eq g n G) in Is; destruct Is as [Q|Q]; [discriminate|exact Q]). rewrite H. cbn. rewrite existsb_exists, Exists_exists. rewrite Forall_forall in F.
  split; intros (i & Hi & Q); exists i; (split; [exact Hi|]); apply (settled_iff g n G schi i (F i Hi)); exact Q.
Qed.
Theorem saved_run g n chi schi lambda bs is : proper g n -> In Save (set_dirs g) -> lambda <> 0 -> len bs = n -> Forall (shaped n) is ->
  exists s, run g (map Iteration is) (start chi schi (bs ++ [lambda])) = Ok s /\ len (js_saved s) = len is /\ js_saved_d s = map st_d is /\
    forall k, (k < len is)%nat -> exists sk, run g (map Iteration (firstn (S k) is)) (start chi schi (bs ++ [lambda])) = Ok sk /\ js_mults sk = saved_betas s k ++ [lambda].
Proof.
  intros G Is Lm L F. destruct (the_story g n G chi schi lambda Lm is F bs L) as (s & E & S). exists s. split; [exact E|].
  assert (H : has Save (rest g) = true) by (apply has_iff; rewrite (dirs_eq g n G) in Is; destruct Is as [Q|Q]; [discriminate|exact Q]).
  rewrite (sy_saved _ _ _ _ _ _ _ _ S H), seq_length. split; [reflexivity|]. split; [exact (sy_saved_d _ _ _ _ _ _ _ _ S H)|]. intros k K.
  assert (Fk : Forall (shaped n) (firstn (Datatypes.S k) is)) by (apply Forall_forall; intros x Hx; rewrite Forall_forall in F; apply F; rewrite <- (firstn_skipn (Datatypes.S k) is); apply in_or_app; left; exact Hx).
  destruct (the_story g n G chi schi lambda Lm _ Fk bs L) as (sk & Ek & Sk). exists sk. split; [exact Ek|]. rewrite (gd_mults _ _ _ _ _ _ _ (sy_good _ _ _ _ _ _ _ _ Sk)). f_equal.
  unfold saved_betas, cell. rewrite (sy_saved _ _ _ _ _ _ _ _ S H), seq_nth by exact K. change (1 + k)%nat with (Datatypes.S k). rewrite (sy_cells _ _ _ _ _ _ _ _ S k K). reflexivity.
Qed.
(** the file: the betas before or after the schedule, by the order of the two directives *)
Theorem file_run g n chi schi lambda bs is : proper g n -> In Save (set_dirs g) -> set_disk g = true -> lambda <> 0 -> len bs = n -> Forall (shaped n) is ->
  (exists a b c, set_dirs g = a ++ Save :: b ++ Schedule :: c) ->
  exists s, run g (map Iteration is) (start chi schi (bs ++ [lambda])) = Ok s /\ len (js_file s) = len is /\
    forall k, (k < len is)%nat -> snd (nth k (js_file s) ([], [])) = st_d (nth k is (mkStep 0 [] [] [] [])) /\ exists sk, run g (map Iteration (firstn k is)) (start chi schi (bs ++ [lambda])) = Ok sk /\ js_mults sk = fst (nth k (js_file s) ([], [])) ++ [lambda].
Proof.
  intros G Is Dk Lm L F Ord. destruct (the_story g n G chi schi lambda Lm is F bs L) as (s & E & S). exists s. split; [exact E|].
  assert (H : has Save (rest g) = true) by (apply has_iff; rewrite (dirs_eq g n G) in Is; destruct Is as [Q|Q]; [discriminate|exact Q]).
  destruct (sy_file _ _ _ _ _ _ _ _ S H Dk) as [Lf Nf]. split; [exact Lf|]. intros k K. rewrite (Nf k K). cbn [fst snd]. split; [reflexivity|].
  assert (Fk : Forall (shaped n) (firstn k is)) by (apply Forall_forall; intros x Hx; rewrite Forall_forall in F; apply F; rewrite <- (firstn_skipn k is); apply in_or_app; left; exact Hx).
  destruct (the_story g n G chi schi lambda Lm _ Fk bs L) as (sk & Ek & Sk). exists sk. split; [exact Ek|]. rewrite (gd_mults _ _ _ _ _ _ _ (sy_good _ _ _ _ _ _ _ _ Sk)). f_equal.
  assert (B : before_save (rest g) = false); [|rewrite B; reflexivity].
  destruct Ord as (a & b & c & Ed). pose proof G as (_ & Nd & _). rewrite (dirs_eq g n G) in Ed, Nd. destruct a as [|m a]; [discriminate|]. injection Ed as _ Er. rewrite Er in *. clear - Nd. inversion Nd as [|? ? _ N]; subst. clear Nd.
  assert (X : ~ In Schedule a). { intros Q. apply in_split in Q. destruct Q as (u & v & ->). rewrite <- app_assoc in N. cbn in N. apply NoDup_remove_2 in N. apply N. rewrite !in_app_iff. right. right. cbn. right. apply in_or_app. right. left. reflexivity. }
  clear N. induction a as [|x a IH]; [reflexivity|]. destruct x; cbn; try reflexivity; [apply IH|exfalso; apply X; left; reflexivity|apply IH]; intros Q; apply X; right; exact Q.
Qed.

(** ** The target is kept *)
Definition setc (x : R) (s : js) : js := mkJs (js_mults s) (js_heap s) (js_betas s) (js_lambd s) (js_phid s) (js_phim s) (js_sim s) (js_met s) x (js_target s) (js_schi s) (js_starget s) (js_stop s) (js_saved s) (js_saved_d s) (js_file s).
Definition rmap {A B} (f : A -> B) (r : result A) : result B := match r with Ok a => Ok (f a) | Err e => Err e end.
Lemma end_iter_setc g i x s d t : js_target s = Some t -> end_iter g i (setc x s) d = rmap (setc x) (end_iter g i s d) /\ forall s', end_iter g i s d = Ok s' -> js_target s' = Some t.
Proof.
  intros T. destruct d; cbn [end_iter]; unfold measure, schedule, stopping, save, setc, betas, cell; cbn [js_mults js_heap js_betas js_lambd js_phid js_phim js_sim js_met js_chi js_target js_schi js_starget js_stop js_saved js_saved_d js_file].
  - destruct (last_vals (js_mults s) (st_r i)); [split; [reflexivity|discriminate]|]. destruct (js_mults s) eqn:E; [split; [reflexivity|discriminate]|]. cbn. split; [reflexivity|]. intros s' [= <-]. exact T.
  - rewrite T. cbn [target_of]. repeat match goal with |- context [if ?b then Err _ else _] => destruct b; [split; [reflexivity|discriminate]|] end. match goal with |- context [if ?b then Ok _ else _] => destruct b; [|split; [reflexivity|discriminate]] end. cbn. split; [reflexivity|]. intros s' [= <-]. cbn. destruct (_ =? 0)%nat; reflexivity.
  - split; [reflexivity|]. intros s' [= <-]. exact T.
  - split; [reflexivity|]. intros s' [= <-]. exact T.
Qed.
Lemma end_iters_setc g i x t : forall ds s, js_target s = Some t -> end_iters g i ds (setc x s) = rmap (setc x) (end_iters g i ds s) /\ forall s', end_iters g i ds s = Ok s' -> js_target s' = Some t.
Proof.
  induction ds as [|d ds IH]; intros s T; [split; [reflexivity|intros s' [= <-]; exact T]|]. cbn. destruct (end_iter_setc g i x s d t T) as [E K]. rewrite E. destruct (end_iter g i s d) as [s1|]; cbn; [apply IH, K; reflexivity|split; [reflexivity|discriminate]].
Qed.
Lemma run_setc g x t : forall is s, js_target s = Some t -> run g (map Iteration is) (setc x s) = rmap (setc x) (run g (map Iteration is) s).
Proof.
  induction is as [|i is IH]; intros s T; [reflexivity|]. cbn. destruct (end_iters_setc g i x t (set_dirs g) s T) as [E K]. rewrite E. destruct (end_iters g i (set_dirs g) s) as [s1|]; cbn; [apply IH, K; reflexivity|reflexivity].
Qed.
Lemma target_kept g i : forall ds s s' t, end_iters g i ds s = Ok s' -> js_target s = Some t -> js_target s' = Some t.
Proof. intros ds s s' t E T. exact (proj2 (end_iters_setc g i 0 t ds s T) s' E). Qed.
Theorem target_ignored g n chi schi lambda bs i is is' x : proper g n -> (0 < n)%nat -> In Schedule (set_dirs g) -> lambda <> 0 -> len bs = n -> shaped n i -> Forall (shaped n) is -> Forall (shaped n) is' ->
  exists s s', run g (map Iteration (i :: is ++ is')) (start chi schi (bs ++ [lambda])) = Ok s /\ run g (map Iteration (i :: is) ++ SetChi x :: map Iteration is') (start chi schi (bs ++ [lambda])) = Ok s' /\ js_mults s' = js_mults s.
Proof.
  intros G Np Is Lm L Si F F'. assert (F1 : Forall (shaped n) (i :: is)) by (constructor; assumption). assert (F2 : Forall (shaped n) (i :: is ++ is')) by (constructor; [assumption|apply Forall_app; auto]).
  destruct (the_story g n G chi schi lambda Lm _ F1 bs L) as (s1 & E1 & S1). destruct (the_story g n G chi schi lambda Lm _ F2 bs L) as (s2 & E2 & S2). exists s2.
  change (i :: is ++ is') with ((i :: is) ++ is') in E2. rewrite map_app, run_app, E1 in E2. cbn [bind] in E2. change (run g (map Iteration is') s1 = Ok s2) in E2.
  assert (T : js_target s1 <> None).
  { clear E2 S2 S1 F2 F1. cbn [map run] in E1. destruct (happen g (Iteration i) (start chi schi (bs ++ [lambda]))) as [sa|] eqn:Ea; [|discriminate]. cbn in E1.
    assert (Ta : exists t, js_target sa = Some t).
    { cbn [happen] in Ea. apply in_split in Is. destruct Is as (u & v & Ed).
      destruct (measured g n G chi schi lambda Lm i bs _ Si (start_good g n chi schi lambda bs L)) as (sm & Em & Dm).
      pose proof G as (_ & Nd & _). rewrite Ed in Nd. pose proof (dirs_eq g n G) as Er. rewrite Ed in Er. destruct u as [|m u]; [discriminate|]. injection Er as Hm Er. subst m. rewrite Ed in Ea. cbn [app end_iters] in Ea. unfold end_iter in Ea at 1. rewrite Em in Ea. cbn [bind] in Ea.
      cbn in Nd. apply NoDup_cons_iff in Nd. destruct Nd as [Nm Nr].
      assert (Nu : NoDup u) by (clear - Nr; induction u as [|y u IH]; [constructor|]; cbn in Nr; inversion Nr; subst; constructor; [intros Q; apply H1, in_or_app; left; exact Q|apply IH; assumption]).
      destruct (all_dirs g n G chi schi lambda i bs (start chi schi (bs ++ [lambda])) Si L u [] sm Dm) as (su & Eu & Du); [intros Q; apply Nm, in_or_app; left; exact Q|exact Nu|].
      assert (App : forall a b s, end_iters g i (a ++ b) s = (do s' <- end_iters g i a s; end_iters g i b s')) by (induction a as [|y a IH]; intros b s; [reflexivity|]; cbn; destruct (end_iter g i s y); [apply IH|reflexivity]).
      rewrite App, Eu in Ea. cbn [bind end_iters] in Ea. change (end_iter g i su Schedule) with (schedule g i su) in Ea. destruct (schedule g i su) as [sv|] eqn:Ev; [|discriminate]. cbn [bind] in Ea.
      assert (Tv : exists t, js_target sv = Some t). { unfold schedule in Ev. destruct (_ && _ && _)%nat; [discriminate|]. destruct (_ && _ && _)%nat; [|discriminate]. injection Ev as <-. cbn. rewrite (du_phid _ _ _ _ _ _ _ _ _ _ Du). destruct Si as [Si _]. rewrite Si. destruct n; [lia|]. cbn. eexists. reflexivity. }
      destruct Tv as (t & Tv). exists t. exact (target_kept g i v sv sa t Ea Tv). }
    destruct Ta as (t & Ta). change (run g (map Iteration is) sa = Ok s1) in E1. clear - E1 Ta. revert sa Ta E1. induction is as [|j is IH]; intros sa Ta E1; [injection E1 as <-; congruence|]. cbn in E1. destruct (end_iters g j (set_dirs g) sa) as [sb|] eqn:Eb; [|discriminate]. cbn in E1. exact (IH sb (target_kept g j _ _ _ _ Eb Ta) E1). }
  destruct (js_target s1) as [t|] eqn:Et; [|contradiction]. exists (setc x s2). split; [|split; [|reflexivity]].
  - change (i :: is ++ is') with ((i :: is) ++ is'). rewrite map_app, run_app, E1. exact E2.
  - rewrite run_app, E1. cbn [bind run]. change (happen g (SetChi x) s1) with (Ok (setc x s1)). cbn [bind]. change (run g (map Iteration is') (setc x s1) = Ok (setc x s2)). rewrite (run_setc g x t is' s1 Et), E2. reflexivity.
Qed.
