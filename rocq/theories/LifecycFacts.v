(** Proofs about Lifecyc.v. *)
From Verif Require Import Py Lifecyc SpecLifecyc.

Lemma upd_length {A} (l : list A) i f : length (upd l i f) = length l.
Proof. revert i; induction l as [|x l IH]; intros [|i]; cbn; auto. Qed.
Lemma upd_same {A} (l : list A) i f : nth_error (upd l i f) i = option_map f (nth_error l i).
Proof. revert i; induction l as [|x l IH]; intros [|i]; cbn; auto. Qed.
Lemma upd_other {A} (l : list A) i j f : i <> j -> nth_error (upd l i f) j = nth_error l j.
Proof.
  revert i j; induction l as [|x l IH]; intros [|i] [|j] H; cbn; auto; try contradiction.
Qed.

Lemma inversion_of_fun w i ds p ds' p' :
  inversion_of w i ds p -> inversion_of w i ds' p' -> ds = ds' /\ p = p'.
Proof.
  intros (v & l & A & B & C & D) (v' & l' & A' & B' & C' & D').
  rewrite A in A'; injection A' as <-. rewrite B in B'; injection B' as <-.
  rewrite C in C'; injection C' as <-. subst. auto.
Qed.
Lemma inversion_of_ext w w' : w_lists w' = w_lists w -> w_probs w' = w_probs w -> w_invs w' = w_invs w ->
  forall i ds p, inversion_of w' i ds p <-> inversion_of w i ds p.
Proof. intros A B C i ds p. unfold inversion_of. rewrite A, B, C. tauto. Qed.

(** ** The invariant *)
Definition reg_src (tr : list event) (w : world) (k : nat) (d : dir) : Prop :=
  match fst (d_args d) with
  | Some o => exists o', d_reg d = Some o' /\ strip o' = strip o
  | None => match d_reg d with
            | None => True
            | Some o => exists e j ds p, In e tr /\ e_dir e = k /\ e_inv e = Some j /\
                          inversion_of w j ds p /\ strip o = strip (p_reg p)
            end
  end.
Definition mis_src (tr : list event) (w : world) (k : nat) (d : dir) : Prop :=
  match snd (d_args d) with
  | Some o => exists o', d_mis d = Some o' /\ strip o' = strip o
  | None => match d_mis d with
            | None => True
            | Some o => exists e j ds p, In e tr /\ e_dir e = k /\ e_inv e = Some j /\
                          inversion_of w j ds p /\ strip o = strip (p_mis p)
            end
  end.

Record Inv (tr : list event) (w : world) : Prop := mkI {
  I_lists : forall l, In l (w_lists w) -> forall k, In k (fst l) -> k < length (w_dirs w);
  I_probs : forall p, In p (w_probs w) -> is_combo (p_reg p) = true /\ is_combo (p_mis p) = true;
  I_invs : forall i, i < length (w_invs w) -> exists ds p, inversion_of w i ds p;
  I_take : forall i ds p k, inversion_of w i ds p -> In k ds ->
           exists d j ds' p', nth_error (w_dirs w) k = Some d /\ d_inv d = Some j /\ i <= j /\
                              inversion_of w j ds' p' /\ In k ds';
  I_some : forall k d j, nth_error (w_dirs w) k = Some d -> d_inv d = Some j ->
           exists ds p, inversion_of w j ds p;
  I_cb : forall i ds p, inversion_of w i ds p ->
         exists j ds' p', callback_of w (p_opt p) = Some j /\ i <= j /\
                          inversion_of w j ds' p' /\ p_opt p' = p_opt p;
  I_reg : forall k d, nth_error (w_dirs w) k = Some d -> reg_src tr w k d;
  I_mis : forall k d, nth_error (w_dirs w) k = Some d -> mis_src tr w k d }.

Lemma inv_lt w i ds p : inversion_of w i ds p -> i < length (w_invs w).
Proof. intros (v & l & A & _). apply nth_error_Some. congruence. Qed.

Lemma reg_src_mono tr tr' w w' k d : incl tr tr' ->
  (forall i ds p, inversion_of w i ds p -> exists ds', inversion_of w' i ds' p) ->
  reg_src tr w k d -> reg_src tr' w' k d.
Proof.
  intros HI HW H. unfold reg_src in *. destruct (fst (d_args d)); [assumption|].
  destruct (d_reg d); [|trivial]. destruct H as (e & j & ds & p & A & B & C & D & E).
  destruct (HW _ _ _ D) as [ds' D']. exists e, j, ds', p. auto.
Qed.
Lemma mis_src_mono tr tr' w w' k d : incl tr tr' ->
  (forall i ds p, inversion_of w i ds p -> exists ds', inversion_of w' i ds' p) ->
  mis_src tr w k d -> mis_src tr' w' k d.
Proof.
  intros HI HW H. unfold mis_src in *. destruct (snd (d_args d)); [assumption|].
  destruct (d_mis d); [|trivial]. destruct H as (e & j & ds & p & A & B & C & D & E).
  destruct (HW _ _ _ D) as [ds' D']. exists e, j, ds', p. auto.
Qed.

Lemma Inv_mono tr tr' w : incl tr tr' -> Inv tr w -> Inv tr' w.
Proof.
  intros HI [A B C D E F G H]. constructor; auto.
  - intros k d Hk. apply (reg_src_mono tr _ w); eauto.
  - intros k d Hk. apply (mis_src_mono tr _ w); eauto.
Qed.

Lemma Inv_w0 : Inv [] w0.
Proof.
  constructor; cbn.
  - tauto.
  - tauto.
  - intros; lia.
  - intros i ds p k H. apply inv_lt in H. cbn in H. lia.
  - intros [|k] d j H; discriminate.
  - intros i ds p H. apply inv_lt in H. cbn in H. lia.
  - intros [|k] d H; discriminate.
  - intros [|k] d H; discriminate.
Qed.

(** ** One call *)
Lemma strip_reg_value o o' : set_reg_value (Some o) = Ok (Some o') -> strip o' = strip o.
Proof. cbn. destruct (is_wls o || is_reg o || is_combo o); [|discriminate].
  intros H; injection H as <-. destruct (is_wls o); reflexivity. Qed.
Lemma strip_mis_value o o' : set_mis_value (Some o) = Ok (Some o') -> strip o' = strip o.
Proof. cbn. destruct (is_misfit o || is_combo o); [|discriminate].
  intros H; injection H as <-. destruct (is_combo o); reflexivity. Qed.
Lemma reg_value_ok o : is_combo o = true -> exists o', set_reg_value (Some o) = Ok (Some o').
Proof. intros H. cbn. rewrite H, Bool.orb_true_r. eauto. Qed.
Lemma mis_value_ok o : is_combo o = true -> exists o', set_mis_value (Some o) = Ok (Some o').
Proof. intros H. cbn. rewrite H, Bool.orb_true_r. eauto. Qed.

Lemma prob_of_ok w d i ds p : d_inv d = Some i -> inversion_of w i ds p -> prob_of w d = Ok p.
Proof. intros H (v & l & A & B & C & D). unfold prob_of. rewrite H, A, B. reflexivity. Qed.

Definition frame (w w' : world) : Prop :=
  w_lists w' = w_lists w /\ w_probs w' = w_probs w /\ w_invs w' = w_invs w /\ w_cb w' = w_cb w /\ w_ref w' = w_ref w.
Lemma frame_refl w : frame w w.
Proof. unfold frame; auto. Qed.
Lemma frame_trans a b c : frame a b -> frame b c -> frame a c.
Proof. intros (A&B&C&D&E) (A'&B'&C'&D'&E'). unfold frame. repeat split; congruence. Qed.
Lemma frame_inv w w' i ds p : frame w w' -> inversion_of w' i ds p <-> inversion_of w i ds p.
Proof. intros (A&B&C&_). now apply inversion_of_ext. Qed.
(** Directives keep their inversion and arguments. *)
Definition same_dirs (w w' : world) : Prop :=
  length (w_dirs w') = length (w_dirs w) /\
  forall k d, nth_error (w_dirs w) k = Some d ->
    exists d', nth_error (w_dirs w') k = Some d' /\ d_inv d' = d_inv d /\ d_args d' = d_args d.
Lemma same_dirs_refl w : same_dirs w w.
Proof. split; eauto. Qed.
Lemma same_dirs_trans a b c : same_dirs a b -> same_dirs b c -> same_dirs a c.
Proof.
  intros [L H] [L' H']. split; [congruence|]. intros k d Hk.
  destruct (H _ _ Hk) as (d1 & A & B & C). destruct (H' _ _ A) as (d2 & A' & B' & C').
  exists d2. repeat split; congruence.
Qed.

(** What a call sees. *)
Definition seen (w : world) (p : prob) (e : event) : Prop :=
  exists d, nth_error (w_dirs w) (e_dir e) = Some d /\ e_inv e = d_inv d.

Lemma call_dir_ok tr w k r i ds p : Inv tr w -> inversion_of w i ds p -> In k ds ->
  exists e w', call_dir w k r = Ok (e, w') /\ called e = (k, r) /\ Inv (tr ++ [e]) w' /\
    frame w w' /\ same_dirs w w' /\
    (exists d j ds' p', nth_error (w_dirs w) k = Some d /\ d_inv d = Some j /\ e_inv e = Some j /\
        inversion_of w j ds' p' /\
        ((forall e', In e' tr -> e_dir e' = k -> e_inv e' = Some j) ->
         sees (e_reg e) (wanted (fst (d_args d)) (p_reg p')) /\
         sees (e_mis e) (wanted (snd (d_args d)) (p_mis p')))).
Proof.
  intros HI Hi Hk.
  destruct (I_take _ _ HI _ _ _ _ Hi Hk) as (d & j & ds' & p' & Hd & Hj & Hle & Hij & Hin).
  pose proof (prob_of_ok _ _ _ _ _ Hj Hij) as HP.
  assert (Hpc : is_combo (p_reg p') = true /\ is_combo (p_mis p') = true).
  { apply (I_probs _ _ HI). destruct Hij as (v & l & _ & B & _). now apply nth_error_In in B. }
  destruct (reg_value_ok _ (proj1 Hpc)) as [rv Hrv].
  destruct (mis_value_ok _ (proj2 Hpc)) as [mv Hmv].
  pose proof (I_reg _ _ HI _ _ Hd) as Hsr. pose proof (I_mis _ _ HI _ _ Hd) as Hsm.
  (* the regularization *)
  assert (HR : exists x slot,
    (if fst (d_uses d r) then do x <- get_reg w d; Ok (Some (fst x), snd x) else Ok (None, d_reg d)) = Ok (x, slot) /\
    (slot = d_reg d \/ (d_reg d = None /\ slot = Some rv)) /\ (x = None \/ x = slot)).
  { destruct (fst (d_uses d r)).
    - unfold get_reg. destruct (d_reg d) as [o|] eqn:E.
      + cbn. exists (Some o), (Some o). auto.
      + rewrite HP. unfold bind at 2. rewrite Hrv. cbn. exists (Some rv), (Some rv). auto.
    - exists None, (d_reg d). auto. }
  assert (HM : exists x slot,
    (if snd (d_uses d r) then do x <- get_mis w d; Ok (Some (fst x), snd x) else Ok (None, d_mis d)) = Ok (x, slot) /\
    (slot = d_mis d \/ (d_mis d = None /\ slot = Some mv)) /\ (x = None \/ x = slot)).
  { destruct (snd (d_uses d r)).
    - unfold get_mis. destruct (d_mis d) as [o|] eqn:E.
      + cbn. exists (Some o), (Some o). auto.
      + rewrite HP. unfold bind at 2. rewrite Hmv. cbn. exists (Some mv), (Some mv). auto.
    - exists None, (d_mis d). auto. }
  destruct HR as (xr & sr & HR & HR1 & HR2). destruct HM as (xm & sm & HM & HM1 & HM2).
  set (e := mkEv k r (d_inv d) xr xm).
  set (d1 := mkDir (d_inv d) sr sm (d_uses d) (d_args d)).
  set (w' := with_dirs w (upd (w_dirs w) k (fun _ => d1))).
  exists e, w'.
  assert (HF : frame w w') by (unfold frame; auto).
  assert (HG : forall a b c, inversion_of w' a b c <-> inversion_of w a b c).
  { intros a b c. now apply frame_inv. }
  assert (Hk1 : nth_error (w_dirs w') k = Some d1).
  { unfold w'. cbn. rewrite upd_same, Hd. reflexivity. }
  assert (Hk2 : forall k', k' <> k -> nth_error (w_dirs w') k' = nth_error (w_dirs w) k').
  { intros k' H. unfold w'. cbn. apply upd_other. auto. }
  assert (HSD : same_dirs w w').
  { split; [unfold w'; cbn; apply upd_length|]. intros k' d' H.
    destruct (Nat.eq_dec k' k) as [->|Hn].
    - exists d1. rewrite Hd in H. injection H as <-. auto.
    - exists d'. rewrite Hk2; auto. }
  split; [|split; [reflexivity|split; [|split; [exact HF|split; [exact HSD|]]]]].
  - unfold call_dir. rewrite Hd, HR. unfold bind at 1. rewrite HM. unfold bind. reflexivity.
  - assert (Hinc : incl tr (tr ++ [e])) by (intros z Hz; apply in_or_app; auto).
    assert (Hine : In e (tr ++ [e])) by (apply in_or_app; right; left; reflexivity).
    constructor.
    + intros l Hl k' Hk'. unfold w'. cbn. rewrite upd_length. exact (I_lists _ _ HI l Hl k' Hk').
    + exact (I_probs _ _ HI).
    + intros a Ha. destruct (I_invs _ _ HI a Ha) as (b & c & H). exists b, c. now apply HG.
    + intros a b c k' Ha Hb. apply HG in Ha. destruct (I_take _ _ HI _ _ _ _ Ha Hb) as (d' & j' & ds2 & p2 & A & B & C & D & E').
      destruct (proj2 HSD _ _ A) as (d'' & A' & B' & _).
      exists d'', j', ds2, p2. split; [exact A'|]. split; [congruence|]. split; [exact C|]. split; [now apply HG|exact E'].
    + intros k' d' j' A B. destruct (Nat.eq_dec k' k) as [->|Hn].
      * rewrite Hk1 in A. injection A as <-. cbn in B. rewrite Hj in B. injection B as <-.
        exists ds', p'. now apply HG.
      * rewrite Hk2 in A by auto. destruct (I_some _ _ HI _ _ _ A B) as (b & c & H). exists b, c. now apply HG.
    + intros a b c Ha. apply HG in Ha. destruct (I_cb _ _ HI _ _ _ Ha) as (j' & b' & c' & A & B & C & D).
      exists j', b', c'. repeat split; try assumption; try (now apply HG).
    + intros k' d' A. destruct (Nat.eq_dec k' k) as [->|Hn].
      * rewrite Hk1 in A. injection A as <-.
        destruct HR1 as [Es|[En Es]].
        -- apply (reg_src_mono tr _ w); [exact Hinc|intros a b c H; exists b; now apply HG|].
           unfold reg_src in *. cbn. rewrite Es. exact Hsr.
        -- unfold reg_src in *. cbn. destruct (fst (d_args d)) as [o|].
           ++ destruct Hsr as (o' & X & _). congruence.
           ++ rewrite Es. exists e, j, ds', p'. repeat split; auto; first [now apply HG|now apply strip_reg_value].
      * rewrite Hk2 in A by auto.
        apply (reg_src_mono tr _ w); [exact Hinc|intros a b c H; exists b; now apply HG|]. exact (I_reg _ _ HI _ _ A).
    + intros k' d' A. destruct (Nat.eq_dec k' k) as [->|Hn].
      * rewrite Hk1 in A. injection A as <-.
        destruct HM1 as [Es|[En Es]].
        -- apply (mis_src_mono tr _ w); [exact Hinc|intros a b c H; exists b; now apply HG|].
           unfold mis_src in *. cbn. rewrite Es. exact Hsm.
        -- unfold mis_src in *. cbn. destruct (snd (d_args d)) as [o|].
           ++ destruct Hsm as (o' & X & _). congruence.
           ++ rewrite Es. exists e, j, ds', p'. repeat split; auto; first [now apply HG|now apply strip_mis_value].
      * rewrite Hk2 in A by auto.
        apply (mis_src_mono tr _ w); [exact Hinc|intros a b c H; exists b; now apply HG|]. exact (I_mis _ _ HI _ _ A).
  - exists d, j, ds', p'. split; [exact Hd|]. split; [exact Hj|]. split; [exact Hj|]. split; [exact Hij|].
    intros Hfresh.
    assert (HinvJ : forall e0 j0 ds0 p0, In e0 tr -> e_dir e0 = k -> e_inv e0 = Some j0 ->
       inversion_of w j0 ds0 p0 -> p0 = p').
    { intros e0 j0 ds0 p0 A B C D. rewrite (Hfresh e0 A B) in C. injection C as <-.
      exact (proj2 (inversion_of_fun _ _ _ _ _ _ D Hij)). }
    split.
    + cbn. destruct HR2 as [E2|E2]; rewrite E2; [exact I|]. unfold reg_src in Hsr.
      destruct HR1 as [Es|[En Es]].
      * subst sr. destruct (d_reg d) as [o|]; [|exact I]. cbn. destruct (fst (d_args d)) as [o1|]; cbn.
        -- destruct Hsr as (o' & X & Y). congruence.
        -- destruct Hsr as (e0 & j0 & ds0 & p0 & A & B & C & D & E). rewrite (HinvJ e0 j0 ds0 p0 A B C D) in E. exact E.
      * subst sr. rewrite En in Hsr. destruct (fst (d_args d)) as [o1|]; cbn; [destruct Hsr as (o' & X & _); discriminate|].
        now apply strip_reg_value.
    + cbn. destruct HM2 as [E2|E2]; rewrite E2; [exact I|]. unfold mis_src in Hsm.
      destruct HM1 as [Es|[En Es]].
      * subst sm. destruct (d_mis d) as [o|]; [|exact I]. cbn. destruct (snd (d_args d)) as [o1|]; cbn.
        -- destruct Hsm as (o' & X & Y). congruence.
        -- destruct Hsm as (e0 & j0 & ds0 & p0 & A & B & C & D & E). rewrite (HinvJ e0 j0 ds0 p0 A B C D) in E. exact E.
      * subst sm. rewrite En in Hsm. destruct (snd (d_args d)) as [o1|]; cbn; [destruct Hsm as (o' & X & _); discriminate|].
        now apply strip_mis_value.
Qed.

(** ** A whole list *)
(** Every directive of [i] belongs to [i] and has only been called by [i]. *)
Definition owned (tr : list event) (w : world) (i : nat) (ds : list nat) : Prop :=
  (forall k d, In k ds -> nth_error (w_dirs w) k = Some d -> d_inv d = Some i) /\
  (forall e, In e tr -> In (e_dir e) ds -> e_inv e = Some i).

Lemma call_list_ok i ds p r : forall ks tr w, Inv tr w -> inversion_of w i ds p -> incl ks ds ->
  exists evs w', call_list w ks r = (evs, w', None) /\ map called evs = map (fun k => (k, r)) ks /\
    Inv (tr ++ evs) w' /\ frame w w' /\ same_dirs w w' /\
    (owned tr w i ds -> Forall (works_on w i p) evs /\ owned (tr ++ evs) w' i ds).
Proof.
  induction ks as [|k ks IH]; intros tr w HI Hi Hks.
  - exists [], w. rewrite app_nil_r. cbn. repeat (split; auto using frame_refl, same_dirs_refl).
  - destruct (call_dir_ok tr w k r i ds p HI Hi (Hks k (or_introl eq_refl)))
      as (e & w1 & HC & Hcd & HI1 & HF1 & HS1 & Hsee).
    assert (Hi1 : inversion_of w1 i ds p) by (apply (frame_inv w); assumption).
    destruct (IH (tr ++ [e]) w1 HI1 Hi1 (fun x H => Hks x (or_intror H)))
      as (evs & w2 & HL & Hm & HI2 & HF2 & HS2 & Hown).
    exists (e :: evs), w2. cbn [call_list]. rewrite HC, HL.
    assert (Eapp : tr ++ e :: evs = (tr ++ [e]) ++ evs) by (rewrite <- app_assoc; reflexivity).
    split; [reflexivity|]. split; [cbn; rewrite Hcd, Hm; reflexivity|].
    split; [rewrite Eapp; exact HI2|]. split; [eapply frame_trans; eauto|].
    split; [eapply same_dirs_trans; eauto|].
    intros [Ho1 Ho2].
    destruct Hsee as (d & j & ds' & p' & Hd & Hj & He & Hij & Hs).
    assert (Hkds : In k ds) by (apply Hks; left; reflexivity).
    assert (j = i) by (specialize (Ho1 k d Hkds Hd); congruence). subst j.
    destruct (inversion_of_fun _ _ _ _ _ _ Hij Hi) as [-> ->].
    assert (Hedir : e_dir e = k) by (injection Hcd; auto).
    destruct (Hs (fun e' A B => Ho2 e' A ltac:(rewrite B; exact Hkds))) as [Hs1 Hs2].
    assert (Ho' : owned (tr ++ [e]) w1 i ds).
    { split.
      - intros k' d' A B.
        assert (k' < length (w_dirs w)) as Hlt.
        { rewrite <- (proj1 HS1). apply nth_error_Some. congruence. }
        apply nth_error_Some in Hlt. destruct (nth_error (w_dirs w) k') as [d0|] eqn:E0; [|contradiction].
        destruct (proj2 HS1 _ _ E0) as (d1 & X & Y & _). rewrite B in X. injection X as <-.
        rewrite Y. exact (Ho1 k' d0 A E0).
      - intros e' A B. apply in_app_or in A. destruct A as [A|[<-|[]]]; [auto|exact He]. }
    destruct (Hown Ho') as [Hf Ho2'].
    split; [|rewrite Eapp; exact Ho2'].
    constructor.
    + split; [exact He|]. exists d. rewrite Hedir. auto.
    + apply Forall_forall. intros e' H'. rewrite Forall_forall in Hf. destruct (Hf e' H') as (A & d' & B & C & D).
      split; [exact A|].
      assert (e_dir e' < length (w_dirs w)) as Hlt.
      { rewrite <- (proj1 HS1). apply nth_error_Some. congruence. }
      apply nth_error_Some in Hlt. destruct (nth_error (w_dirs w) (e_dir e')) as [d0|] eqn:E0; [|contradiction].
      destruct (proj2 HS1 _ _ E0) as (d1 & X & _ & Y). rewrite B in X. injection X as <-.
      exists d0. rewrite <- Y. auto.
Qed.

Lemma dirs_of_inv_ok w i ds p : inversion_of w i ds p -> dirs_of_inv w i = ds.
Proof. intros (v & l & A & B & C & D). unfold dirs_of_inv. rewrite A, C. now subst. Qed.

Lemma works_on_back w w' i p e : same_dirs w w' -> works_on w' i p e -> works_on w i p e.
Proof.
  intros HS (A & d' & B & C & D). split; [exact A|].
  assert (e_dir e < length (w_dirs w)) as Hlt.
  { rewrite <- (proj1 HS). apply nth_error_Some. congruence. }
  apply nth_error_Some in Hlt. destruct (nth_error (w_dirs w) (e_dir e)) as [d0|] eqn:E0; [|contradiction].
  destruct (proj2 HS _ _ E0) as (d1 & X & _ & Y). rewrite B in X. injection X as <-.
  exists d0. rewrite <- Y. auto.
Qed.

(** ** The loop *)
Lemma minimize_ok opt i ds p : forall sched tr w, Inv tr w -> inversion_of w i ds p ->
  callback_of w opt = Some i ->
  exists evs w', minimize w opt sched = (evs, w', raises sched) /\
    map called evs = concat (repeat (map (fun k => (k, EndIter)) ds) (steps sched)) /\
    Inv (tr ++ evs) w' /\ frame w w' /\ same_dirs w w' /\
    (owned tr w i ds -> Forall (works_on w i p) evs /\ owned (tr ++ evs) w' i ds).
Proof.
  induction sched as [|[| | | |e] sched IH]; intros tr w HI Hi Hcb; cbn [minimize raises steps];
    try (exists [], w; rewrite app_nil_r; cbn; repeat (split; auto using frame_refl, same_dirs_refl); fail).
  - destruct (call_list_ok i ds p EndIter ds tr w HI Hi (incl_refl _))
      as (evs & w1 & HL & Hm & HI1 & HF1 & HS1 & Hown).
    unfold end_iteration, call_inv. rewrite Hcb, (dirs_of_inv_ok _ _ _ _ Hi), HL.
    assert (Hi1 : inversion_of w1 i ds p) by (apply (frame_inv w); assumption).
    assert (Hcb1 : callback_of w1 opt = Some i).
    { unfold callback_of in *. destruct HF1 as (_&_&_&E&_). rewrite E. exact Hcb. }
    destruct (IH (tr ++ evs) w1 HI1 Hi1 Hcb1) as (evs2 & w2 & HL2 & Hm2 & HI2 & HF2 & HS2 & Hown2).
    rewrite HL2. exists (evs ++ evs2), w2. split; [reflexivity|].
    split; [rewrite map_app, Hm, Hm2; reflexivity|].
    rewrite app_assoc. split; [exact HI2|]. split; [eapply frame_trans; eauto|].
    split; [eapply same_dirs_trans; eauto|].
    intros Ho. destruct (Hown Ho) as [F1 O1]. destruct (Hown2 O1) as [F2 O2].
    split; [|exact O2]. apply Forall_app. split; [exact F1|].
    apply Forall_forall. intros x Hx. rewrite Forall_forall in F2. apply (works_on_back w w1); auto.
  - destruct (call_list_ok i ds p EndIter ds tr w HI Hi (incl_refl _))
      as (evs & w1 & HL & Hm & HI1 & HF1 & HS1 & Hown).
    unfold end_iteration, call_inv. rewrite Hcb, (dirs_of_inv_ok _ _ _ _ Hi), HL.
    exists evs, w1. cbn [repeat concat]. rewrite app_nil_r. auto 10.
Qed.

(** ** A whole run *)
Lemma startup_dirs w p m0 : w_dirs (startup w p m0) = w_dirs w.
Proof. unfold startup. destruct (ref_of w (p_reg p)); reflexivity. Qed.
Lemma startup_same w p m0 :
  w_lists (startup w p m0) = w_lists w /\ w_probs (startup w p m0) = w_probs w /\
  w_invs (startup w p m0) = w_invs w /\ w_cb (startup w p m0) = w_cb w.
Proof. unfold startup. destruct (ref_of w (p_reg p)); auto. Qed.
Lemma Inv_startup tr w p m0 : Inv tr w -> Inv tr (startup w p m0).
Proof.
  intros [A B C D E F G H]. unfold startup. destruct (ref_of w (p_reg p)); constructor; assumption.
Qed.


Definition calls2 (ds dsj : list nat) (sched : list pass) : list (nat * rule) :=
  map (fun d => (d, Initialize)) ds
  ++ concat (repeat (map (fun d => (d, EndIter)) dsj) (steps sched))
  ++ (match raises sched with None => map (fun d => (d, Finish)) ds | Some _ => [] end).

Lemma run_gen tr w i ds p j dsj pj m0 sched : Inv tr w -> inversion_of w i ds p ->
  callback_of w (p_opt p) = Some j -> inversion_of w j dsj pj ->
  exists evs w', run w i m0 sched = (evs, w', raises sched) /\
    map called evs = calls2 ds dsj sched /\ Inv (tr ++ evs) w' /\
    frame (startup w p m0) w' /\ same_dirs w w' /\
    (j = i -> owned tr w i ds -> Forall (works_on w i p) evs).
Proof.
  intros HI Hi Hcb Hj.
  pose proof (Inv_startup tr w p m0 HI) as HI0.
  destruct (startup_same w p m0) as (S1 & S2 & S3 & S4).
  pose proof (startup_dirs w p m0) as S5.
  set (w1 := startup w p m0) in *.
  assert (Hi1 : inversion_of w1 i ds p) by (apply (inversion_of_ext w w1 S1 S2 S3); assumption).
  assert (Hj1 : inversion_of w1 j dsj pj) by (apply (inversion_of_ext w w1 S1 S2 S3); assumption).
  assert (Hcb1 : callback_of w1 (p_opt p) = Some j) by (unfold callback_of in *; rewrite S4; exact Hcb).
  assert (SD1 : same_dirs w w1).
  { split; [now rewrite S5|]. intros k d Hk. exists d. rewrite S5. auto. }
  destruct (call_list_ok i ds p Initialize ds tr w1 HI0 Hi1 (incl_refl _))
    as (ev1 & w2 & L1 & M1 & I1 & F1 & D1 & O1).
  assert (Hi2 : inversion_of w2 i ds p) by (apply (frame_inv w1); assumption).
  assert (Hj2 : inversion_of w2 j dsj pj) by (apply (frame_inv w1); assumption).
  assert (Hcb2 : callback_of w2 (p_opt p) = Some j).
  { unfold callback_of in *. destruct F1 as (_&_&_&E&_). rewrite E. exact Hcb1. }
  destruct (minimize_ok (p_opt p) j dsj pj sched (tr ++ ev1) w2 I1 Hj2 Hcb2)
    as (ev2 & w3 & L2 & M2 & I2 & F2 & D2 & O2).
  assert (Hi3 : inversion_of w3 i ds p) by (apply (frame_inv w2); assumption).
  destruct (call_list_ok i ds p Finish ds ((tr ++ ev1) ++ ev2) w3 I2 Hi3 (incl_refl _))
    as (ev3 & w4 & L3 & M3 & I3 & F3 & D3 & O3).
  pose proof Hi as (v & l & A & B & C & D).
  unfold run. rewrite A, B. fold w1. unfold call_inv at 1. rewrite (dirs_of_inv_ok _ _ _ _ Hi1), L1, L2.
  unfold calls2. destruct (raises sched) as [e|] eqn:Er.
  - exists (ev1 ++ ev2), w3. split; [reflexivity|].
    split; [rewrite map_app, M1, M2, app_nil_r; reflexivity|].
    split; [rewrite app_assoc; exact I2|]. split; [eapply frame_trans; eauto|].
    split; [eauto using same_dirs_trans|].
    intros Eji Ho. subst j. destruct (inversion_of_fun _ _ _ _ _ _ Hj Hi) as [-> ->].
    assert (Ho1 : owned tr w1 i ds) by (unfold owned; rewrite S5; exact Ho).
    destruct (O1 Ho1) as [G1 Q1]. destruct (O2 Q1) as [G2 _].
    apply Forall_app. split; apply Forall_forall; intros x Hx.
    + rewrite Forall_forall in G1. apply (works_on_back w w1); auto.
    + rewrite Forall_forall in G2. apply (works_on_back w w2); eauto using same_dirs_trans.
  - unfold call_inv. rewrite (dirs_of_inv_ok _ _ _ _ Hi3), L3.
    exists (ev1 ++ ev2 ++ ev3), w4. split; [reflexivity|].
    split; [rewrite !map_app, M1, M2, M3; reflexivity|].
    split; [rewrite !app_assoc; exact I3|]. split; [eauto using frame_trans|].
    split; [eauto using same_dirs_trans|].
    intros Eji Ho. subst j. destruct (inversion_of_fun _ _ _ _ _ _ Hj Hi) as [-> ->].
    assert (Ho1 : owned tr w1 i ds) by (unfold owned; rewrite S5; exact Ho).
    destruct (O1 Ho1) as [G1 Q1]. destruct (O2 Q1) as [G2 Q2]. destruct (O3 Q2) as [G3 _].
    rewrite !Forall_app. repeat split; apply Forall_forall; intros x Hx.
    + rewrite Forall_forall in G1. apply (works_on_back w w1); auto.
    + rewrite Forall_forall in G2. apply (works_on_back w w2); eauto using same_dirs_trans.
    + rewrite Forall_forall in G3. apply (works_on_back w w3); eauto using same_dirs_trans.
Qed.

Lemma run_Inv tr w i m0 sched evs w' x : Inv tr w -> run w i m0 sched = (evs, w', x) ->
  Inv (tr ++ evs) w'.
Proof.
  intros HI HR.
  destruct (le_lt_dec (length (w_invs w)) i) as [Hge|Hlt].
  - unfold run in HR. rewrite (proj2 (nth_error_None _ _) Hge) in HR. injection HR as <- <- _.
    rewrite app_nil_r. exact HI.
  - destruct (I_invs _ _ HI i Hlt) as (ds & p & Hi).
    destruct (I_cb _ _ HI _ _ _ Hi) as (j & dsj & pj & Hcb & _ & Hj & _).
    destruct (run_gen tr w i ds p j dsj pj m0 sched HI Hi Hcb Hj) as (evs' & w'' & HR' & _ & HI' & _).
    rewrite HR in HR'. injection HR' as -> -> _. exact HI'.
Qed.

(** ** New objects *)
Lemma nth_app_l {A} (l l' : list A) i x : nth_error l i = Some x -> nth_error (l ++ l') i = Some x.
Proof. intros H. rewrite nth_error_app1; [exact H|]. apply nth_error_Some. congruence. Qed.
Lemma nth_snoc {A} (l : list A) x i y : nth_error (l ++ [x]) i = Some y ->
  (nth_error l i = Some y) \/ (i = length l /\ x = y).
Proof.
  intros H. destruct (lt_dec i (length l)) as [L|L].
  - rewrite nth_error_app1 in H by exact L. auto.
  - rewrite nth_error_app2 in H by lia. destruct (i - length l) eqn:E.
    + cbn in H. injection H as ->. right. split; [lia|reflexivity].
    + cbn in H. destruct n; discriminate.
Qed.

Lemma take_all_length ids i : forall ds, length (take_all ds ids i) = length ds.
Proof.
  unfold take_all. induction ids as [|k ids IH]; intros ds; cbn; [reflexivity|]. rewrite IH. apply upd_length.
Qed.
Lemma take_all_nth ids i : forall ds k d, nth_error ds k = Some d ->
  nth_error (take_all ds ids i) k = Some (if in_dec Nat.eq_dec k ids then take i d else d).
Proof.
  unfold take_all. induction ids as [|a ids IH]; intros ds k d H; cbn [fold_left].
  - destruct (in_dec Nat.eq_dec k []) as [[]|_]; exact H.
  - destruct (Nat.eq_dec a k) as [->|Hn].
    + rewrite (IH _ k (take i d)).
      * destruct (in_dec Nat.eq_dec k ids); destruct (in_dec Nat.eq_dec k (k :: ids)) as [_|N];
          try reflexivity; exfalso; apply N; left; reflexivity.
      * rewrite upd_same, H. reflexivity.
    + rewrite (IH _ k d) by (rewrite upd_other by exact Hn; exact H).
      destruct (in_dec Nat.eq_dec k ids) as [Y|N]; destruct (in_dec Nat.eq_dec k (a :: ids)) as [Y'|N']; try reflexivity.
      * exfalso. apply N'. right. exact Y.
      * destruct Y'; contradiction.
Qed.

Lemma new_inversion_Inv tr w pid dl : Inv tr w ->
  (forall ds, dl = inl ds -> forall k, In k ds -> k < length (w_dirs w)) ->
  Inv tr (new_inversion w pid dl).
Proof.
  intros HI Hdl. unfold new_inversion.
  destruct (nth_error (w_probs w) pid) as [p|] eqn:Ep; [|exact HI].
  set (lists := match dl with inl ds => w_lists w ++ [(ds, None)] | inr _ => w_lists w end).
  set (lid := match dl with inl _ => length (w_lists w) | inr l => l end).
  destruct (nth_error lists lid) as [l|] eqn:El; [|exact HI].
  set (n := length (w_invs w)).
  set (lists' := upd lists lid (fun l0 => (fst l0, Some n))).
  set (w' := mkW (take_all (w_dirs w) (fst l) n) lists' (w_probs w) (w_invs w ++ [mkInv lid pid])
                 ((p_opt p, n) :: w_cb w) (w_ref w)).
  assert (HL1 : forall a x, nth_error (w_lists w) a = Some x -> exists x', nth_error lists' a = Some x' /\ fst x' = fst x).
  { intros a x H. assert (H' : nth_error lists a = Some x).
    { unfold lists. destruct dl; [now apply nth_app_l|exact H]. }
    unfold lists'. destruct (Nat.eq_dec lid a) as [<-|Hn].
    - rewrite upd_same, H'. cbn. eauto.
    - rewrite upd_other by exact Hn. eauto. }
  assert (Hnew : inversion_of w' n (fst l) p).
  { exists (mkInv lid pid), (fst l, Some n). cbn. repeat split.
    - unfold n. rewrite nth_error_app2 by lia. rewrite Nat.sub_diag. reflexivity.
    - exact Ep.
    - unfold lists'. rewrite upd_same, El. reflexivity. }
  assert (Hold : forall a ds q, inversion_of w a ds q -> inversion_of w' a ds q).
  { intros a ds q (v & x & A & B & C & D). destruct (HL1 _ _ C) as (x' & C' & D').
    exists v, x'. cbn. repeat split; [now apply nth_app_l|exact B|exact C'|congruence]. }
  assert (Hcase : forall a ds q, inversion_of w' a ds q -> inversion_of w a ds q \/ (a = n /\ ds = fst l /\ q = p)).
  { intros a ds q H. destruct (lt_dec a n) as [La|La].
    - destruct (I_invs _ _ HI a La) as (ds0 & q0 & H0).
      destruct (inversion_of_fun _ _ _ _ _ _ H (Hold _ _ _ H0)) as [-> ->]. auto.
    - right. pose proof (inv_lt _ _ _ _ H) as Hl. cbn in Hl. rewrite app_length in Hl. cbn in Hl.
      assert (a = n) by (unfold n in *; lia). subst a.
      destruct (inversion_of_fun _ _ _ _ _ _ H Hnew) as [-> ->]. auto. }
  assert (Hlin : forall x, In x lists -> forall k, In k (fst x) -> k < length (w_dirs w)).
  { intros x Hx k Hk. unfold lists in Hx. destruct dl as [ds|b].
    - apply in_app_or in Hx. destruct Hx as [Hx|[<-|[]]]; [exact (I_lists _ _ HI x Hx k Hk)|].
      exact (Hdl ds eq_refl k Hk).
    - exact (I_lists _ _ HI x Hx k Hk). }
  assert (HD : forall k d, nth_error (w_dirs w') k = Some d ->
     exists d0, nth_error (w_dirs w) k = Some d0 /\ d = if in_dec Nat.eq_dec k (fst l) then take n d0 else d0).
  { intros k d H. assert (Hk : k < length (w_dirs w)).
    { rewrite <- (take_all_length (fst l) n). apply nth_error_Some. cbn in H. congruence. }
    apply nth_error_Some in Hk. destruct (nth_error (w_dirs w) k) as [d0|] eqn:E0; [|contradiction].
    exists d0. split; [reflexivity|]. cbn in H. rewrite (take_all_nth _ _ _ _ _ E0) in H. congruence. }
  constructor.
  - intros x Hx k Hk. cbn. rewrite take_all_length. cbn in Hx. unfold lists' in Hx.
    apply In_nth_error in Hx. destruct Hx as [a Ha].
    destruct (Nat.eq_dec lid a) as [E|Hn].
    + subst a. rewrite upd_same, El in Ha. cbn in Ha. injection Ha as <-. cbn in Hk.
      apply (Hlin l); [now apply nth_error_In in El|exact Hk].
    + rewrite upd_other in Ha by exact Hn. apply (Hlin x); [now apply nth_error_In in Ha|exact Hk].
  - exact (I_probs _ _ HI).
  - intros a Ha. cbn in Ha. rewrite app_length in Ha. cbn in Ha.
    destruct (lt_dec a n) as [La|La].
    + destruct (I_invs _ _ HI a La) as (b & c & H). eauto.
    + assert (a = n) by (unfold n in *; lia). subst a. eauto.
  - intros a ds q k Ha Hk. destruct (Hcase _ _ _ Ha) as [H0|(-> & -> & ->)].
    + destruct (I_take _ _ HI _ _ _ _ H0 Hk) as (d & j & ds' & p' & A & B & C & D & E).
      cbn [w_dirs w']. rewrite (take_all_nth _ _ _ _ _ A).
      destruct (in_dec Nat.eq_dec k (fst l)) as [Y|N].
      * exists (take n d), n, (fst l), p. repeat split; auto. pose proof (inv_lt _ _ _ _ H0). unfold n. lia.
      * exists d, j, ds', p'. auto 10.
    + assert (Hlt : k < length (w_dirs w)).
      { apply (Hlin l); [now apply nth_error_In in El|exact Hk]. }
      apply nth_error_Some in Hlt. destruct (nth_error (w_dirs w) k) as [d|] eqn:E0; [|contradiction].
      exists (take n d), n, (fst l), p. cbn [w_dirs w']. rewrite (take_all_nth _ _ _ _ _ E0).
      destruct (in_dec Nat.eq_dec k (fst l)) as [Y|N]; [|contradiction]. auto 10.
  - intros k d j A B. destruct (HD _ _ A) as (d0 & E0 & ->).
    destruct (in_dec Nat.eq_dec k (fst l)) as [Y|N].
    + cbn in B. injection B as <-. eauto.
    + destruct (I_some _ _ HI _ _ _ E0 B) as (b & c & H). eauto.
  - intros a ds q Ha. unfold callback_of. cbn [w_cb w' find fst snd].
    destruct (Nat.eqb (p_opt p) (p_opt q)) eqn:E.
    + apply Nat.eqb_eq in E. exists n, (fst l), p. repeat split; auto.
      pose proof (inv_lt _ _ _ _ Ha) as Hl. cbn in Hl. rewrite app_length in Hl. cbn in Hl. unfold n. lia.
    + destruct (Hcase _ _ _ Ha) as [H0|(-> & -> & ->)]; [|rewrite Nat.eqb_refl in E; discriminate].
      destruct (I_cb _ _ HI _ _ _ H0) as (j & b & c & A & B & C & D). exists j, b, c. auto.
  - intros k d A. destruct (HD _ _ A) as (d0 & E0 & ->).
    apply (reg_src_mono tr tr w w'); [apply incl_refl|intros a b c H; exists b; auto|].
    pose proof (I_reg _ _ HI _ _ E0) as H. destruct (in_dec Nat.eq_dec k (fst l)); exact H.
  - intros k d A. destruct (HD _ _ A) as (d0 & E0 & ->).
    apply (mis_src_mono tr tr w w'); [apply incl_refl|intros a b c H; exists b; auto|].
    pose proof (I_mis _ _ HI _ _ E0) as H. destruct (in_dec Nat.eq_dec k (fst l)); exact H.
Qed.

Lemma step_Inv tr w o evs w' : Inv tr w -> step w o = (evs, w') -> Inv (tr ++ evs) w'.
Proof.
  intros HI H. destruct o as [rg ms u|ds|rg ms op|pid dl|i m0 sched]; cbn -[Nat.ltb forallb] in H.
  - destruct (set_mis_value ms) as [m'|] eqn:Em; [|injection H as <- <-; rewrite app_nil_r; exact HI].
    destruct (set_reg_value rg) as [r'|] eqn:Er; injection H as <- <-; rewrite app_nil_r; [|exact HI].
    set (d1 := mkDir None r' m' u (rg, ms)).
    destruct HI as [A B C D E F G K]. constructor.
    + intros l Hl k Hk. cbn. rewrite app_length. specialize (A l Hl k Hk). lia.
    + exact B.
    + exact C.
    + intros a b c k Ha Hk. destruct (D a b c k Ha Hk) as (d & j & b' & c' & X & Y & Z).
      exists d, j, b', c'. cbn. split; [now apply nth_app_l|]. auto.
    + intros k d j Hk Hj. cbn in Hk. apply nth_snoc in Hk. destruct Hk as [Hk|[_ <-]]; [eauto|discriminate].
    + exact F.
    + intros k d Hk. cbn in Hk. apply nth_snoc in Hk. destruct Hk as [Hk|[_ <-]].
      * exact (G k d Hk).
      * unfold reg_src. cbn. destruct rg as [o|].
        -- destruct r' as [o'|]; [|cbn in Er; destruct (is_wls o || is_reg o || is_combo o); discriminate].
           exists o'. split; [reflexivity|]. now apply strip_reg_value.
        -- cbn in Er. injection Er as <-. exact I.
    + intros k d Hk. cbn in Hk. apply nth_snoc in Hk. destruct Hk as [Hk|[_ <-]].
      * exact (K k d Hk).
      * unfold mis_src. cbn. destruct ms as [o|].
        -- destruct m' as [o'|]; [|cbn in Em; destruct (is_misfit o || is_combo o); discriminate].
           exists o'. split; [reflexivity|]. now apply strip_mis_value.
        -- cbn in Em. injection Em as <-. exact I.
  - destruct (forallb (fun k => Nat.ltb k (length (w_dirs w))) ds) eqn:Ef; injection H as <- <-; rewrite app_nil_r; [|exact HI].
    set (w' := mkW _ _ _ _ _ _).
    assert (Hold : forall a b c, inversion_of w a b c -> inversion_of w' a b c).
    { intros a b c (v & x & X1 & X2 & X3 & X4). exists v, x. cbn. repeat split; auto. now apply nth_app_l. }
    assert (Hback : forall a b c, inversion_of w' a b c -> inversion_of w a b c).
    { intros a b c Ha. pose proof (inv_lt _ _ _ _ Ha) as Hl. cbn in Hl.
      destruct (I_invs _ _ HI a Hl) as (b0 & c0 & H0).
      destruct (inversion_of_fun _ _ _ _ _ _ Ha (Hold _ _ _ H0)) as [-> ->]. exact H0. }
    destruct HI as [A B C D E F G K]. constructor.
    + intros l Hl k Hk. cbn in Hl. apply in_app_or in Hl. destruct Hl as [Hl|[<-|[]]]; [exact (A l Hl k Hk)|].
      rewrite forallb_forall in Ef. apply Nat.ltb_lt. exact (Ef k Hk).
    + exact B.
    + intros a Ha. destruct (C a Ha) as (b & c & X). eauto.
    + intros a b c k Ha Hk. apply Hback in Ha. destruct (D a b c k Ha Hk) as (d & j & b' & c' & X & Y & Z & V & U).
      exists d, j, b', c'. auto 10.
    + intros k d j X Y. destruct (E k d j X Y) as (b & c & Z). eauto.
    + intros a b c Ha. apply Hback in Ha. destruct (F a b c Ha) as (j & b' & c' & X & Y & Z & V).
      exists j, b', c'. auto.
    + intros k d X. apply (reg_src_mono tr tr w w'); [apply incl_refl|intros; eauto|exact (G k d X)].
    + intros k d X. apply (mis_src_mono tr tr w w'); [apply incl_refl|intros; eauto|exact (K k d X)].
  - destruct ((is_wls rg || is_reg rg || is_combo rg) && (is_misfit ms || is_combo ms)) eqn:Ef;
      injection H as <- <-; rewrite app_nil_r; [|exact HI].
    set (w' := mkW _ _ _ _ _ _).
    assert (Hold : forall a b c, inversion_of w a b c -> inversion_of w' a b c).
    { intros a b c (v & x & X1 & X2 & X3 & X4). exists v, x. cbn. repeat split; auto. now apply nth_app_l. }
    assert (Hback : forall a b c, inversion_of w' a b c -> inversion_of w a b c).
    { intros a b c Ha. pose proof (inv_lt _ _ _ _ Ha) as Hl. cbn in Hl.
      destruct (I_invs _ _ HI a Hl) as (b0 & c0 & H0).
      destruct (inversion_of_fun _ _ _ _ _ _ Ha (Hold _ _ _ H0)) as [-> ->]. exact H0. }
    destruct HI as [A B C D E F G K]. constructor.
    + exact A.
    + intros q Hq. cbn in Hq. apply in_app_or in Hq. destruct Hq as [Hq|[<-|[]]]; [exact (B q Hq)|].
      cbn. unfold prob_value. split.
      * destruct (is_combo rg) eqn:X; [exact X|reflexivity].
      * destruct (is_combo ms) eqn:X; [exact X|reflexivity].
    + intros a Ha. destruct (C a Ha) as (b & c & X). eauto.
    + intros a b c k Ha Hk. apply Hback in Ha. destruct (D a b c k Ha Hk) as (d & j & b' & c' & X & Y & Z & V & U).
      exists d, j, b', c'. auto 10.
    + intros k d j X Y. destruct (E k d j X Y) as (b & c & Z). eauto.
    + intros a b c Ha. apply Hback in Ha. destruct (F a b c Ha) as (j & b' & c' & X & Y & Z & V).
      exists j, b', c'. auto.
    + intros k d X. apply (reg_src_mono tr tr w w'); [apply incl_refl|intros; eauto|exact (G k d X)].
    + intros k d X. apply (mis_src_mono tr tr w w'); [apply incl_refl|intros; eauto|exact (K k d X)].
  - injection H as <- <-. rewrite app_nil_r. destruct dl as [ds|b].
    + destruct (forallb (fun k => Nat.ltb k (length (w_dirs w))) ds) eqn:Ef; [|exact HI].
      apply new_inversion_Inv; [exact HI|]. intros ds' X k Hk. injection X as <-.
      rewrite forallb_forall in Ef. apply Nat.ltb_lt. exact (Ef k Hk).
    + apply new_inversion_Inv; [exact HI|]. intros ds' X. discriminate.
  - destruct (run w i m0 sched) as [[evs0 w0'] x] eqn:ER. injection H as <- <-. eapply run_Inv; eauto.
Qed.

Lemma exec_Inv ops : forall tr w evs w', Inv tr w -> exec w ops = (evs, w') -> Inv (tr ++ evs) w'.
Proof.
  induction ops as [|o ops IH]; intros tr w evs w' HI H; cbn in H.
  - injection H as <- <-. rewrite app_nil_r. exact HI.
  - destruct (step w o) as [e1 w1] eqn:E1. destruct (exec w1 ops) as [e2 w2] eqn:E2. injection H as <- <-.
    rewrite app_assoc. eapply IH; [|exact E2]. eapply step_Inv; eauto.
Qed.

(** ** The property *)
Lemma calls_ok h tr w i ds p m0 sched : exec w0 h = (tr, w) -> inversion_of w i ds p -> own_opt w i ->
  exists evs w', run w i m0 sched = (evs, w', raises sched) /\ map called evs = calls ds sched.
Proof.
  intros HE Hi Ho. pose proof (exec_Inv h [] w0 tr w Inv_w0 HE) as HI. cbn in HI.
  destruct (I_cb _ _ HI _ _ _ Hi) as (j & dsj & pj & Hcb & Hle & Hj & Hop).
  assert (j = i).
  { destruct (Nat.eq_dec i j); [congruence|]. exfalso. apply (Ho j ds p dsj pj); auto; lia. }
  subst j.
  destruct (run_gen tr w i ds p i dsj pj m0 sched HI Hi Hcb Hj) as (evs & w' & A & B & _).
  destruct (inversion_of_fun _ _ _ _ _ _ Hj Hi) as [-> ->]. exists evs, w'. auto.
Qed.

Lemma works_ok h tr w i ds p m0 sched evs w' x : exec w0 h = (tr, w) -> inversion_of w i ds p ->
  own_opt w i -> own_directives w i -> fresh_directives tr w i ->
  run w i m0 sched = (evs, w', x) -> Forall (works_on w i p) evs.
Proof.
  intros HE Hi Ho Hd Hf HR. pose proof (exec_Inv h [] w0 tr w Inv_w0 HE) as HI. cbn in HI.
  destruct (I_cb _ _ HI _ _ _ Hi) as (j & dsj & pj & Hcb & Hle & Hj & Hop).
  assert (j = i).
  { destruct (Nat.eq_dec i j); [congruence|]. exfalso. apply (Ho j ds p dsj pj); auto; lia. }
  subst j.
  destruct (run_gen tr w i ds p i dsj pj m0 sched HI Hi Hcb Hj) as (evs1 & w1 & A & _ & _ & _ & _ & B).
  rewrite HR in A. injection A as -> -> _. apply B; [reflexivity|].
  split.
  - intros k d Hk Hkd. destruct (I_take _ _ HI _ _ _ _ Hi Hk) as (d' & j & ds' & p' & X & Y & Z & U & V).
    rewrite X in Hkd. injection Hkd as <-. destruct (Nat.eq_dec i j); [congruence|].
    exfalso. apply (Hd j ds p ds' p' k); auto. lia.
  - intros e He1 He2. exact (Hf ds p e Hi He1 He2).
Qed.

(** ** Reference models *)
Lemma ref_of_cons w o m r : w_ref w = (o, m) :: r -> ref_of w o = Some m.
Proof. intros H. unfold ref_of. rewrite H. cbn -[obj_eq_dec]. destruct (obj_eq_dec o o); [reflexivity|contradiction]. Qed.
Lemma startup_ref w p m0 : ref_of (startup w p m0) (p_reg p) =
  match ref_of w (p_reg p) with Some m => Some m | None => Some m0 end.
Proof.
  unfold startup. destruct (ref_of w (p_reg p)) as [m|] eqn:E; [exact E|].
  eapply ref_of_cons. reflexivity.
Qed.
Lemma startup_ref_keep w p m0 o m : ref_of w o = Some m -> ref_of (startup w p m0) o = Some m.
Proof.
  intros H. unfold startup. destruct (ref_of w (p_reg p)) as [m'|] eqn:E; [exact H|].
  unfold ref_of. cbn -[obj_eq_dec]. destruct (obj_eq_dec (p_reg p) o) as [<-|N]; [congruence|]. exact H.
Qed.
Lemma frame_ref w w' o : frame w w' -> ref_of w' o = ref_of w o.
Proof. intros (_&_&_&_&E). unfold ref_of. rewrite E. reflexivity. Qed.

Lemma ref_first h tr w i ds p m0 sched evs w' x : exec w0 h = (tr, w) -> inversion_of w i ds p ->
  run w i m0 sched = (evs, w', x) ->
  ref_of w' (p_reg p) = Some (match ref_of w (p_reg p) with Some m => m | None => m0 end).
Proof.
  intros HE Hi HR. pose proof (exec_Inv h [] w0 tr w Inv_w0 HE) as HI. cbn in HI.
  destruct (I_cb _ _ HI _ _ _ Hi) as (j & dsj & pj & Hcb & Hle & Hj & Hop).
  destruct (run_gen tr w i ds p j dsj pj m0 sched HI Hi Hcb Hj) as (evs1 & w1 & A & _ & _ & F & _).
  rewrite HR in A. injection A as -> -> _. rewrite (frame_ref _ _ _ F), startup_ref.
  destruct (ref_of w (p_reg p)); reflexivity.
Qed.

Lemma step_ref tr w o evs w' r m : Inv tr w -> step w o = (evs, w') -> ref_of w r = Some m -> ref_of w' r = Some m.
Proof.
  intros HI H HR. destruct o as [rg ms u|ds|rg ms op|pid dl|i m0 sched]; cbn -[Nat.ltb forallb] in H.
  - destruct (set_mis_value ms); [|injection H as <- <-; exact HR].
    destruct (set_reg_value rg); injection H as <- <-; exact HR.
  - destruct (forallb _ ds); injection H as <- <-; exact HR.
  - destruct (_ && _); injection H as <- <-; exact HR.
  - injection H as <- <-.
    assert (forall w, ref_of w r = Some m -> ref_of (new_inversion w pid dl) r = Some m) as K.
    { intros v Hv. unfold new_inversion. destruct (nth_error (w_probs v) pid); [|exact Hv].
      destruct (nth_error _ _); exact Hv. }
    destruct dl as [ds|b]; [destruct (forallb _ ds)|]; auto.
  - destruct (run w i m0 sched) as [[e1 w1] x] eqn:ER. injection H as <- <-.
    destruct (le_lt_dec (length (w_invs w)) i) as [Hge|Hlt].
    + unfold run in ER. rewrite (proj2 (nth_error_None _ _) Hge) in ER. injection ER as <- <- _. exact HR.
    + destruct (I_invs _ _ HI i Hlt) as (ds & p & Hi).
      destruct (I_cb _ _ HI _ _ _ Hi) as (j & dsj & pj & Hcb & _ & Hj & _).
      destruct (run_gen tr w i ds p j dsj pj m0 sched HI Hi Hcb Hj) as (evs' & w'' & HR' & _ & _ & F & _).
      rewrite ER in HR'. injection HR' as -> -> _. rewrite (frame_ref _ _ _ F). now apply startup_ref_keep.
Qed.
Lemma exec_ref ops : forall tr w evs w' r m, Inv tr w -> exec w ops = (evs, w') -> ref_of w r = Some m -> ref_of w' r = Some m.
Proof.
  induction ops as [|o ops IH]; intros tr w evs w' r m HI H HR; cbn in H.
  - injection H as <- <-. exact HR.
  - destruct (step w o) as [e1 w1] eqn:E1. destruct (exec w1 ops) as [e2 w2] eqn:E2. injection H as <- <-.
    eapply (IH (tr ++ e1)); [eapply step_Inv; eauto|exact E2|]. eapply step_ref; eauto.
Qed.
Lemma ref_kept h tr w h' tr' w' r m : exec w0 h = (tr, w) -> exec w h' = (tr', w') ->
  ref_of w r = Some m -> ref_of w' r = Some m.
Proof.
  intros HE HE'. pose proof (exec_Inv h [] w0 tr w Inv_w0 HE) as HI. cbn in HI. eapply exec_ref; eauto.
Qed.

(** ** Counterexamples *)
Lemma inversion_of_bound w i ds p : inversion_of w i ds p -> i < length (w_invs w).
Proof. apply inv_lt. Qed.

Lemma reused_refuted : ~ (forall h tr w i ds p m0 sched evs w' x, exec w0 h = (tr, w) ->
  inversion_of w i ds p -> own_opt w i -> own_directives w i ->
  run w i m0 sched = (evs, w', x) -> Forall (works_on w i p) evs).
Proof.
  intros H.
  pose (w := ltac:(let v := eval vm_compute in (snd (exec w0 reuse_directive)) in exact v)).
  assert (E : exec w0 reuse_directive = (fst (exec w0 reuse_directive), w)) by (vm_compute; reflexivity).
  pose (r := ltac:(let v := eval vm_compute in (run w 1 0 []) in exact v)).
  assert (R : run w 1 0 [] = (fst (fst r), snd (fst r), snd r)) by (vm_compute; reflexivity).
  pose proof (fun a b c => H reuse_directive _ w 1 [0] (mkProb (Wls 2) (Combo1 (Misfit 2)) 1) 0 [] a b c E) as H1. clear H E.
  assert (A : Forall (works_on w 1 (mkProb (Wls 2) (Combo1 (Misfit 2)) 1))
                (fst (fst r))).
  { apply (fun X Y Z => H1 _ _ _ X Y Z R); clear H1 R.
    - exists (mkInv 1 1), ([0], Some 1). auto.
    - intros j a b c d Hj _ Hi. apply inv_lt in Hi. cbn in Hi. lia.
    - intros j a b c d e Hj _ Hi. apply inv_lt in Hi. cbn in Hi. lia. }
  unfold r, w in A; cbn in A. apply Forall_inv in A. destruct A as (_ & d & Hd & Hr & _).
  cbn in Hd. injection Hd as <-. cbn in Hr. discriminate.
Qed.

Lemma shared_opt_refuted : ~ (forall h tr w i ds p m0 sched evs w' x, exec w0 h = (tr, w) ->
  inversion_of w i ds p -> own_directives w i -> fresh_directives tr w i ->
  run w i m0 sched = (evs, w', x) -> map called evs = calls ds sched).
Proof.
  intros H.
  pose (w := ltac:(let v := eval vm_compute in (snd (exec w0 share_opt)) in exact v)).
  assert (E : exec w0 share_opt = (fst (exec w0 share_opt), w)) by (vm_compute; reflexivity).
  pose (r := ltac:(let v := eval vm_compute in (run w 0 0 [Step]) in exact v)).
  assert (R : run w 0 0 [Step] = (fst (fst r), snd (fst r), snd r)) by (vm_compute; reflexivity).
  pose proof (fun a b c => H share_opt _ w 0 [0] (mkProb (Wls 1) (Combo1 (Misfit 1)) 0) 0 [Step] a b c E) as H1. clear H E.
  assert (A : map called (fst (fst r)) = calls [0] [Step]).
  { apply (fun X Y Z => H1 _ _ _ X Y Z R); clear H1 R.
    - exists (mkInv 0 0), ([0], Some 0). auto.
    - intros j a b c d e Hj Ha Hi Hin.
      assert (j = 1) by (apply inv_lt in Hi; cbn in Hi; lia). subst j.
      destruct Ha as (v & l & X & _ & Y & ->). cbn in X. injection X as <-. cbn in Y. injection Y as <-.
      destruct Hi as (v' & l' & X' & _ & Y' & ->). cbn in X'. injection X' as <-. cbn in Y'. injection Y' as <-.
      cbn in *. intuition lia.
    - intros a b e _ Hin; vm_compute in Hin; contradiction. }
  unfold r, w in A; cbn in A. discriminate.
Qed.

Lemma shared_directive_refuted : ~ (forall h tr w i ds p m0 sched evs w' x, exec w0 h = (tr, w) ->
  inversion_of w i ds p -> own_opt w i -> fresh_directives tr w i ->
  run w i m0 sched = (evs, w', x) -> Forall (works_on w i p) evs).
Proof.
  intros H.
  pose (w := ltac:(let v := eval vm_compute in (snd (exec w0 share_directive)) in exact v)).
  assert (E : exec w0 share_directive = (fst (exec w0 share_directive), w)) by (vm_compute; reflexivity).
  pose (r := ltac:(let v := eval vm_compute in (run w 0 0 []) in exact v)).
  assert (R : run w 0 0 [] = (fst (fst r), snd (fst r), snd r)) by (vm_compute; reflexivity).
  pose proof (fun a b c => H share_directive _ w 0 [0] (mkProb (Wls 1) (Combo1 (Misfit 1)) 0) 0 [] a b c E) as H1. clear H E.
  assert (A : Forall (works_on w 0 (mkProb (Wls 1) (Combo1 (Misfit 1)) 0))
                (fst (fst r))).
  { apply (fun X Y Z => H1 _ _ _ X Y Z R); clear H1 R.
    - exists (mkInv 0 0), ([0], Some 0). auto.
    - intros j a b c d Hj Ha Hi.
      assert (j = 1) by (apply inv_lt in Hi; cbn in Hi; lia). subst j.
      destruct Ha as (v & l & X & Z & Y & ->). cbn in X. injection X as <-. cbn in Z. injection Z as <-.
      destruct Hi as (v' & l' & X' & Z' & Y' & ->). cbn in X'. injection X' as <-. cbn in Z'. injection Z' as <-.
      cbn. discriminate.
    - intros a b e _ Hin; vm_compute in Hin; contradiction. }
  unfold r, w in A; cbn in A. apply Forall_inv in A. destruct A as (A & _). cbn in A. discriminate.
Qed.

Lemma reference_refuted : ~ (forall h tr w i ds p m0 sched evs w' x, exec w0 h = (tr, w) ->
  inversion_of w i ds p -> run w i m0 sched = (evs, w', x) -> ref_of w' (p_reg p) = Some m0).
Proof.
  intros H.
  pose (w := ltac:(let v := eval vm_compute in (snd (exec w0 (two_inversions ++ [Run 0 5 [Step]]))) in exact v)).
  assert (E : exec w0 (two_inversions ++ [Run 0 5 [Step]]) = (fst (exec w0 (two_inversions ++ [Run 0 5 [Step]])), w)) by (vm_compute; reflexivity).
  pose (r := ltac:(let v := eval vm_compute in (run w 0 7 []) in exact v)).
  assert (R : run w 0 7 [] = (fst (fst r), snd (fst r), snd r)) by (vm_compute; reflexivity).
  pose proof (fun a b c => H (two_inversions ++ [Run 0 5 [Step]]) _ w 0 [0] (mkProb (Wls 1) (Combo1 (Misfit 1)) 0) 7 [] a b c E) as H1. clear H E.
  assert (A : ref_of (snd (fst r)) (Wls 1) = Some 7).
  { apply (fun X => H1 _ _ _ X R); clear H1 R. exists (mkInv 0 0), ([0], Some 0). auto. }
  unfold r, w in A; vm_compute in A. discriminate.
Qed.
