(** Proofs about stored fields. *)
From Coq Require Import ZArith String FinFun.
From Verif Require Import Py Survey SpecSurvey SurveyFacts Validators FieldsM SpecFields.

Definition sget {V} n (d : list (string * V)) := dict_get String.eqb n d.
Lemma sget_set_eq {V} n (v : V) d : sget n (dict_set String.eqb n v d) = Some v.
Proof. apply (dict_get_set_eq _ String.eqb_eq). Qed.
Lemma sget_set_neq {V} n n' (v : V) d : n' <> n -> sget n' (dict_set String.eqb n v d) = sget n' d.
Proof. apply (dict_get_set_neq _ String.eqb_eq). Qed.

(** ** Columns of sources *)
Definition owners (l : list src) : list nat := flat_map (fun s => repeat (src_id s) (src_nf s)) l.
Lemma owners_length l : length (owners l) = n_fields l.
Proof.
  unfold n_fields. rewrite list_sum_nat_eq. induction l as [|s l IH]; cbn; [reflexivity|]. rewrite app_length, repeat_length. fold (owners l). rewrite IH. reflexivity.
Qed.
Lemma owners_prefix_length l : length (owners l) = list_sum (map src_nf l).
Proof. rewrite owners_length. unfold n_fields. apply list_sum_nat_eq. Qed.
Lemma in_split_src l k : In k (map src_id l) -> exists l1 s l2, l = l1 ++ s :: l2 /\ src_id s = k.
Proof. intros H. apply in_map_iff in H as (s & <- & Hs). apply in_split in Hs as (l1 & l2 & ->). eauto. Qed.
Lemma indices_one l k ind : valid_src_list l = true -> get_source_indices l [k] = Ok ind ->
  NoDup ind /\ Forall (fun i => nth_error (owners l) i = Some k) ind.
Proof.
  intros Hv H. destruct (in_dec Nat.eq_dec k (map src_id l)) as [Hk|Hk].
  2:{ rewrite source_indices_unknown in H; [discriminate|]. exists k. split; [left; reflexivity|assumption]. }
  destruct (in_split_src l k Hk) as (l1 & s & l2 & El & <-).
  rewrite (source_indices_block l l1 s l2 Hv El) in H. injection H as <-. split; [apply seq_NoDup|].
  apply Forall_forall. intros i Hi. apply in_seq in Hi. rewrite El. unfold owners. rewrite flat_map_app. cbn [flat_map].
  fold (owners l1). fold (owners l2). pose proof (owners_prefix_length l1) as L.
  rewrite nth_error_app2 by lia. rewrite nth_error_app1 by (rewrite repeat_length; lia).
  rewrite nth_error_repeat by lia. reflexivity.
Qed.
Lemma indices_cons l k ks ind : get_source_indices l (k :: ks) = Ok ind ->
  exists a b, get_source_indices l [k] = Ok a /\ get_source_indices l ks = Ok b /\ ind = a ++ b.
Proof.
  change (k :: ks) with ([k] ++ ks). rewrite source_indices_app. destruct (get_source_indices l [k]) as [a|]; [|discriminate].
  cbn [bind]. destruct (get_source_indices l ks) as [b|]; [|discriminate]. cbn [bind]. intros [= <-]. eauto.
Qed.
Lemma indices_owner l ks ind i : valid_src_list l = true -> get_source_indices l ks = Ok ind -> In i ind ->
  exists k, In k ks /\ nth_error (owners l) i = Some k.
Proof.
  intros Hv. revert ind; induction ks as [|k ks IH]; intros ind H Hi.
  - injection H as <-. destruct Hi.
  - apply indices_cons in H as (a & b & Ha & Hb & ->). apply in_app_iff in Hi as [Hi|Hi].
    + destruct (indices_one l k a Hv Ha) as [_ HF]. rewrite Forall_forall in HF. exists k. split; [left; reflexivity|auto].
    + destruct (IH b Hb Hi) as (k' & Hk & E). exists k'. split; [right; assumption|assumption].
Qed.
Lemma indices_range l ks ind : valid_src_list l = true -> get_source_indices l ks = Ok ind -> Forall (fun i => i < n_fields l) ind.
Proof.
  intros Hv H. apply Forall_forall. intros i Hi. destruct (indices_owner l ks ind i Hv H Hi) as (k & _ & E).
  rewrite <- owners_length. apply nth_error_Some. congruence.
Qed.
Lemma nodup_app_disjoint {T} (a b : list T) : NoDup a -> NoDup b -> (forall x, In x a -> ~ In x b) -> NoDup (a ++ b).
Proof.
  intros Ha Hb Hd. induction Ha as [|x a Hx Ha IH]; cbn; [assumption|]. constructor.
  - rewrite in_app_iff. intros [H|H]; [contradiction|]. apply (Hd x); [left; reflexivity|assumption].
  - apply IH. intros y Hy. apply Hd. right; assumption.
Qed.
Lemma indices_disjoint l ks ks' ind ind' : valid_src_list l = true -> get_source_indices l ks = Ok ind -> get_source_indices l ks' = Ok ind' ->
  (forall k, In k ks -> ~ In k ks') -> disjoint ind ind'.
Proof.
  intros Hv H H' Hd i Hi Hi'. destruct (indices_owner l ks ind i Hv H Hi) as (k & Hk & E). destruct (indices_owner l ks' ind' i Hv H' Hi') as (k' & Hk' & E').
  rewrite E in E'. injection E' as <-. apply (Hd k); assumption.
Qed.
Lemma indices_nodup l ks ind : valid_src_list l = true -> get_source_indices l ks = Ok ind -> NoDup ks -> NoDup ind.
Proof.
  intros Hv H Hn. revert ind H; induction Hn as [|k ks Hk Hn IH]; intros ind H; [injection H as <-; constructor|].
  apply indices_cons in H as (a & b & Ha & Hb & ->). destruct (indices_one l k a Hv Ha) as [Na _].
  apply nodup_app_disjoint; [assumption|apply IH; assumption|].
  apply (indices_disjoint l [k] ks a b Hv Ha Hb). intros k' [<-|[]]. assumption.
Qed.
Lemma slice_pos_nodup a b n : NoDup (slice_pos a b n).
Proof. apply NoDup_filter, seq_NoDup. Qed.
Lemma slice_pos_range a b n : Forall (fun i => i < n) (slice_pos a b n).
Proof. apply Forall_forall. intros i Hi. apply filter_In in Hi as [Hi _]. apply in_seq in Hi. lia. Qed.
Lemma in_slice_pos a b n i : In i (slice_pos a b n) <-> a <= i < b /\ i < n.
Proof. unfold slice_pos. rewrite filter_In, in_seq, andb_true_iff, Nat.leb_le, Nat.ltb_lt. lia. Qed.

Section Fields.
  Context {A : Type} (zero : A).
  Notation col := (list A).
  Notation fconf := (@fconf A).

  Lemma src_index_range (c : fconf) k ind : valid_src_list (c_srcs c) = true -> src_index c k = Ok ind -> Forall (fun i => i < n_fields (c_srcs c)) ind.
  Proof.
    destruct k as [l|a b]; cbn; intros Hv H; [apply (indices_range _ l); assumption|]. injection H as <-. apply slice_pos_range.
  Qed.
  (** ** Broadcasting *)
  Lemma expand_fit np (v w : col) : expand np v = Some w <-> fit np v w.
  Proof.
    unfold expand. split.
    - destruct (Nat.eqb_spec (length v) np); [intros [= <-]; constructor; assumption|]. destruct v as [|x [|]]; try discriminate. intros [= <-]. constructor.
    - intros H. destruct H as [v Hv|x]; [rewrite Hv, Nat.eqb_refl; reflexivity|]. cbn [length]. destruct (Nat.eqb_spec 1 np) as [<-|]; reflexivity.
  Qed.
  Lemma fit_length np (v w : col) : fit np v w -> length w = np.
  Proof. intros []; [assumption|apply repeat_length]. Qed.
  Lemma expands_fit np (cs ws : list col) : expands np cs = Some ws <-> Forall2 (fit np) cs ws.
  Proof.
    revert ws; induction cs as [|v cs IH]; intros ws; cbn.
    - split; [intros [= <-]; constructor|intros H; inversion H; reflexivity].
    - destruct (expand np v) as [w|] eqn:E; [|split; [discriminate|intros H; inversion H as [|? ? ? ? F]; subst; apply expand_fit in F; congruence]].
      destruct (expands np cs) as [ws'|] eqn:E'.
      + split.
        * intros [= <-]. constructor; [apply expand_fit; assumption|apply IH; reflexivity].
        * intros H. inversion H as [|? ? ? ? F1 F2]; subst. apply expand_fit in F1. apply IH in F2. congruence.
      + split; [discriminate|]. intros H. inversion H as [|? ? ? ? F1 F2]; subst. apply IH in F2. congruence.
  Qed.
  Lemma F2_length {X Y} (P : X -> Y -> Prop) a b : Forall2 P a b -> length a = length b.
  Proof. induction 1; cbn; congruence. Qed.
  Lemma forall_repeat' {T} (P : T -> Prop) x n : P x -> Forall P (repeat x n).
  Proof. intros H. induction n; cbn; auto. Qed.
  Lemma flat_test np nf : 0 < np -> Nat.eqb (np * nf) np = Nat.eqb nf 1.
  Proof. intros H. destruct (Nat.eqb_spec nf 1) as [->|N]; [apply Nat.eqb_eq; lia|]. apply Nat.eqb_neq. intros E. apply N. nia. Qed.
  Lemma bcast_spreads nf np m (v : @fval A) ws : 0 < np -> (bcast np m (flat1 np nf v) = Some ws <-> spreads nf np m v ws).
  Proof.
    intros Hp.
    assert (G : forall v w, option_map (fun w' : col => repeat w' m) (expand np v) = Some w <-> exists u, fit np v u /\ w = repeat u m).
    { intros u w. destruct (expand np u) as [u'|] eqn:E; cbn.
      - apply expand_fit in E. split; [intros [= <-]; eauto|]. intros (u2 & F & ->). apply expand_fit in E, F. congruence.
      - split; [discriminate|]. intros (u2 & F & _). apply expand_fit in F. congruence. }
    destruct v as [x|v|cs]; cbn [flat1].
    - cbn. split; [intros [= <-]; constructor|intros H; inversion H; reflexivity].
    - cbn [bcast]. rewrite G. split; [intros (u & F & ->); constructor; assumption|intros H; inversion H; subst; eauto].
    - rewrite flat_test by assumption. destruct (Nat.eqb_spec nf 1) as [->|Hn]; cbn [bcast].
      + rewrite G. split; [intros (u & F & ->); apply sp_stack; auto|]. intros H; inversion H; subst; try congruence. eauto.
      + destruct (Nat.eqb_spec (length cs) m) as [Hm|Hm].
        * rewrite expands_fit. split; [intros F; apply sp_cols; assumption|]. intros H; inversion H; subst; try congruence; try assumption.
          cbn. constructor; [assumption|constructor].
        * destruct cs as [|v [|v' cs]].
          -- split; [discriminate|]. intros H; inversion H; subst; congruence.
          -- rewrite G. split; [intros (u & F & ->); apply sp_col; assumption|]. intros H; inversion H; subst; try congruence. eauto.
          -- split; [discriminate|]. intros H; inversion H; subst; congruence.
  Qed.
  Lemma spreads_length nf np m (v : @fval A) ws : spreads nf np m v ws -> length ws = m /\ Forall (fun w : col => length w = np) ws.
  Proof.
    intros H; destruct H; rewrite ?repeat_length.
    - split; [reflexivity|]. apply forall_repeat', repeat_length.
    - split; [reflexivity|]. apply forall_repeat'. eapply fit_length; eassumption.
    - split; [rewrite <- H0; symmetry; eapply F2_length; eassumption|]. clear - H1. induction H1; constructor; [eapply fit_length; eassumption|assumption].
    - split; [reflexivity|]. apply forall_repeat'. eapply fit_length; eassumption.
    - split; [reflexivity|]. apply forall_repeat'. eapply fit_length; eassumption.
  Qed.
  (** ** Updating columns *)
  Lemma upd_col_length i w (f : list col) : length (upd_col i w f) = length f.
  Proof. revert i; induction f as [|x f IH]; intros [|i]; cbn; auto. Qed.
  Lemma nth_upd_col i j w (f : list col) : i < length f -> nth j (upd_col i w f) [] = if Nat.eqb i j then w else nth j f [].
  Proof. revert i j; induction f as [|x f IH]; intros i j H; cbn in H; [lia|]. destruct i, j; cbn; try reflexivity. apply IH. lia. Qed.
  Lemma upd_col_forall np i w (f : list col) : length w = np -> Forall (fun v => length v = np) f -> Forall (fun v => length v = np) (upd_col i w f).
  Proof. intros Hw HF. revert i. induction HF; intros [|i]; cbn; auto. Qed.
  Lemma set_cols_spec ind ws : forall f : list col, Forall (fun i => i < length f) ind ->
    length (set_cols f ind ws) = length f /\ (forall i, ~ In i ind -> nth i (set_cols f ind ws) [] = nth i f []) /\
    (NoDup ind -> length ws = length ind -> take_cols (set_cols f ind ws) ind = ws) /\
    (forall np, Forall (fun v => length v = np) ws -> Forall (fun v => length v = np) f -> Forall (fun v => length v = np) (set_cols f ind ws)).
  Proof.
    revert ws; induction ind as [|i ind IH]; intros ws f HF.
    - cbn. split; [reflexivity|]. split; [reflexivity|]. split; [|auto]. intros _ H. destruct ws; [reflexivity|discriminate].
    - inversion HF; subst. destruct ws as [|w ws].
      + cbn. split; [reflexivity|]. split; [reflexivity|]. split; [intros _ H; discriminate|auto].
      + change (set_cols f (i :: ind) (w :: ws)) with (set_cols (upd_col i w f) ind ws).
        destruct (IH ws (upd_col i w f)) as (L & N & T & W); [rewrite upd_col_length; assumption|]. rewrite upd_col_length in L.
        split; [assumption|]. split; [|split].
        * intros j Hj. rewrite N by (intros Hin; apply Hj; right; assumption). rewrite nth_upd_col by assumption.
          destruct (Nat.eqb_spec i j); [exfalso; apply Hj; left; assumption|reflexivity].
        * intros ND Lw. inversion ND; subst. cbn [take_cols map]. f_equal.
          -- rewrite N by assumption. rewrite nth_upd_col, Nat.eqb_refl by assumption. reflexivity.
          -- apply T; [assumption|cbn in Lw; congruence].
        * intros np Hw Hf. inversion Hw; subst. apply W; [assumption|]. apply upd_col_forall; auto.
  Qed.
  Lemma take_cols_disjoint (f g : list col) ind ind' ws : g = set_cols f ind' ws -> Forall (fun i => i < length f) ind' -> disjoint ind ind' -> take_cols g ind = take_cols f ind.
  Proof. intros -> HF Hd. unfold take_cols. apply map_ext_in. intros i Hi. apply set_cols_spec; auto. Qed.

  (** ** Well-formed stores *)
  Definition wfs (c : fconf) (s : @fstore A) : Prop := forall n f, sget n s = Some f ->
    exists np, known c n = Some np /\ length f = n_fields (c_srcs c) /\ Forall (fun v => length v = np) f.
  Lemma init_store_cases c s n : wfs c s -> match init_store zero c s n with
    | Err e => e = AssertionError /\ known c n = None
    | Ok (s1, f, np) => known c n = Some np /\ sget n s1 = Some f /\ wfs c s1 /\ length f = n_fields (c_srcs c) /\ Forall (fun v => length v = np) f /\
        (sget n s = Some f \/ sget n s = None /\ f = repeat (repeat zero np) (n_fields (c_srcs c))) /\ forall n', n' <> n -> sget n' s1 = sget n' s
    end.
  Proof.
    intros Hw. unfold init_store. destruct (known c n) as [np|] eqn:Ek; [|auto].
    fold (sget n s). destruct (sget n s) as [f|] eqn:Es.
    - destruct (Hw n f Es) as (np' & E & L & F). rewrite Ek in E. injection E as <-. split; [reflexivity|]. split; [assumption|]. split; [assumption|].
      split; [assumption|]. split; [assumption|]. split; [left; reflexivity|]. reflexivity.
    - assert (FR : Forall (fun v : col => length v = np) (repeat (repeat zero np) (n_fields (c_srcs c)))) by (apply forall_repeat', repeat_length).
      split; [reflexivity|]. split; [apply sget_set_eq|]. split; [|split; [apply repeat_length|split; [exact FR|split; [right; auto|intros n' Hn; apply sget_set_neq; assumption]]]].
      intros n' f' H. destruct (string_dec n' n) as [->|N]; [|rewrite sget_set_neq in H by assumption; apply Hw; assumption].
      rewrite sget_set_eq in H. injection H as <-. exists np. split; [assumption|]. split; [apply repeat_length|exact FR].
  Qed.
  Lemma known_pos c n np : good_conf (A:=A) c -> known c n = Some np -> 0 < np.
  Proof. intros (_ & HF & _) H. unfold known in H. apply (dict_get_in _ String.eqb_eq) in H. rewrite Forall_forall in HF. apply (HF (n, np)). exact H. Qed.
  (** One write: either the value fits and the store is updated, or nothing but the
      creation of the store happens. *)
  Lemma set_one_cases c s n ind v : good_conf c -> wfs c s -> Forall (fun i => i < n_fields (c_srcs c)) ind ->
    (known c n = None /\ set_one zero c s n ind v = (s, Some AssertionError)) \/
    exists np s1 f, known c n = Some np /\ sget n s1 = Some f /\ wfs c s1 /\ length f = n_fields (c_srcs c) /\ Forall (fun v => length v = np) f /\
        (sget n s = Some f \/ sget n s = None /\ f = repeat (repeat zero np) (n_fields (c_srcs c))) /\ (forall n', n' <> n -> sget n' s1 = sget n' s) /\
        ((exists ws, spreads (n_fields (c_srcs c)) np (length ind) v ws /\ set_one zero c s n ind v = (dict_set String.eqb n (set_cols f ind ws) s1, None)) \/
         (forall ws, ~ spreads (n_fields (c_srcs c)) np (length ind) v ws) /\ set_one zero c s n ind v = (s1, Some ValueError)).
  Proof.
    intros Hc Hw Hi. unfold set_one. pose proof (init_store_cases c s n Hw) as H. destruct (init_store zero c s n) as [[[s1 f] np]|e].
    2:{ left. destruct H as [-> H]. auto. }
    right. destruct H as (Hk & Hg & Hw1 & L & F & C & O). exists np, s1, f. repeat (split; [assumption|]).
    pose proof (known_pos c n np Hc Hk) as Hp. rewrite L.
    destruct (bcast np (length ind) (flat1 np (n_fields (c_srcs c)) v)) as [ws|] eqn:E.
    - left. exists ws. split; [apply bcast_spreads; assumption|reflexivity].
    - right. split; [|reflexivity]. intros ws H. apply bcast_spreads in H; [congruence|assumption].
  Qed.
  Lemma set_one_wf c s n ind v : good_conf c -> Forall (fun i => i < n_fields (c_srcs c)) ind -> wfs c s -> wfs c (fst (set_one zero c s n ind v)).
  Proof.
    intros Hc Hi Hw. destruct (set_one_cases c s n ind v Hc Hw Hi) as [[_ ->]|(np & s1 & f & Hk & Hg & Hw1 & L & F & _ & _ & [(ws & Hs & ->)|[_ ->]])]; try assumption.
    cbn [fst]. intros n' f' H. destruct (string_dec n' n) as [->|N]; [|rewrite sget_set_neq in H by assumption; apply Hw1; assumption].
    rewrite sget_set_eq in H. injection H as <-. exists np. apply spreads_length in Hs as [Lw Fw]. rewrite <- L in Hi.
    destruct (set_cols_spec ind ws f Hi) as (L' & _ & _ & W). split; [assumption|]. split; [congruence|]. apply W; assumption.
  Qed.
  Lemma set_many_wf c ind vs : good_conf c -> Forall (fun i => i < n_fields (c_srcs c)) ind -> forall s, wfs c s -> wfs c (fst (set_many zero c s ind vs)).
  Proof.
    intros Hc Hi. induction vs as [|[n v] vs IH]; intros s Hw; cbn [set_many]; [assumption|].
    pose proof (set_one_wf c s n ind v Hc Hi Hw) as H. destruct (set_one zero c s n ind v) as [s1 [e|]]; [exact H|apply IH; exact H].
  Qed.
  Lemma fset_wf c s k n v : good_conf c -> wfs c s -> wfs c (fst (fset zero c s k n v)).
  Proof.
    intros Hc Hw. unfold fset. destruct (known c n); [|assumption]. destruct (src_index c k) as [ind|] eqn:E; [|assumption].
    apply set_many_wf; [assumption| |assumption]. eapply src_index_range; [apply Hc|eassumption].
  Qed.
  Lemma frun_wf c ws : good_conf c -> forall s, wfs c s -> wfs c (frun zero c s ws).
  Proof. intros Hc. induction ws as [|w ws IH]; intros s Hw; [assumption|]. cbn [frun fold_left]. apply IH. apply fset_wf; assumption. Qed.
  Lemma wfs_nil c : wfs c [].
  Proof. intros n f H. discriminate. Qed.

  (** ** History *)
  Lemma fset_known c s k n v ind np : known c n = Some np -> addresses c k ind ->
    fset zero c s k n v = match set_one zero c s n ind v with (s1, None) => (s1, None) | (s1, Some e) => (s1, Some e) end.
  Proof. intros Hk Ha. unfold fset, addresses in *. rewrite Hk, Ha. cbn [set_many]. destruct (set_one zero c s n ind v) as [s1 [e|]]; reflexivity. Qed.
  Lemma write_read c s k n v ind ws np : good_conf c -> wfs c s -> known c n = Some np -> addresses c k ind -> NoDup ind ->
    spreads (n_fields (c_srcs c)) np (length ind) v ws ->
    snd (fset zero c s k n v) = None /\ exists f, sget n (fst (fset zero c s k n v)) = Some f /\ take_cols f ind = ws.
  Proof.
    intros Hc Hw Hk Ha Hn Hs. rewrite (fset_known c s k n v ind np Hk Ha).
    assert (Hi : Forall (fun i => i < n_fields (c_srcs c)) ind) by (eapply src_index_range; [apply Hc|exact Ha]).
    destruct (set_one_cases c s n ind v Hc Hw Hi) as [[E _]|(np' & s1 & f & Hk' & Hg & Hw1 & L & F & _ & _ & [(ws' & Hs' & ->)|[N _]])].
    - congruence.
    - assert (np' = np) by congruence. subst np'. cbn [fst snd]. split; [reflexivity|]. eexists. split; [apply sget_set_eq|].
      apply bcast_spreads in Hs, Hs'; try (eapply known_pos; eassumption). assert (ws' = ws) by congruence. subst ws'.
      apply bcast_spreads in Hs; [|eapply known_pos; eassumption]. apply spreads_length in Hs as [Lw _].
      rewrite <- L in Hi. destruct (set_cols_spec ind ws f Hi) as (_ & _ & T & _). apply T; assumption.
    - assert (np' = np) by congruence. subst np'. exfalso. apply (N ws Hs).
  Qed.
  Lemma harmless_keeps c s n ind w f np : good_conf c -> wfs c s -> known c n = Some np -> harmless c (n_fields (c_srcs c)) np n ind w ->
    sget n s = Some f -> exists f', sget n (fstep zero c s w) = Some f' /\ take_cols f' ind = take_cols f ind.
  Proof.
    intros Hc Hw Hk Hh Hf. unfold fstep. destruct w as [k n' v]. cbn [w_key w_name w_val] in *.
    unfold fset. destruct (known c n') as [np'|] eqn:Hk'; [|cbn; eauto]. destruct (src_index c k) as [ind'|e] eqn:Ha; [|cbn; eauto].
    assert (Hi : Forall (fun i => i < n_fields (c_srcs c)) ind') by (eapply src_index_range; [apply Hc|exact Ha]).
    cbn [set_many]. destruct (set_one_cases c s n' ind' v Hc Hw Hi) as [[E _]|(np2 & s1 & f1 & Hk2 & Hg & Hw1 & L & F & C & O & D)]; [congruence|].
    assert (np2 = np') by congruence. subst np2.
    destruct (string_dec n n') as [<-|N].
    - destruct C as [C|[C _]]; [|congruence]. rewrite Hf in C. injection C as <-. assert (np' = np) by congruence. subst np'.
      destruct D as [(ws & Hs & ->)|[_ ->]]; cbn [fst]; [|exists f; split; [assumption|reflexivity]].
      exists (set_cols f ind' ws). split; [apply sget_set_eq|]. destruct Hh as [Hh|[Hh|Hh]]; cbn [w_name w_key w_val] in Hh; [congruence| |].
      + eapply take_cols_disjoint; [reflexivity|rewrite L; assumption|apply Hh; exact Ha].
      + exfalso. apply (Hh ind' ws Ha Hs).
    - destruct D as [(ws & Hs & ->)|[_ ->]]; cbn [fst].
      + exists f. split; [|reflexivity]. rewrite sget_set_neq by assumption. rewrite O by assumption. assumption.
      + exists f. split; [|reflexivity]. rewrite O by assumption. assumption.
  Qed.
  Lemma frun_app c s a b : frun zero c s (a ++ b) = frun zero c (frun zero c s a) b.
  Proof. apply fold_left_app. Qed.
  Lemma get_stored (c : fconf) s k n ind (f : list col) np : known c n = Some np -> addresses c k ind -> sget n s = Some f -> fget c s k n = Ok (take_cols f ind).
  Proof. intros Hk Ha Hf. unfold fget, addresses, get_field in *. rewrite Hk, Ha. cbn [bind]. unfold sget in Hf. rewrite Hf. reflexivity. Qed.
  Lemma history_keeps c n ind np ws : good_conf c -> known c n = Some np -> Forall (harmless c (n_fields (c_srcs c)) np n ind) ws ->
    forall s (f : list col), wfs c s -> sget n s = Some f -> exists f', sget n (frun zero c s ws) = Some f' /\ take_cols f' ind = take_cols f ind.
  Proof.
    intros Hc Hk HF. induction HF as [|w ws Hh HF IH]; intros s f Hw Hf; [cbn; eauto|].
    destruct (harmless_keeps c s n ind w f np Hc Hw Hk Hh Hf) as (f1 & Hf1 & E1).
    destruct (IH (fstep zero c s w) f1) as (f2 & Hf2 & E2); [apply fset_wf; assumption|assumption|].
    cbn [frun fold_left]. exists f2. split; [exact Hf2|congruence].
  Qed.
  (** Reading returns the latest value. *)
  Lemma read_latest c before w after ind np ws : good_conf c -> known c (w_name w) = Some np -> addresses c (w_key w) ind -> NoDup ind ->
    spreads (n_fields (c_srcs c)) np (length ind) (w_val w) ws -> Forall (harmless c (n_fields (c_srcs c)) np (w_name w) ind) after ->
    fget c (frun zero c [] (before ++ w :: after)) (w_key w) (w_name w) = Ok ws.
  Proof.
    intros Hc Hk Ha Hn Hs HF. rewrite frun_app. pose proof (frun_wf c before Hc [] (wfs_nil c)) as Hw0. set (s0 := frun zero c [] before) in *.
    cbn [frun fold_left]. fold (frun zero c (fstep zero c s0 w) after). unfold fstep.
    destruct (write_read c s0 (w_key w) (w_name w) (w_val w) ind ws np Hc Hw0 Hk Ha Hn Hs) as (_ & f & Hf & E).
    destruct (history_keeps c (w_name w) ind np after Hc Hk HF _ f (fset_wf c s0 _ _ _ Hc Hw0) Hf) as (f' & Hf' & E').
    rewrite (get_stored c _ (w_key w) (w_name w) ind f' np Hk Ha Hf'). congruence.
  Qed.
  (** Frame: a write leaves the reads it does not concern alone. *)
  Lemma frame c ws w k n np ind : good_conf c -> known c n = Some np -> addresses c k ind -> harmless c (n_fields (c_srcs c)) np n ind w ->
    forall v, fget c (frun zero c [] ws) k n = Ok v -> fget c (frun zero c [] (ws ++ [w])) k n = Ok v.
  Proof.
    intros Hc Hk Ha Hh v H. rewrite frun_app. pose proof (frun_wf c ws Hc [] (wfs_nil c)) as Hw0. set (s0 := frun zero c [] ws) in *. cbn [frun fold_left].
    destruct (sget n s0) as [f|] eqn:Hf.
    - rewrite (get_stored c s0 k n ind f np Hk Ha Hf) in H. destruct (harmless_keeps c s0 n ind w f np Hc Hw0 Hk Hh Hf) as (f' & Hf' & E').
      rewrite (get_stored c _ k n ind f' np Hk Ha Hf'). congruence.
    - unfold fget in H. rewrite Hk in H. unfold addresses in Ha. rewrite Ha in H. cbn [bind] in H. unfold get_field in H. unfold sget in Hf. rewrite Hf in H.
      destruct Hc as (_ & _ & Hal). rewrite (Hal n np Hk) in H. discriminate.
  Qed.
  (** Never written: raises. *)
  Lemma never_named c n ws : Forall (fun w => w_name w <> n) ws -> forall s, sget n s = None -> sget n (frun zero c s ws) = None.
  Proof.
    intros HF. induction HF as [|w ws Hw HF IH]; intros s Hs; [assumption|]. cbn [frun fold_left]. apply IH. unfold fstep, fset.
    destruct (known c (w_name w)) as [np|] eqn:Hk; [|assumption]. destruct (src_index c (w_key w)) as [ind|]; [|assumption]. cbn [set_many]. unfold set_one, init_store. rewrite Hk.
    destruct (dict_get String.eqb (w_name w) s) as [f|].
    - destruct (bcast np (length ind) (flat1 np (length f) (w_val w))); cbn [fst]; [rewrite sget_set_neq by congruence|]; assumption.
    - destruct (bcast np (length ind) (flat1 np _ (w_val w))); cbn [fst]; rewrite ?sget_set_neq by congruence; assumption.
  Qed.
  Lemma unwritten_raises c ws k n : good_conf c -> known c n <> None -> Forall (fun w => w_name w <> n) ws -> (exists ind, addresses c k ind) -> fget c (frun zero c [] ws) k n = Err KeyError.
  Proof.
    intros (_ & _ & Hal) Hk HF [ind Ha]. pose proof (never_named c n ws HF [] eq_refl) as Hn. unfold fget. destruct (known c n) as [np|] eqn:E; [|congruence].
    unfold addresses in Ha. rewrite Ha. cbn [bind]. unfold get_field. unfold sget in Hn. rewrite Hn, (Hal n np E). reflexivity.
  Qed.
  Lemma unknown_raises c s k n v : known c n = None -> fset zero c s k n v = (s, Some KeyError) /\ (alias c n = None -> fget c s k n = Err KeyError).
  Proof. intros Hk. unfold fset, fget. rewrite Hk. split; [reflexivity|]. intros ->. reflexivity. Qed.
  Lemma dict_unknown c s ind n v vs : known c n = None -> set_many zero c s ind ((n, v) :: vs) = (s, Some AssertionError).
  Proof. intros Hk. cbn [set_many]. unfold set_one, init_store. rewrite Hk. reflexivity. Qed.
  Lemma alias_read (c : fconf) s k n a fn ind v : known c n = None -> sget n s = None -> alias c n = Some (a, fn) -> known c a <> None -> addresses c k ind -> fget c s k a = Ok v ->
    alias c a = None -> fget c s k n = Ok (fn v (key_srcs c k)).
  Proof.
    intros Hk Hn Hal Hka Ha Hv Haa. unfold fget in *. rewrite Hk, Hal. unfold addresses in Ha. rewrite Ha in *. destruct (known c a); [|congruence].
    cbn [bind] in *. unfold get_field in *. unfold sget in Hn. rewrite Hn, Hal. rewrite Haa in Hv. destruct (dict_get String.eqb a s); [|discriminate]. injection Hv as <-. reflexivity.
  Qed.
  Lemma stored_known c ws n f : good_conf c -> sget n (frun zero c [] ws) = Some f -> known c n <> None.
  Proof. intros Hc H. destruct (frun_wf c ws Hc [] (wfs_nil c) n f H) as (np & E & _). congruence. Qed.
  Lemma alias_read_run (c : fconf) ws k n a fn ind v : good_conf c -> known c n = None -> alias c n = Some (a, fn) -> known c a <> None -> addresses c k ind ->
    fget c (frun zero c [] ws) k a = Ok v -> fget c (frun zero c [] ws) k n = Ok (fn v (key_srcs c k)).
  Proof.
    intros Hc Hk Hal Hka Ha Hv. apply (alias_read c _ k n a fn ind v); try assumption.
    - destruct (sget n (frun zero c [] ws)) eqn:E; [|reflexivity]. apply stored_known in E; [congruence|assumption].
    - destruct (known c a) as [np|] eqn:E; [|congruence]. destruct Hc as (_ & _ & H). apply (H a np E).
  Qed.
  (** A dictionary write is the sequence of its writes, up to the first that raises. *)
  Lemma dict_sequence (c : fconf) k ind vs : addresses c k ind -> forall s, Forall (fun p => known c (fst p) <> None) vs ->
    exists done rest, vs = done ++ rest /\ fst (fset_dict zero c s k vs) = frun zero c s (map (fun p => mkW k (fst p) (snd p)) done) /\
      (snd (fset_dict zero c s k vs) = None -> rest = []).
  Proof.
    intros Ha. unfold fset_dict. unfold addresses in Ha. rewrite Ha. induction vs as [|[n v] vs IH]; intros s HF.
    - exists [], []. cbn. auto.
    - inversion HF as [|? ? Hn HF']; subst. cbn [fst] in Hn. cbn [set_many]. destruct (known c n) as [np|] eqn:Hk; [|congruence].
      pose proof (fset_known c s k n v ind np Hk Ha) as E. destruct (set_one zero c s n ind v) as [s1 [e|]].
      + exists [(n, v)], vs. split; [reflexivity|]. split; [|discriminate]. cbn. unfold fstep. cbn. rewrite E. reflexivity.
      + destruct (IH s1 HF') as (done & rest & -> & E1 & E2). exists ((n, v) :: done), rest. split; [reflexivity|]. split; [|assumption].
        cbn [map frun fold_left]. unfold fstep at 2. cbn [w_key w_name w_val fst snd]. rewrite E. exact E1.
  Qed.

  (** ** Time fields *)
  Notation tarr := (list (list (list A))).
  Definition wft (ns nt np : nat) (f : tarr) : Prop := length f = ns /\ Forall (fun r => length r = nt /\ Forall (fun v : col => length v = np) r) f.
  Lemma upd_row_length i g (f : tarr) : length (upd_row i g f) = length f.
  Proof. revert i; induction f as [|x f IH]; intros [|i]; cbn; auto. Qed.
  Lemma nth_upd_row i j g (f : tarr) : i < length f -> nth j (upd_row i g f) [] = if Nat.eqb i j then g (nth j f []) else nth j f [].
  Proof. revert i j; induction f as [|x f IH]; intros i j H; cbn in H; [lia|]. destruct i, j; cbn; try reflexivity. apply IH. lia. Qed.
  Lemma upd_row_forall (P : list (list A) -> Prop) i g (f : tarr) : (forall r, P r -> P (g r)) -> Forall P f -> Forall P (upd_row i g f).
  Proof. intros Hg HF. revert i. induction HF; intros [|i]; cbn; auto. Qed.
  Lemma wft_row ns nt np f i : wft ns nt np f -> i < ns -> length (nth i f []) = nt.
  Proof. intros [L F] Hi. rewrite Forall_forall in F. apply F, nth_In. lia. Qed.
  Lemma wft_cell ns nt np f p : wft ns nt np f -> fst p < ns -> snd p < nt -> length (tcell f p) = np.
  Proof.
    intros Hw Hi Ht. pose proof (wft_row ns nt np f (fst p) Hw Hi) as L. destruct Hw as [L0 F]. unfold tcell.
    rewrite Forall_forall in F. destruct (F (nth (fst p) f [])) as [_ F2]; [apply nth_In; lia|]. rewrite Forall_forall in F2. apply F2, nth_In. lia.
  Qed.
  Lemma upd_cell_wf ns nt np f p w : wft ns nt np f -> length w = np -> wft ns nt np (upd_cell f p w).
  Proof.
    intros [L F] Hw. split; [unfold upd_cell; rewrite upd_row_length; assumption|]. apply upd_row_forall; [|assumption].
    intros r [Lr Fr]. rewrite upd_col_length. split; [assumption|]. apply upd_col_forall; assumption.
  Qed.
  Lemma tcell_upd ns nt np f p q w : wft ns nt np f -> fst p < ns -> snd p < nt ->
    tcell (upd_cell f p w) q = if Nat.eqb (fst p) (fst q) && Nat.eqb (snd p) (snd q) then w else tcell f q.
  Proof.
    intros Hw Hi Ht. pose proof (wft_row ns nt np f (fst p) Hw Hi) as L. destruct Hw as [L0 _]. unfold tcell, upd_cell.
    rewrite nth_upd_row by lia. destruct (Nat.eqb_spec (fst p) (fst q)) as [<-|N]; [|reflexivity]. cbn [andb]. apply nth_upd_col. lia.
  Qed.
  Lemma set_cells_spec ns nt np ps : forall ws (f : tarr), Forall (fun p => fst p < ns /\ snd p < nt) ps -> wft ns nt np f -> Forall (fun w => length w = np) ws ->
    wft ns nt np (set_cells f ps ws) /\ (forall q, ~ In q ps -> tcell (set_cells f ps ws) q = tcell f q) /\
    (NoDup ps -> length ws = length ps -> map (tcell (set_cells f ps ws)) ps = ws).
  Proof.
    induction ps as [|p ps IH]; intros ws f HF Hw Hws.
    - cbn. split; [assumption|]. split; [reflexivity|]. intros _ H. destruct ws; [reflexivity|discriminate].
    - inversion HF as [|? ? [H1 H2] HF']; subst. destruct ws as [|w ws].
      + cbn. split; [assumption|]. split; [reflexivity|]. intros _ H; discriminate.
      + inversion Hws; subst. change (set_cells f (p :: ps) (w :: ws)) with (set_cells (upd_cell f p w) ps ws).
        destruct (IH ws (upd_cell f p w) HF') as (W & N & T); [apply upd_cell_wf; auto|assumption|]. split; [assumption|].
        assert (E : forall q, tcell (upd_cell f p w) q = if Nat.eqb (fst p) (fst q) && Nat.eqb (snd p) (snd q) then w else tcell f q).
        { intros q. eapply tcell_upd; eassumption. }
        split.
        * intros q Hq. rewrite N by (intros Hin; apply Hq; right; assumption). rewrite E.
          destruct (Nat.eqb_spec (fst p) (fst q)), (Nat.eqb_spec (snd p) (snd q)); try reflexivity.
          exfalso. apply Hq. left. destruct p, q; cbn in *; congruence.
        * intros ND Lw. inversion ND; subst. cbn [map]. f_equal; [|apply T; [assumption|cbn in Lw; congruence]].
          rewrite N by assumption. rewrite E, !Nat.eqb_refl. reflexivity.
  Qed.
  Lemma chunks_spec np k : forall v : list A, length v = np * k -> length (chunks np k v) = k /\ Forall (fun w => length w = np) (chunks np k v) /\ concat (chunks np k v) = v.
  Proof.
    induction k as [|k IH]; intros v L; cbn [chunks].
    - rewrite Nat.mul_0_r in L. destruct v; [|discriminate]. cbn. auto.
    - destruct (IH (skipn np v)) as (A1 & A2 & A3); [rewrite skipn_length; lia|]. cbn [length concat]. split; [congruence|]. split.
      + constructor; [rewrite firstn_length; lia|assumption].
      + rewrite A3. apply firstn_skipn.
  Qed.
  Lemma outer_in si ti p : In p (outer si ti) <-> In (fst p) si /\ In (snd p) ti.
  Proof.
    unfold outer. rewrite in_flat_map. split.
    - intros (t & Ht & Hp). apply in_map_iff in Hp as (i & <- & Hi). auto.
    - intros [H1 H2]. exists (snd p). split; [assumption|]. apply in_map_iff. exists (fst p). destruct p; auto.
  Qed.
  Lemma outer_length si ti : length (outer si ti) = length si * length ti.
  Proof. unfold outer. induction ti as [|t ti IH]; cbn; [lia|]. rewrite app_length, map_length, IH. lia. Qed.
  Lemma outer_nodup si ti : NoDup si -> NoDup ti -> NoDup (outer si ti).
  Proof.
    intros Hs Ht. induction Ht as [|t ti Hn Ht IH]; cbn; [constructor|]. apply nodup_app_disjoint.
    - apply FinFun.Injective_map_NoDup; [intros a b E; congruence|assumption].
    - exact IH.
    - intros p Hp Hq. apply in_map_iff in Hp as (i & <- & _). apply (outer_in si ti (i, t)) in Hq. cbn in Hq. tauto.
  Qed.
  Lemma cells_sub b si t ti ps p : cells b si t ti = Ok ps -> In p ps -> In (fst p) si /\ In (snd p) ti.
  Proof.
    unfold cells. intros H Hp. assert (G : Ok (outer si ti) = Ok ps -> In (fst p) si /\ In (snd p) ti) by (intros [= <-]; apply outer_in; assumption).
    destruct b, t; auto. destruct (Nat.eqb (length si) (length ti)).
    - injection H as <-. split; [eapply in_combine_l|eapply in_combine_r]; rewrite <- surjective_pairing; eassumption.
    - destruct (Nat.eqb (length si) 1 || Nat.eqb (length ti) 1); [auto|discriminate].
  Qed.
  Lemma cells_plain k si t ti : plain_key k t si ti -> cells (is_list k) si t ti = Ok (outer si ti).
  Proof.
    unfold plain_key, cells. destruct k as [l|a b]; cbn [is_list]; [|reflexivity]. destruct t as [z|a b|l']; try reflexivity. intros H.
    destruct (Nat.eqb_spec (length si) (length ti)) as [E|E].
    - assert (length si = 1 /\ length ti = 1) as [E1 E2] by lia. destruct si as [|i [|]]; try discriminate. destruct ti as [|u [|]]; try discriminate. reflexivity.
    - destruct H as [H|H]; rewrite H; [reflexivity|]. destruct (Nat.eqb (length si) 1); reflexivity.
  Qed.
  Lemma norm_index_range n z i : norm_index n z = Ok i -> i < n.
  Proof.
    unfold norm_index. destruct (Z.leb_spec (- Z.of_nat n) z), (Z.ltb_spec z (Z.of_nat n)); cbn [andb]; try discriminate. intros [= <-].
    destruct (Z.ltb_spec z 0); lia.
  Qed.
  Lemma time_index_range nt t ti : time_index nt t = Ok ti -> Forall (fun i => i < nt) ti.
  Proof.
    destruct t as [z|a b|l]; cbn.
    - destruct (norm_index nt z) as [i|] eqn:E; [|discriminate]. intros [= <-]. constructor; [eapply norm_index_range; eassumption|constructor].
    - intros [= <-]. apply slice_pos_range.
    - revert ti; induction l as [|z l IH]; intros ti; cbn; [intros [= <-]; constructor|].
      destruct (norm_index nt z) as [i|] eqn:E; [|discriminate]. cbn [bind]. destruct (mapM (norm_index nt) l) as [r|] eqn:E'; [|discriminate]. intros [= <-].
      constructor; [eapply norm_index_range; eassumption|apply IH; reflexivity].
  Qed.
  Definition wfts (c : fconf) (nt : nat) (s : @tstore A) : Prop := forall n f, sget n s = Some f ->
    exists np, known c n = Some np /\ wft (length (c_srcs c)) nt np f.
  Lemma tinit_cases c nt s n np : wfts c nt s -> known c n = Some np -> exists s1 f, tinit_store zero c nt s n = Ok (s1, f, np) /\
    sget n s1 = Some f /\ wfts c nt s1 /\ wft (length (c_srcs c)) nt np f /\ (forall f0, sget n s = Some f0 -> f = f0 /\ s1 = s) /\ forall n', n' <> n -> sget n' s1 = sget n' s.
  Proof.
    intros Hw Hk. unfold tinit_store. rewrite Hk. fold (sget n s). destruct (sget n s) as [f|] eqn:Es.
    - exists s, f. destruct (Hw n f Es) as (np' & E & W). assert (np' = np) by congruence. subst np'. split; [reflexivity|]. split; [assumption|]. split; [assumption|].
      split; [assumption|]. split; [intros f0 [= <-]; auto|reflexivity].
    - set (f := repeat (repeat (repeat zero np) nt) (length (c_srcs c))). assert (W : wft (length (c_srcs c)) nt np f).
      { split; [apply repeat_length|]. apply forall_repeat'. split; [apply repeat_length|]. apply forall_repeat', repeat_length. }
      exists (dict_set String.eqb n f s), f. split; [reflexivity|]. split; [apply sget_set_eq|]. split; [|split; [exact W|split; [discriminate|intros; apply sget_set_neq; assumption]]].
      intros n' f' H. destruct (string_dec n' n) as [->|N]; [|rewrite sget_set_neq in H by assumption; apply Hw; assumption].
      rewrite sget_set_eq in H. injection H as <-. eauto.
  Qed.
  Lemma in_range_ok c si : in_range (A:=A) c si = Ok si <-> Forall (fun i => i < length (c_srcs c)) si.
  Proof.
    unfold in_range. destruct (forallb _ si) eqn:E.
    - split; [intros _|reflexivity]. apply Forall_forall. intros i Hi. rewrite forallb_forall in E. apply Nat.ltb_lt, E, Hi.
    - split; [discriminate|]. intros HF. exfalso. rewrite <- not_true_iff_false in E. apply E, forallb_forall. intros i Hi. rewrite Forall_forall in HF. apply Nat.ltb_lt, HF, Hi.
  Qed.
  Lemma in_range_cases c si : in_range (A:=A) c si = Ok si \/ in_range (A:=A) c si = Err IndexError.
  Proof. unfold in_range. destruct (forallb _ si); auto. Qed.
  Lemma cells_range (c : fconf) nt si b t ti ps : Forall (fun i => i < length (c_srcs c)) si -> Forall (fun i => i < nt) ti -> cells b si t ti = Ok ps ->
    Forall (fun p => fst p < length (c_srcs c) /\ snd p < nt) ps.
  Proof.
    intros Hs Ht H. apply Forall_forall. intros p Hp. rewrite Forall_forall in Hs, Ht. destruct (cells_sub b si t ti ps p H Hp). auto.
  Qed.
  (** What one assignment does to the array. *)
  Lemma tset_cells_cases ns nt np f si ti rps v : wft ns nt np f -> (forall ps, rps = Ok ps -> Forall (fun p => fst p < ns /\ snd p < nt) ps) ->
    match tset_cells np f si ti rps v with
    | Err _ => True
    | Ok f' => exists ps ws, rps = Ok ps /\ f' = set_cells f ps ws /\ length ws = length ps /\ Forall (fun w => length w = np) ws
    end.
  Proof.
    intros Hw Hr. unfold tset_cells. destruct (tval_norm v) as [x|w].
    - destruct rps as [ps|]; cbn [bind]; [|exact I]. exists ps, (repeat (repeat x np) (length ps)). split; [reflexivity|]. split; [reflexivity|].
      rewrite repeat_length. split; [reflexivity|]. apply forall_repeat', repeat_length.
    - destruct (Nat.eqb (length w) _); [|exact I]. destruct rps as [ps|]; cbn [bind]; [|exact I]. destruct (Nat.eqb_spec (length w) (np * length ps)) as [E|]; [|exact I].
      exists ps, (chunks np (length ps) w). destruct (chunks_spec np (length ps) w E) as (C1 & C2 & _). auto.
  Qed.
  Lemma tset_cases c nt s k n t v : wfts c nt s -> let s' := fst (tset zero c nt s k n t v) in
    (s' = s \/ exists np s1 f, known c n = Some np /\ tinit_store zero c nt s n = Ok (s1, f, np) /\
       (s' = s1 \/ exists si ti ps ws, tsrc_index c k = Ok si /\ time_index nt t = Ok ti /\ Forall (fun i => i < length (c_srcs c)) si /\
          cells (is_list k) si t ti = Ok ps /\ length ws = length ps /\ Forall (fun w => length w = np) ws /\ s' = dict_set String.eqb n (set_cells f ps ws) s1)).
  Proof.
    intros Hw. unfold tset. destruct (known c n) as [np|] eqn:Hk; [|left; reflexivity]. destruct (tsrc_index c k) as [si|] eqn:Hs; [|left; reflexivity].
    destruct (tinit_cases c nt s n np Hw Hk) as (s1 & f & E & Hg & Hw1 & W & _ & _). rewrite E. right. exists np, s1, f. split; [reflexivity|]. split; [reflexivity|].
    destruct (in_range_cases c si) as [R|R]; rewrite R; cbn [bind]; [|left; reflexivity]. apply in_range_ok in R.
    destruct (time_index nt t) as [ti|] eqn:Ht; cbn [bind]; [|left; reflexivity].
    pose proof (tset_cells_cases _ _ _ f si ti (cells (is_list k) si t ti) v W (fun ps => cells_range c nt si _ t ti ps R (time_index_range _ _ _ Ht))) as H.
    destruct (tset_cells np f si ti (cells (is_list k) si t ti) v) as [f'|]; [|left; reflexivity]. destruct H as (ps & ws & Hc & -> & L & F).
    right. exists si, ti, ps, ws. cbn [fst]. auto 10.
  Qed.
  Lemma tset_wf c nt s k n t v : wfts c nt s -> wfts c nt (fst (tset zero c nt s k n t v)).
  Proof.
    intros Hw. destruct (tset_cases c nt s k n t v Hw) as [->|(np & s1 & f & Hk & E & D)]; [assumption|].
    destruct (tinit_cases c nt s n np Hw Hk) as (s1' & f' & E' & Hg & Hw1 & W & _ & _). rewrite E in E'. injection E' as <- <-.
    destruct D as [->|(si & ti & ps & ws & Hs & Ht & R & Hc & L & F & ->)]; [assumption|].
    intros n' f' H. destruct (string_dec n' n) as [->|N]; [|rewrite sget_set_neq in H by assumption; apply Hw1; assumption].
    rewrite sget_set_eq in H. injection H as <-. exists np. split; [assumption|].
    eapply set_cells_spec; [eapply cells_range; [exact R|eapply time_index_range; exact Ht|exact Hc]|exact W|exact F].
  Qed.
  Lemma trun_wf c nt ws : forall s, wfts c nt s -> wfts c nt (trun zero c nt s ws).
  Proof. induction ws as [|w ws IH]; intros s Hw; [assumption|]. cbn [trun fold_left]. apply IH. apply tset_wf; assumption. Qed.
  Lemma wfts_nil c nt : wfts c nt [].
  Proof. intros n f H. discriminate. Qed.
  (** Frame: cells outside keep their value. *)
  Lemma tharmless_keeps c nt s n si ti w f : wfts c nt s -> harmless_t c nt n si ti w -> sget n s = Some f ->
    exists f', sget n (tstep zero c nt s w) = Some f' /\ forall p, In (fst p) si -> In (snd p) ti -> tcell f' p = tcell f p.
  Proof.
    intros Hw Hh Hf. destruct w as [k n' t v]. unfold tstep. cbn [tw_key tw_name tw_time tw_val].
    destruct (tset_cases c nt s k n' t v Hw) as [->|(np & s1 & f1 & Hk & E & D)]; [eauto|].
    destruct (tinit_cases c nt s n' np Hw Hk) as (s1' & f1' & E' & Hg & Hw1 & W & Hold & Hoth). rewrite E in E'. injection E' as <- <-.
    destruct (string_dec n n') as [<-|N].
    - destruct (Hold f Hf) as [-> ->]. destruct D as [->|(si' & ti' & ps & ws & Hs & Ht & R & Hc & L & F & ->)]; [eauto|].
      eexists. split; [apply sget_set_eq|]. intros p Hp1 Hp2.
      eapply set_cells_spec; [eapply cells_range; [exact R|eapply time_index_range; exact Ht|exact Hc]|exact W|exact F|].
      intros Hin. destruct (cells_sub _ _ _ _ _ _ Hc Hin) as [H1 H2]. destruct Hh as [Hh|[Hh|Hh]]; cbn [tw_name tw_key tw_time] in Hh; [congruence| |].
      + apply (Hh si' Hs (fst p)); assumption.
      + apply (Hh ti' Ht (snd p)); assumption.
    - exists f. split; [|reflexivity]. destruct D as [->|(si' & ti' & ps & ws & _ & _ & _ & _ & _ & _ & ->)].
      + rewrite Hoth by assumption. assumption.
      + rewrite sget_set_neq by assumption. rewrite Hoth by assumption. assumption.
  Qed.
  Lemma thistory_keeps c nt n si ti ws : Forall (harmless_t c nt n si ti) ws -> forall s f, wfts c nt s -> sget n s = Some f ->
    exists f', sget n (trun zero c nt s ws) = Some f' /\ forall p, In (fst p) si -> In (snd p) ti -> tcell f' p = tcell f p.
  Proof.
    induction 1 as [|w ws Hh HF IH]; intros s f Hw Hf; [cbn; eauto|].
    destruct (tharmless_keeps c nt s n si ti w f Hw Hh Hf) as (f1 & Hf1 & E1).
    destruct (IH (tstep zero c nt s w) f1) as (f2 & Hf2 & E2); [apply tset_wf; assumption|assumption|].
    exists f2. split; [exact Hf2|]. intros p H1 H2. rewrite E2, E1 by assumption. reflexivity.
  Qed.
  Lemma concat_repeat_repeat (x : A) np k : concat (repeat (repeat x np) k) = repeat x (np * k).
  Proof. induction k as [|k IH]; cbn; [rewrite Nat.mul_0_r; reflexivity|]. rewrite IH, <- repeat_app. f_equal. lia. Qed.
  Lemma twrite_cells c nt s k n t v si ti np out : wfts c nt s -> known c n = Some np -> tsrc_index c k = Ok si -> Forall (fun i => i < length (c_srcs c)) si -> NoDup si ->
    time_index nt t = Ok ti -> NoDup ti -> plain_key k t si ti -> fills np (length si * length ti) v out ->
    snd (tset zero c nt s k n t v) = None /\ exists f, sget n (fst (tset zero c nt s k n t v)) = Some f /\ concat (map (tcell f) (outer si ti)) = out.
  Proof.
    intros Hw Hk Hs Hr Hns Ht Hnt Hp Hfl. destruct (tinit_cases c nt s n np Hw Hk) as (s1 & f & E & _ & _ & W & _ & _).
    assert (R : Forall (fun p => fst p < length (c_srcs c) /\ snd p < nt) (outer si ti)).
    { eapply cells_range; [exact Hr|eapply time_index_range; exact Ht|apply (cells_plain k si t ti Hp)]. }
    assert (G : exists ws, tset_cells np f si ti (Ok (outer si ti)) v = Ok (set_cells f (outer si ti) ws) /\ length ws = length (outer si ti) /\ Forall (fun w : col => length w = np) ws /\ concat ws = out).
    { assert (One : forall x, exists ws, tset_cells np f si ti (Ok (outer si ti)) (TScal x) = Ok (set_cells f (outer si ti) ws) /\ length ws = length (outer si ti) /\ Forall (fun w : col => length w = np) ws /\ concat ws = repeat x (np * (length si * length ti))).
      { intros x. unfold tset_cells. cbn [tval_norm bind]. eexists. split; [reflexivity|]. rewrite repeat_length. split; [reflexivity|].
        split; [apply forall_repeat', repeat_length|]. rewrite concat_repeat_repeat, outer_length. reflexivity. }
      destruct Hfl as [x|w Lw|x].
      - apply One.
      - destruct w as [|x [|y w']] eqn:Ew.
        + unfold tset_cells. cbn [tval_norm bind]. cbn [length] in *. rewrite outer_length. rewrite <- Nat.mul_assoc, <- Lw. cbn [Nat.eqb].
          destruct (chunks_spec np (length si * length ti) (@nil A) Lw) as (C1 & C2 & C3). eexists. split; [reflexivity|]. auto.
        + destruct (One x) as (ws & E1 & E2 & E3 & E4). exists ws. split; [exact E1|]. split; [exact E2|]. split; [exact E3|]. rewrite E4. rewrite <- Lw. reflexivity.
        + unfold tset_cells. cbn [tval_norm bind]. rewrite <- Ew in *. rewrite outer_length. rewrite <- Nat.mul_assoc, <- Lw, Nat.eqb_refl.
          destruct (chunks_spec np (length si * length ti) w Lw) as (C1 & C2 & C3). eexists. split; [reflexivity|]. auto.
      - destruct (One x) as (ws & E1 & E2 & E3 & E4). exists ws. auto. }
    destruct G as (ws & E1 & E2 & E3 & E4). unfold tset. rewrite Hk, Hs, E, (proj2 (in_range_ok c si) Hr). cbn [bind]. rewrite Ht. cbn [bind]. rewrite (cells_plain k si t ti Hp), E1. cbn [fst snd].
    split; [reflexivity|]. eexists. split; [apply sget_set_eq|].
    destruct (set_cells_spec _ _ _ (outer si ti) ws f R W E3) as (_ & _ & T). rewrite T; [exact E4|apply outer_nodup; assumption|exact E2].
  Qed.
  Lemma tget_stored (c : fconf) nt s k n t si ti np f : wfts c nt s -> known c n = Some np -> tsrc_index c k = Ok si -> Forall (fun i => i < length (c_srcs c)) si ->
    time_index nt t = Ok ti -> plain_key k t si ti -> sget n s = Some f -> tget c nt s k n t = Ok (concat (map (tcell f) (outer si ti))).
  Proof.
    intros Hw Hk Hs Hr Ht Hp Hf. unfold tget. rewrite Hk, Hs. cbn [bind]. unfold sget in Hf. rewrite Hf. rewrite (proj2 (in_range_ok c si) Hr). cbn [bind]. rewrite Ht. cbn [bind].
    rewrite (cells_plain k si t ti Hp). cbn [bind]. destruct (Hw n f Hf) as (np' & Hk' & W). assert (np' = np) by congruence. subst np'.
    assert (R : Forall (fun p => fst p < length (c_srcs c) /\ snd p < nt) (outer si ti)).
    { eapply cells_range; [exact Hr|eapply time_index_range; exact Ht|apply (cells_plain k si t ti Hp)]. }
    assert (L : forall ps, Forall (fun p => fst p < length (c_srcs c) /\ snd p < nt) ps -> length (concat (map (tcell f) ps)) = np * length ps).
    { induction 1 as [|p ps [P1 P2] HF IH]; cbn [map concat length]; [lia|]. rewrite app_length, IH, (wft_cell _ _ _ _ _ W P1 P2). lia. }
    rewrite L, outer_length by assumption. rewrite Nat.mul_assoc, Nat.eqb_refl. reflexivity.
  Qed.
  Lemma trun_app c nt s a b : trun zero c nt s (a ++ b) = trun zero c nt (trun zero c nt s a) b.
  Proof. apply fold_left_app. Qed.
  Lemma tread_latest c nt before w after si ti np out : known c (tw_name w) = Some np ->
    tsrc_index c (tw_key w) = Ok si -> Forall (fun i => i < length (c_srcs c)) si -> NoDup si ->
    time_index nt (tw_time w) = Ok ti -> NoDup ti -> plain_key (tw_key w) (tw_time w) si ti -> fills np (length si * length ti) (tw_val w) out ->
    Forall (harmless_t c nt (tw_name w) si ti) after ->
    tget c nt (trun zero c nt [] (before ++ w :: after)) (tw_key w) (tw_name w) (tw_time w) = Ok out.
  Proof.
    intros Hk Hs Hr Hns Ht Hnt Hp Hfl HF. rewrite trun_app. pose proof (trun_wf c nt before [] (wfts_nil c nt)) as Hw0. set (s0 := trun zero c nt [] before) in *.
    cbn [trun fold_left]. fold (trun zero c nt (tstep zero c nt s0 w) after). unfold tstep.
    destruct (twrite_cells c nt s0 (tw_key w) (tw_name w) (tw_time w) (tw_val w) si ti np out Hw0 Hk Hs Hr Hns Ht Hnt Hp Hfl) as (_ & f & Hf & E).
    destruct (thistory_keeps c nt (tw_name w) si ti after HF _ f (tset_wf _ _ _ _ _ _ _ Hw0) Hf) as (f' & Hf' & E').
    rewrite (tget_stored c nt _ (tw_key w) (tw_name w) (tw_time w) si ti np f'); try assumption.
    - rewrite <- E. f_equal. f_equal. apply map_ext_in. intros p Hin. apply outer_in in Hin as [H1 H2]. auto.
    - apply trun_wf, tset_wf. assumption.
  Qed.
  Lemma tframe c nt ws w k n t si ti np : known c n = Some np -> tsrc_index c k = Ok si -> Forall (fun i => i < length (c_srcs c)) si ->
    time_index nt t = Ok ti -> plain_key k t si ti -> harmless_t c nt n si ti w ->
    forall v, tget c nt (trun zero c nt [] ws) k n t = Ok v -> tget c nt (trun zero c nt [] (ws ++ [w])) k n t = Ok v.
  Proof.
    intros Hk Hs Hr Ht Hp Hh v H. rewrite trun_app. pose proof (trun_wf c nt ws [] (wfts_nil c nt)) as Hw0. set (s0 := trun zero c nt [] ws) in *. cbn [trun fold_left].
    destruct (sget n s0) as [f|] eqn:Hf.
    - rewrite (tget_stored c nt s0 k n t si ti np f) in H by assumption. destruct (tharmless_keeps c nt s0 n si ti w f Hw0 Hh Hf) as (f' & Hf' & E').
      rewrite (tget_stored c nt _ k n t si ti np f'); try assumption; [|apply tset_wf; assumption].
      rewrite <- H. f_equal. f_equal. apply map_ext_in. intros p Hin. apply outer_in in Hin as [H1 H2]. auto.
    - unfold tget in H. rewrite Hk, Hs in H. cbn [bind] in H. unfold sget in Hf. rewrite Hf in H. discriminate.
  Qed.
  (** One column per source: indices are always in range. *)
  Lemma tsrc_range (c : fconf) k si : valid_src_list (c_srcs c) = true -> Forall (fun s => src_nf s = 1) (c_srcs c) -> tsrc_index c k = Ok si -> Forall (fun i => i < length (c_srcs c)) si.
  Proof.
    intros Hv HF. destruct k as [l|a b]; cbn; intros H.
    - apply indices_range in H; [|assumption]. replace (n_fields (c_srcs c)) with (length (c_srcs c)) in H; [assumption|].
      rewrite <- owners_length. unfold owners. clear - HF. induction HF as [|s l Hs HF IH]; cbn; [reflexivity|]. rewrite app_length, repeat_length, Hs, <- IH. reflexivity.
    - injection H as <-. apply slice_pos_range.
  Qed.
End Fields.

Lemma init_no_overlap {A} (c : @fconf A) s : fields_init c = Ok s -> s = [] /\ forall n np, known c n = Some np -> alias c n = None.
Proof.
  unfold fields_init. destruct (existsb _ (c_known c)) eqn:E; [discriminate|]. intros [= <-]. split; [reflexivity|]. intros n np Hk.
  destruct (alias c n) as [a|] eqn:Ea; [|reflexivity]. exfalso. rewrite <- not_true_iff_false in E. apply E, existsb_exists.
  unfold known in Hk. apply (dict_get_in _ String.eqb_eq) in Hk. exists (n, np). split; [assumption|]. cbn [fst]. rewrite Ea. reflexivity.
Qed.
(** Two sources, one field, two points. *)
Definition ex_conf : @fconf nat := mkConf [mkSrc 5 [] 1; mkSrc 7 [] 1] [("e"%string, 2)] [("b"%string, ("e"%string, fun cs _ => map (map S) cs))].
Lemma ex_conf_good : good_conf ex_conf.
Proof.
  split; [reflexivity|]. split; [repeat constructor|]. intros n np. unfold known, alias. cbn. destruct (String.eqb n "e") eqn:E; [|discriminate].
  apply String.eqb_eq in E. subst. reflexivity.
Qed.
(** An assignment that raises still makes the field readable (as zeros). *)
Lemma failed_write_visible : let c := ex_conf in
  fget c [] (KSrcs [5]) "e" = Err KeyError /\ snd (fset 0 c [] (KSrcs [5]) "e" (FVec [1; 2; 3])) = Some ValueError /\
  fget c (fst (fset 0 c [] (KSrcs [5]) "e" (FVec [1; 2; 3]))) (KSrcs [5]) "e" = Ok [[0; 0]].
Proof. repeat split. Qed.
Lemma unwritten_source_reads : let c := ex_conf in
  fget c (fst (fset 0 c [] (KSrcs [5]) "e" (FVec [1; 2]))) (KSrcs [7]) "e" = Ok [[0; 0]].
Proof. reflexivity. Qed.
(** With two columns per source, a slice of sources selects columns instead. *)
Lemma slice_columns : let c := mkConf [mkSrc 5 [] 2; mkSrc 7 [] 2] [("e"%string, 1)] [] in let s := [("e"%string, [[1]; [2]; [3]; [4]])] in
  key_srcs c (KSlice 0 1) = [5] /\ fget c s (KSlice 0 1) "e" = Ok [[1]] /\ fget c s (KSrcs [5]) "e" = Ok [[1]; [2]].
Proof. repeat split. Qed.
(** Lists of sources and of times are paired, not crossed. *)
Lemma paired_lists : let c := ex_conf in
  tget c 3 (fst (tset 0 c 3 [] (KSrcs [5; 7]) "e" (TList [0; 1]%Z) (TScal 9))) (KSlice 0 2) "e" (TSlice 0 3) = Ok [9; 9; 0; 0; 0; 0; 9; 9; 0; 0; 0; 0] /\
  snd (tset 0 c 3 [] (KSrcs [5; 7]) "e" (TList [0; 1]%Z) (TScal 9)) = None /\
  tget c 3 (fst (tset 0 c 3 [] (KSrcs [5; 7]) "e" (TList [0; 1]%Z) (TScal 9))) (KSrcs [5; 7]) "e" (TList [0; 1]%Z) = Err ValueError.
Proof. repeat split. Qed.
