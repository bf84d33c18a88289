(** Every statement, by value. *)
From Verif Require Import Py Vec Survey DataM Synth SpecSynth SynthFacts SynthFacts2.
From Coq Require Import Lia Lra.
Local Open Scope R_scope.
Local Open Scope list_scope.

Lemma change_same : forall l k f, (forall v, nth_error l k = Some v -> f v = v) -> change l k f = l.
Proof.
  intros l k f H. unfold change. destruct (nth_error l k) as [v|] eqn:E; [|reflexivity]. rewrite (H v eq_refl). clear H.
  revert k E. induction l as [|b r IH]; intros k E; [destruct k; discriminate|]. destruct k; cbn in *; [injection E as ->; reflexivity|]. f_equal. apply IH, E.
Qed.
Lemma views_nth : forall nD s k, nth_error (views nD s) k = option_map (view nD (st_heap s)) (nth_error (st_objs s) k).
Proof. intros. unfold views. apply nth_error_map. Qed.
Lemma change_none : forall l k f, nth_error l k = None -> change l k f = l.
Proof. intros l k f H. unfold change. rewrite H. reflexivity. Qed.

Lemma held_rel : forall o j, o_rel o = Some j -> In j (held o).
Proof. intros o j H. unfold held. right. apply in_or_app. right. apply in_or_app. left. rewrite H. left. reflexivity. Qed.
Lemma held_floor : forall o j, o_floor o = Some j -> In j (held o).
Proof. intros o j H. unfold held. right. apply in_or_app. right. apply in_or_app. right. rewrite H. left. reflexivity. Qed.
Lemma held_clean : forall o j, o_clean o = Some j -> In j (held o).
Proof. intros o j H. unfold held. right. apply in_or_app. left. rewrite H. left. reflexivity. Qed.
Lemma held_nodup : forall d c r f, (forall j, c = Some j -> j <> d) -> (forall j, r = Some j -> j <> d) -> (forall j, f = Some j -> j <> d) ->
  (forall j, r = Some j -> c <> Some j) -> (forall j, f = Some j -> c <> Some j) -> (forall j, r = Some j -> f <> Some j) -> NoDup (held (mkObj d c r f)).
Proof.
  intros d c r f H1 H2 H3 H4 H5 H6. unfold held. cbn [o_dobs o_clean o_rel o_floor].
  destruct c as [c|]; destruct r as [r|]; destruct f as [f|]; cbn;
  repeat match goal with
    | H : forall j, Some ?p = Some j -> _ |- _ => specialize (H p eq_refl)
    | H : forall j, None = Some j -> _ |- _ => clear H
    end; repeat constructor; cbn; intuition congruence.
Qed.
Lemma held_inv : forall o, NoDup (held o) -> (forall j, o_clean o = Some j -> j <> o_dobs o) /\ (forall j, o_rel o = Some j -> j <> o_dobs o) /\ (forall j, o_floor o = Some j -> j <> o_dobs o)
  /\ (forall j, o_rel o = Some j -> o_clean o <> Some j) /\ (forall j, o_floor o = Some j -> o_clean o <> Some j) /\ (forall j, o_rel o = Some j -> o_floor o <> Some j).
Proof.
  intros [d c r f] H. unfold held in H. cbn [o_dobs o_clean o_rel o_floor] in *.
  destruct c as [c|]; destruct r as [r|]; destruct f as [f|]; cbn in H;
  repeat match goal with H : NoDup (_ :: _) |- _ => inversion H; clear H; subst end; cbn in *;
  repeat split; intros j Hj; try discriminate; try (injection Hj as <-); try discriminate; intro E; try (injection E as E); subst; tauto.
Qed.
Lemma in_held : forall d c r f i, In i (held (mkObj d c r f)) -> i = d \/ c = Some i \/ r = Some i \/ f = Some i.
Proof.
  intros d c r f i H. unfold held in H. cbn [o_dobs o_clean o_rel o_floor] in H. destruct H as [<-|H]; [left; reflexivity|]. right.
  apply in_app_or in H. destruct H as [H|H]; [left; destruct c; [destruct H as [<-|[]]; reflexivity|destruct H]|].
  right. apply in_app_or in H. destruct H as [H|H]; [left; destruct r; [destruct H as [<-|[]]; reflexivity|destruct H]|right; destruct f; [destruct H as [<-|[]]; reflexivity|destruct H]].
Qed.

(** ** Noise *)
Lemma vmul_nth' : forall a b i, (i < length a)%nat -> (i < length b)%nat -> nth i (vmul a b) 0 = nth i a 0 * nth i b 0.
Proof. induction a; destruct b; intros [|i] H1 H2; cbn in *; try lia; auto. apply IHa; lia. Qed.
Lemma vadd_nth' : forall a b i, (i < length a)%nat -> (i < length b)%nat -> nth i (vadd a b) 0 = nth i a 0 + nth i b 0.
Proof. induction a; destruct b; intros [|i] H1 H2; cbn in *; try lia; auto. apply IHa; lia. Qed.
Lemma vmul_len' : forall a b, length (vmul a b) = Nat.min (length a) (length b).
Proof. induction a; destruct b; cbn; auto. Qed.
Lemma vadd_len' : forall a b, length (vadd a b) = Nat.min (length a) (length b).
Proof. induction a; destruct b; cbn; auto. Qed.
Lemma cmap_nth : forall (A : Type) (g : A -> R) l i d, (i < length l)%nat -> nth i (map g l) 0 = g (nth i l d).
Proof. intros A g. induction l; intros [|i] d H; cbn in *; try lia; auto. apply IHl. lia. Qed.

Lemma operand_value : forall n h u,
  match operand n h u with
  | Ok r => exists v, value_of h u = Ok v /\ v <> UNone /\ r = map (at_datum v) (seq 0 n)
  | Err _ => match value_of h u with Ok UNone => True | Ok v => exists e, check_uncert n v = Err e | Err _ => True end
  end.
Proof.
  assert (Rep : forall n x (g : nat -> R), (forall i, g i = x) -> repeat x n = map g (seq 0 n)).
  { intros n x g H. rewrite <- (map_ext (fun _ => x) g) by (intro; symmetry; apply H). generalize 0%nat. induction n; intro s; cbn; [reflexivity|]. f_equal. apply IHn. }
  intros n h u. destruct u as [|x|i]; cbn [operand value_of]; [exact I| |].
  - exists (UScalar x). split; [reflexivity|]. split; [discriminate|]. apply Rep. reflexivity.
  - destruct (get_arr h i) as [a|e]; cbn [bind]; [|exact I]. destruct (a_cplx a); cbn [bind]; [exact I|].
    assert (Kept : forall v, (forall z, v <> [z]) -> match (if Nat.eqb (@length cplx v) n then Ok (map fst v) else Err ValueError) with
      | Ok r => exists w, Ok (UVec (map fst v)) = Ok w /\ w <> UNone /\ r = map (at_datum w) (seq 0 n)
      | Err _ => exists e, check_uncert n (UVec (map fst v)) = Err e end).
    { intros v Hv. destruct (Nat.eqb_spec (@length cplx v) n) as [L|L].
      - eexists. split; [reflexivity|]. split; [discriminate|]. apply nth_ext with 0 0; [rewrite !map_length, seq_length; exact L|].
        intros k Hk. rewrite map_length in Hk. rewrite (cmap_nth nat (at_datum (UVec (map fst v))) (seq 0 n) k 0%nat) by (rewrite seq_length; unfold cplx in *; lia). rewrite seq_nth by (unfold cplx in *; lia).
        cbn [Nat.add at_datum]. destruct v as [|z [|z' v]]; [reflexivity|destruct (Hv z eq_refl)|reflexivity].
      - apply Nat.eqb_neq in L. destruct v as [|z [|z' v]]; [|destruct (Hv z eq_refl)|]; cbn [map check_uncert]; rewrite ?map_length in *.
        + cbn in *. rewrite L. eexists; reflexivity.
        + cbn [length]. rewrite map_length. cbn [length] in L. unfold cplx in *. rewrite L. eexists; reflexivity. }
    destruct (a_vals a) as [|z [|z' v]].
    + exact (Kept [] ltac:(discriminate)).
    + exists (UVec [fst z]). split; [reflexivity|]. split; [discriminate|]. apply Rep. reflexivity.
    + exact (Kept (z :: z' :: v) ltac:(discriminate)).
Qed.

Lemma noisy_values : forall (p : list cplx) (r f : uval) z, let n := length p in
  map (fun k => let d := nth k p (0, 0) in (fst d + nth k (map sqrt (vadd (map (fun x => x * x) (vmul (map (at_datum r) (seq 0 n)) (map cmod p))) (map (fun x => x * x) (map (at_datum f) (seq 0 n))))) 0 * z k, snd d)) (seq 0 n)
  = noisy p r f z.
Proof.
  intros p r f z n. unfold noisy. fold n. assert (Hn : n = length p) by reflexivity. clearbody n. apply map_ext_in. intros k Hk. apply in_seq in Hk. cbv zeta. f_equal. f_equal. f_equal.
  assert (L1 : length (map (at_datum r) (seq 0 n)) = n) by (rewrite map_length, seq_length; reflexivity).
  assert (L2 : length (map (at_datum f) (seq 0 n)) = n) by (rewrite map_length, seq_length; reflexivity).
  assert (L3 : length (map cmod p) = n) by (rewrite map_length; symmetry; exact Hn).
  assert (L4 : length (vmul (map (at_datum r) (seq 0 n)) (map cmod p)) = n) by (rewrite vmul_len', L1, L3; apply Nat.min_id).
  rewrite (cmap_nth R sqrt _ k 0) by (rewrite vadd_len', !map_length, L4, seq_length; lia).
  unfold sigma. f_equal. rewrite vadd_nth' by (rewrite !map_length, ?L4, ?seq_length; lia).
  rewrite (cmap_nth R (fun x => x * x) _ k 0) by lia. rewrite (cmap_nth R (fun x => x * x) _ k 0) by lia.
  rewrite vmul_nth' by lia. rewrite (cmap_nth cplx cmod p k (0, 0)) by lia.
  rewrite !(cmap_nth nat _ (seq 0 n) k 0%nat) by (rewrite seq_length; lia). rewrite !seq_nth by lia. reflexivity.
Qed.

Lemma data_init_bad : forall nD d r f s, (exists e, check_uncert nD r = Err e) \/ (exists e, check_uncert nD f = Err e) -> exists e, data_init (D := cplx) nD d r f s = Err e.
Proof.
  intros nD d r f s H. unfold data_init, fromvec. destruct (Nat.eqb (length d) nD); cbn [bind]; [|eexists; reflexivity].
  destruct (check_uncert nD r) as [w|e]; cbn [bind]; [|eexists; reflexivity].
  destruct H as [[e H]|[e H]]; [discriminate|]. rewrite H. cbn. eexists; reflexivity.
Qed.
Lemma data_init_size : forall nD d r f s, length d <> nD -> data_init (D := cplx) nD d r f s = Err ValueError.
Proof. intros nD d r f s H. unfold data_init, fromvec. apply Nat.eqb_neq in H. rewrite H. reflexivity. Qed.

(** Synthetic data with noise. *)
Lemma synthetic_value : forall nD h p r f z, (forall j, In j (refs r ++ refs f) -> (j < length h)%nat) -> NoDup (refs r ++ refs f) ->
  match (do r' <- value_of h r; do f' <- value_of h f; do u <- match r', f' with UNone, _ | _, UNone => Err TypeError | _, _ => Ok tt end;
         do x <- data_init nD (noisy (a_vals p) r' f' z) r' f' UNone; Ok (mkValue x (a_cplx p) (Some (a_vals p)))) with
  | Ok v => exists h' o, make_synthetic nD h p r f FTrue z false = Ok (h', o) /\ extends h h' /\ view nD h' o = v /\ NoDup (held o)
      /\ (forall j, In j (held o) -> (j < length h')%nat /\ (In j (refs r ++ refs f) \/ (length h <= j)%nat))
      /\ o_clean o = Some (length h) /\ o_dobs o = Datatypes.S (length h)
  | Err _ => exists e, make_synthetic nD h p r f FTrue z false = Err e
  end.
Proof.
  intros nD h p r f z Hr ND. unfold make_synthetic, alloc. cbn [fst snd].
  set (h1 := h ++ [p]).
  assert (Rr : forall j, In j (refs r) -> (j < length h)%nat) by (intros; apply Hr, in_or_app; left; assumption).
  assert (Rf : forall j, In j (refs f) -> (j < length h)%nat) by (intros; apply Hr, in_or_app; right; assumption).
  pose proof (operand_value (length (a_vals p)) h1 r) as Or. pose proof (operand_value (length (a_vals p)) h1 f) as Of.
  unfold h1 in Or at 2 3, Of at 2 3. rewrite (value_of_ext h [p] r Rr) in Or. rewrite (value_of_ext h [p] f Rf) in Of.
  destruct (operand (length (a_vals p)) h1 r) as [rv|er]; cbn [bind].
  2:{ destruct (value_of h r) as [r'|]; cbn [bind]; [|eexists; reflexivity]. destruct (value_of h f) as [f'|]; cbn [bind]; [|eexists; reflexivity].
      destruct r' as [|x|v]; cbn [bind]; [eexists; reflexivity| |].
      - destruct f'; cbn [bind]; [eexists; reflexivity| |];
          (destruct (Nat.eq_dec (length (a_vals p)) nD) as [E|E];
           [match goal with |- context [data_init nD ?a ?b ?c UNone] => destruct (data_init_bad nD a b c UNone (or_introl (eq_rect _ (fun m => exists e, check_uncert m b = Err e) Or nD E))) as [e ->] end; cbn [bind]
           |rewrite data_init_size by (unfold noisy; rewrite map_length, seq_length; exact E); cbn [bind]]; eexists; reflexivity).
      - destruct f'; cbn [bind]; [eexists; reflexivity| |];
          (destruct (Nat.eq_dec (length (a_vals p)) nD) as [E|E];
           [match goal with |- context [data_init nD ?a ?b ?c UNone] => destruct (data_init_bad nD a b c UNone (or_introl (eq_rect _ (fun m => exists e, check_uncert m b = Err e) Or nD E))) as [e ->] end; cbn [bind]
           |rewrite data_init_size by (unfold noisy; rewrite map_length, seq_length; exact E); cbn [bind]]; eexists; reflexivity). }
  destruct Or as (r' & Vr & Nr & Er). rewrite Vr. cbn [bind].
  destruct (operand (length (a_vals p)) h1 f) as [fv|ef]; cbn [bind].
  2:{ destruct (value_of h f) as [f'|]; cbn [bind]; [|eexists; reflexivity].
      destruct f' as [|x|v]; [destruct r'; cbn [bind]; eexists; reflexivity| |];
      (destruct r'; [destruct (Nr eq_refl)| |]; cbn [bind];
          (destruct (Nat.eq_dec (length (a_vals p)) nD) as [E|E];
           [match goal with |- context [data_init nD ?a ?b ?c UNone] => destruct (data_init_bad nD a b c UNone (or_intror (eq_rect _ (fun m => exists e, check_uncert m c = Err e) Of nD E))) as [e ->] end; cbn [bind]
           |rewrite data_init_size by (unfold noisy; rewrite map_length, seq_length; exact E); cbn [bind]]; eexists; reflexivity)). }
  destruct Of as (f' & Vf & Nf & Ef). rewrite Vf. cbn [bind fst snd]. subst rv fv.
  match goal with |- context [mkArr (a_cplx p) ?m] => replace m with (noisy (a_vals p) r' f' z) by (symmetry; apply noisy_values) end.
  set (h2 := h1 ++ [mkArr (a_cplx p) (noisy (a_vals p) r' f' z)]).
  assert (Lh1 : length h1 = Datatypes.S (length h)) by (unfold h1; rewrite app_length; cbn; lia).
  assert (Lh2 : length h2 = Datatypes.S (Datatypes.S (length h))) by (unfold h2; rewrite app_length, Lh1; cbn; lia).
  assert (E2 : h2 = h ++ [p; mkArr (a_cplx p) (noisy (a_vals p) r' f' z)]) by (unfold h2, h1; rewrite <- app_assoc; reflexivity).
  rewrite Lh1.
  assert (Sd : shown h2 (Datatypes.S (length h)) = noisy (a_vals p) r' f' z) by (rewrite <- Lh1; unfold h2; rewrite shown_last; reflexivity).
  assert (Kd : kind h2 (Datatypes.S (length h)) = a_cplx p) by (rewrite <- Lh1; unfold h2; rewrite kind_last; reflexivity).
  assert (Sc : shown h2 (length h) = a_vals p) by (unfold h2; rewrite shown_ext by lia; unfold h1; apply shown_last).
  pose proof (new_data_value nD h2 (Datatypes.S (length h)) (Some (length h)) r f RNone) as K.
  assert (K' := K ltac:(lia) ltac:(intros c Hc; injection Hc as <-; lia)). clear K.
  assert (K := K' ltac:(rewrite app_nil_r; intros j Hj; specialize (Hr j Hj); lia)). clear K'.
  assert (ND2 : NoDup (Datatypes.S (length h) :: opt (Some (length h)) ++ refs r ++ refs f ++ refs RNone)).
  { cbn [opt refs app]. rewrite app_nil_r. constructor; [intros [Z|Z]; [lia|specialize (Hr _ Z); lia]|]. constructor; [intro Z; specialize (Hr _ Z); lia|exact ND]. }
  specialize (K ND2).
  assert (Vr2 : value_of h2 r = Ok r') by (rewrite E2, value_of_ext; [exact Vr|exact Rr]).
  assert (Vf2 : value_of h2 f = Ok f') by (rewrite E2, value_of_ext; [exact Vf|exact Rf]).
  rewrite Vr2, Vf2, Sd, Kd, Sc in K. cbn [value_of bind option_map] in K. rewrite Sc in K.
  assert (G : match (do u <- Ok tt; do x <- data_init nD (noisy (a_vals p) r' f' z) r' f' UNone; Ok (mkValue x (a_cplx p) (Some (a_vals p)))) with
    | Ok v => exists h' o, new_data nD h2 (Datatypes.S (length h)) (Some (length h)) r f RNone = Ok (h', o) /\ extends h h' /\ view nD h' o = v /\ NoDup (held o)
      /\ (forall j, In j (held o) -> (j < length h')%nat /\ (In j (refs r ++ refs f) \/ (length h <= j)%nat)) /\ o_clean o = Some (length h) /\ o_dobs o = Datatypes.S (length h)
    | Err _ => exists e, new_data nD h2 (Datatypes.S (length h)) (Some (length h)) r f RNone = Err e end).
  { cbn [bind]. destruct (data_init nD (noisy (a_vals p) r' f' z) r' f' UNone) as [x|e] eqn:DI; cbn [bind] in K |- *; [|exact K].
    assert (Lp : length (a_vals p) = nD).
    { destruct (Nat.eq_dec (length (a_vals p)) nD) as [E|E]; [exact E|]. rewrite data_init_size in DI; [discriminate|]. unfold noisy. rewrite map_length, seq_length. exact E. }
    apply Nat.eqb_eq in Lp. rewrite Lp in K. destruct K as (h' & o & K & X & V & N & H). exists h', o. split; [exact K|].
    split; [exact (extends_trans _ _ _ (ex_intro _ _ E2) X)|]. split; [exact V|]. split; [exact N|]. split.
    - intros j Hj. destruct (H j Hj) as [H1 H2]. split; [exact H1|]. cbn [opt refs app] in H2. rewrite app_nil_r in H2. destruct H2 as [[<-|[<-|H2]]|H2]; [right; lia|right; lia|left; exact H2|right; lia].
    - clear - K. unfold new_data, keep_data in K.
      repeat match type of K with (do _ <- ?t; _) = _ => destruct t eqn:?; cbn [bind fst snd] in K; [|discriminate] end.
      injection K as _ <-. cbn [o_clean o_dobs].
      repeat match goal with H : (do _ <- ?t; _) = Ok _ |- _ => destruct t eqn:?; cbn [bind] in H; [|discriminate] end.
      repeat match goal with H : (if ?t then Ok _ else Err _) = Ok _ |- _ => destruct t; [|discriminate]; injection H as <- end.
      split; [reflexivity|].
      match goal with H : match r with RNone => _ | _ => _ end = Ok ?q |- _ => rename H into Q; destruct q as [hq oq] end. cbn [fst snd o_dobs].
      assert (Std : forall h0 o0 u q, keep_std nD h0 o0 u = Ok q -> o_dobs (snd q) = o_dobs o0).
      { clear. intros h0 o0 u q H. unfold keep_std, alloc in H.
        repeat match type of H with (do _ <- ?t; _) = _ => destruct t eqn:?; cbn [bind] in H; [|discriminate] end. injection H as <-. reflexivity. }
      destruct r; [destruct f; [apply Std in Q; exact Q| |]| |]; injection Q as <- <-; reflexivity. }
  destruct r' as [|x|v]; [destruct (Nr eq_refl)| |]; (destruct f' as [|y|w]; [destruct (Nf eq_refl)| |]); exact G.
Qed.
