(** Column files: reading, and what goes wrong. *)
From Verif Require Import Py Vec Abmn SpecAbmn AbmnFacts AbmnFacts2 DcXyz SpecDcXyz LinSimFacts DcXyzFacts.
From Coq Require Import String Permutation Lia Lra.
Local Open Scope R_scope.
Local Open Scope list_scope.

Lemma check_std_iff w : (check_std w = Ok w <-> Forall (fun x => 0 <= x) w) /\ (check_std w = Ok w \/ check_std w = Err ValueError).
Proof.
  unfold check_std. destruct (existsb (fun x => if Rlt_dec x 0 then true else false) w) eqn:E; (split; [|now auto]).
  - split; [discriminate|]. intros F. apply existsb_exists in E as (x & I & X). rewrite Forall_forall in F. specialize (F x I). cbn beta in F. destruct (Rlt_dec x 0); [lra|discriminate].
  - split; [|reflexivity]. intros _. apply Forall_forall. intros x I. destruct (Rlt_dec x 0) as [N|N]; [|lra].
    assert (existsb (fun x => if Rlt_dec x 0 then true else false) w = true); [|congruence]. apply existsb_exists. exists x. split; [exact I|]. now destruct (Rlt_dec x 0).
Qed.
Lemma check_std_inv w w' : check_std w = Ok w' -> w' = w.
Proof. unfold check_std. destruct (existsb _ w); [discriminate|]. now intros [= <-]. Qed.

Lemma read_is_right h surface f k extra x out : coordinates k h -> f_head f = out_headers h ++ extra -> full_file f -> read_xyz h surface f = Ok (x, out) -> read_right f h surface x out.
Proof.
  intros C HD FU H. rewrite (read_eq h surface f k extra C HD FU) in H. unfold read_right.
  destruct (from_rows (map (electrodes_of f h surface) (f_rows f))) as [[s o]|] eqn:FR; [|discriminate]. cbn [bind fst snd] in H.
  destruct (h_unc h) as [u|]; cbn [option_map] in *.
  - destruct (check_std (column_of f o u)) as [w|] eqn:W; [|discriminate]. apply check_std_inv in W. subst w. cbn [bind] in H. injection H as <- <-. cbn. auto.
  - cbn [bind] in H. injection H as <- <-. cbn. auto.
Qed.
Lemma column_perm f out u : Permutation out (seq 0 (List.length (f_rows f))) -> Forall (fun x => 0 <= x) (column_of f out u) <-> Forall (fun r => 0 <= under u (f_head f) r) (f_rows f).
Proof.
  intros P. rewrite !Forall_forall. split; intros H.
  - intros r I. destruct (In_nth _ _ [] I) as (j & J & E). apply (H (under u (f_head f) r)). apply in_map_iff. exists j. rewrite E. split; [reflexivity|]. apply (Permutation_in _ (Permutation_sym P)), in_seq. lia.
  - intros v I. apply in_map_iff in I as (j & <- & J). apply (Permutation_in _ P), in_seq in J. apply H, nth_In. lia.
Qed.
Lemma read_accepts h surface f k extra : coordinates k h -> f_head f = out_headers h ++ extra -> full_file f ->
  (exists r, read_xyz h surface f = Ok r) <-> apart (map (electrodes_of f h surface) (f_rows f)) /\ match h_unc h with Some u => Forall (fun r => 0 <= under u (f_head f) r) (f_rows f) | None => True end.
Proof.
  intros C HD FU. rewrite (read_eq h surface f k extra C HD FU).
  assert (NE : map (electrodes_of f h surface) (f_rows f) <> []) by (destruct FU as (_ & _ & X); destruct (f_rows f); [cbn in X; lia|discriminate]).
  pose proof (accepted (map (electrodes_of f h surface) (f_rows f))) as AC.
  destruct (from_rows (map (electrodes_of f h surface) (f_rows f))) as [[s o]|] eqn:FR.
  - pose proof (order_perm _ _ _ FR) as P. rewrite map_length in P. cbn [bind fst snd].
    assert (AP : apart (map (electrodes_of f h surface) (f_rows f))) by (apply AC; eauto).
    destruct (h_unc h) as [u|]; cbn [option_map].
    + rewrite <- (column_perm f o u P). destruct (check_std_iff (column_of f o u)) as (I & D). split.
      * intros (r & H). split; [exact AP|]. apply I. destruct D as [D|D]; [exact D|]. rewrite D in H. discriminate.
      * intros (_ & F). apply I in F. rewrite F. cbn [bind]. eauto.
    + cbn [bind]. split; [now auto|eauto].
  - cbn [bind]. split; [intros (? & ?); discriminate|]. intros (A & _). destruct (proj2 AC (conj NE A)) as (? & ?). discriminate.
Qed.

(** One row. *)
Lemma single_row h surface head r x : ~ exists o, read_xyz h surface {| f_head := head; f_rows := [r] |} = Ok (x, o).
Proof.
  intros (o & H). unfold read_xyz in H. destruct (mapM _ (out_headers h)) as [cols|]; [|discriminate]. cbn [bind f_rows mapM] in H.
  destruct (mapM (at_col ValueError r) cols); discriminate.
Qed.
Lemma single_row_error h surface f r cols : f_rows f = [r] -> mapM (fun x => col_index x (f_head f)) (out_headers h) = Ok cols -> List.length r = List.length (f_head f) -> read_xyz h surface f = Err IndexError.
Proof.
  intros E H L. unfold read_xyz. rewrite H, E. cbn [bind mapM].
  assert (F : Forall (fun c => (c < List.length r)%nat) cols).
  { apply Forall_forall. intros c I. destruct (In_nth _ _ 0%nat I) as (i & IL & <-). pose proof (mapM_ok_length _ _ _ H) as EL.
    destruct (nth_error (out_headers h) i) as [x|] eqn:X; [|apply nth_error_None in X; lia].
    destruct (mapM_ok_nth _ _ _ _ _ H X) as (y & Y1 & Y2). rewrite (nth_error_nth _ _ 0%nat Y1). destruct (under_at x (f_head f) y r Y2 L). lia. }
  rewrite (mapM_at _ _ _ F). reflexivity.
Qed.
(** A header that is not in the file. *)
Lemma col_index_missing x l : ~ In x l -> col_index x l = Err ValueError.
Proof. induction l as [|y l IH]; intros H; cbn; [reflexivity|]. destruct (String.eqb_spec y x) as [E|E]; [exfalso; apply H; now left|]. rewrite IH; [reflexivity|]. intros I; apply H; now right. Qed.
Lemma col_index_value x l : (exists i, col_index x l = Ok i) \/ col_index x l = Err ValueError.
Proof. induction l as [|y l IH]; cbn; [now right|]. destruct (String.eqb y x); [left; eauto|]. destruct IH as [(i & ->)| ->]; cbn; [left; eauto|now right]. Qed.
Lemma missing_header h surface f x : In x (out_headers h) -> ~ In x (f_head f) -> read_xyz h surface f = Err ValueError.
Proof.
  intros I N. unfold read_xyz. assert (E : mapM (fun x => col_index x (f_head f)) (out_headers h) = Err ValueError); [|rewrite E; reflexivity].
  induction (out_headers h) as [|y l IH]; [destruct I|]. cbn [mapM]. destruct I as [-> |I].
  - rewrite (col_index_missing _ _ N). reflexivity.
  - destruct (col_index_value y (f_head f)) as [(i & ->)| ->]; [|reflexivity]. cbn [bind]. rewrite (IH I). reflexivity.
Qed.

(** The datum in the first column: the reader returns the x coordinate of A. *)
Section First.
Variables (h : headers) (surface : bool) (f : cfile) (k : nat) (d : string).
Hypothesis C : coordinates k h.
Hypothesis DA : h_data h = Some d.
Hypothesis UN : h_unc h = None.
Hypothesis DI : h_dict h = None.
Hypothesis HD : f_head f = d :: h_a h ++ h_b h ++ h_m h ++ h_n h.
Hypothesis FU : full_file f.
Lemma first_cols : mapM (fun x => col_index x (f_head f)) (out_headers h) = Ok (seq 1 (4 * k) ++ [0%nat]).
Proof.
  unfold out_headers. rewrite DA, UN, DI. cbn [opt_list]. rewrite !app_nil_r. rewrite !app_assoc.
  assert (A : forall (g : string -> result nat) l e, mapM g (l ++ [e]) = do a <- mapM g l; do b <- g e; Ok (a ++ [b])).
  { intros g l e. induction l as [|y l IH]; cbn [app mapM]; [destruct (g e); reflexivity|]. destruct (g y); [|reflexivity]. cbn [bind]. rewrite IH. destruct (mapM g l); [|reflexivity]. cbn [bind]. destruct (g e); reflexivity. }
  rewrite A. pose proof (index_seq [] (h_a h ++ h_b h ++ h_m h ++ h_n h) [d]) as I. cbn [app] in I. rewrite app_nil_r in I.
  rewrite HD, <- !app_assoc. rewrite I by (rewrite <- HD; apply FU). cbn [bind col_index]. rewrite String.eqb_refl. cbn [bind].
  destruct C as (E1 & E2 & E3 & E4 & _). rewrite !app_length, E1, E2, E3, E4. cbn [List.length]. replace (k + (k + (k + k)))%nat with (4 * k)%nat by lia. reflexivity.
Qed.
Lemma data_first x out : read_xyz h surface f = Ok (x, out) -> x_obs x = Some (column_of f out (nth 0 (h_a h) EmptyString)).
Proof.
  intros H. unfold read_xyz in H. rewrite first_cols in H. cbn [bind] in H.
  assert (RL : forall r, In r (f_rows f) -> List.length r = S (4 * k)).
  { intros r I. destruct FU as (_ & F & _). rewrite Forall_forall in F. rewrite (F r I), HD. destruct C as (E1 & E2 & E3 & E4 & _). cbn [List.length]. rewrite !app_length. lia. }
  assert (AR : mapM (fun r => mapM (at_col ValueError r) (seq 1 (4 * k) ++ [0%nat])) (f_rows f) = Ok (map (fun r => map (fun c => nth c r 0) (seq 1 (4 * k) ++ [0%nat])) (f_rows f))).
  { apply mapM_all. intros r I. apply mapM_at. apply Forall_forall. intros c J. rewrite (RL r I). apply in_app_or in J as [J|[<- |[]]]; [apply in_seq in J; lia|lia]. }
  rewrite AR in H. cbn [bind] in H. destruct (_ <=? 1)%nat; [discriminate|].
  destruct (take_cols _ _) as [ga|]; [|discriminate]. cbn [bind] in H. destruct (take_cols _ _) as [gb|]; [|discriminate]. cbn [bind] in H.
  destruct (take_cols _ _) as [gm|]; [|discriminate]. cbn [bind] in H. destruct (take_cols _ _) as [gn|]; [|discriminate]. cbn [bind] in H.
  destruct (from_rows _) as [[s o]|] eqn:FR; [|discriminate]. cbn [bind fst snd] in H.
  rewrite DA, UN, DI in H. unfold opt_col in H. rewrite HD in H. cbn [col_index] in H. rewrite String.eqb_refl in H. cbn [bind] in H.
  destruct (column _ o 0) as [v|] eqn:CO; [|discriminate]. cbn [bind] in H. injection H as <- <-. cbn. f_equal.
  unfold column in CO. apply nth_ext with (d := 0) (d' := 0).
  - rewrite (mapM_ok_length _ _ _ CO). unfold column_of. now rewrite map_length.
  - intros i IL. rewrite (mapM_ok_length _ _ _ CO) in IL. unfold column_of. rewrite (gmap_nth _ o i 0 0%nat) by exact IL.
    destruct (mapM_ok_nth _ _ _ _ _ CO (nth_error_nth' o 0%nat IL)) as (y & Y1 & Y2). rewrite (nth_error_nth _ _ 0 Y1).
    destruct (Nat.lt_ge_cases (nth i o 0%nat) (List.length (f_rows f))) as [J|J].
    + rewrite (gmap_nth _ (f_rows f) (nth i o 0%nat) [] []) in Y2 by exact J.
      assert (IR : In (nth (nth i o 0%nat) (f_rows f) []) (f_rows f)) by (apply nth_In; exact J). pose proof (RL _ IR) as RE. destruct FU as (ND & _). rewrite HD in ND |- *.
      destruct C as (E1 & _ & _ & _ & KK). destruct (h_a h) as [|a0 ha] eqn:HA; [cbn in E1; lia|]. destruct (4 * k)%nat as [|kk] eqn:K4; [lia|].
      destruct (nth (nth i o 0%nat) (f_rows f) []) as [|v0 [|v1 rr]] eqn:R0; cbn in RE; try lia.
      unfold at_col in Y2. cbn in Y2. injection Y2 as <-. cbn [nth under app].
      destruct (String.eqb_spec d a0) as [->|_]; [exfalso; apply NoDup_cons_iff in ND as (ND & _); apply ND; now left|]. now rewrite String.eqb_refl.
    + rewrite nth_overflow in Y2 by (rewrite map_length; exact J). unfold at_col in Y2. cbn in Y2. discriminate.
Qed.
End First.
