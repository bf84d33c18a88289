(** Filling the matrices row by row or through strided views gives the data in
    the documented order. *)
From Verif Require Import Pf SpecPf.
Local Open Scope R_scope.

Lemma nth_error_ext {A} (l m : list A) : (forall i, nth_error l i = nth_error m i) -> l = m.
Proof.
  revert m; induction l as [|x l IH]; intros [|y m] H; auto.
  - specialize (H 0%nat); discriminate.
  - specialize (H 0%nat); discriminate.
  - f_equal; [pose proof (H 0%nat) as E; injection E; auto|].
    apply IH. intros i. apply (H (S i)).
Qed.

Section Fill.
  Context {Cmp : Type}.
  Notation rx := (list Cmp * list pt)%type.

  Lemma by_location_length {A} (f : Cmp -> pt -> A) s : length (by_location f s) = survey_nD s.
  Proof.
    induction s as [|[cs ls] s IH]; [reflexivity|].
    unfold by_location, survey_nD in *; cbn [flat_map map list_sum fold_right fst snd]. rewrite app_length, IH.
    unfold list_sum; cbn [fold_right]. f_equal. unfold rx_nD; cbn [fst snd]. clear IH.
    induction ls as [|l ls IH]; cbn; [lia|]. rewrite app_length, map_length, IH. nia.
  Qed.
  Lemma by_location_cons {A} (f : Cmp -> pt -> A) r s :
    by_location f (r :: s) = flat_map (fun l => map (fun c => f c l) (fst r)) (snd r) ++ by_location f s.
  Proof. reflexivity. Qed.
  Lemma rx_rows_length {A} (f : Cmp -> pt -> A) (r : rx) : length (flat_map (fun l => map (fun c => f c l) (fst r)) (snd r)) = rx_nD r.
  Proof.
    destruct r as [cs ls]; unfold rx_nD; cbn [fst snd].
    induction ls as [|l ls IH]; cbn; [lia|]. rewrite app_length, map_length, IH. nia.
  Qed.
  Lemma survey_nD_cons (r : rx) s : survey_nD (r :: s) = (rx_nD r + survey_nD s)%nat.
  Proof. reflexivity. Qed.

  (** *** Row by row. *)
  Lemma write_rows_mid {A} (pre mid post rows : list A) :
    length rows = length mid -> write_rows (pre ++ mid ++ post) (length pre) rows = pre ++ rows ++ post.
  Proof.
    intros L. unfold write_rows. rewrite firstn_app, Nat.sub_diag, firstn_O, app_nil_r, firstn_all.
    f_equal. f_equal. rewrite L, app_assoc, skipn_app, app_length.
    rewrite skipn_all2 by (rewrite app_length; lia). rewrite Nat.sub_diag. reflexivity.
  Qed.
  Lemma locs_fill_ok {A} (eval : pt -> list Cmp -> result (list A)) (f : Cmp -> pt -> A) cs :
    forall locs, (forall l, In l locs -> eval l cs = Ok (map (fun c => f c l) cs)) ->
    forall pre mid post, length mid = (length cs * length locs)%nat ->
    locs_fill eval cs locs (pre ++ mid ++ post) (length pre)
    = Ok (pre ++ flat_map (fun l => map (fun c => f c l) cs) locs ++ post, (length pre + length cs * length locs)%nat).
  Proof.
    induction locs as [|l locs IH]; intros E pre mid post L; cbn [locs_fill flat_map].
    - cbn [length] in *. rewrite Nat.mul_0_r in *. destruct mid; [|discriminate]. rewrite Nat.add_0_r. reflexivity.
    - rewrite E by (left; reflexivity). cbn [bind].
      cbn [length] in L.
      assert (Lm : (length cs <= length mid)%nat) by nia.
      rewrite <- (firstn_skipn (length cs) mid), <- app_assoc.
      rewrite write_rows_mid by (rewrite map_length, firstn_length; lia).
      rewrite map_length.
      replace (pre ++ map (fun c => f c l) cs ++ skipn (length cs) mid ++ post)
        with ((pre ++ map (fun c => f c l) cs) ++ skipn (length cs) mid ++ post) by (rewrite <- app_assoc; reflexivity).
      replace (length pre + length cs)%nat with (length (pre ++ map (fun c => f c l) cs)) by (rewrite app_length, map_length; reflexivity).
      rewrite IH; [|intros; apply E; right; assumption|rewrite skipn_length; nia].
      rewrite app_length, map_length. rewrite <- !app_assoc. f_equal. f_equal. cbn [length]. nia.
  Qed.
  Lemma geoana_fill_ok {A} (eval : pt -> list Cmp -> result (list A)) (f : Cmp -> pt -> A) :
    forall s, (forall r l, In r s -> In l (snd r) -> eval l (fst r) = Ok (map (fun c => f c l) (fst r))) ->
    forall pre mid, length mid = survey_nD s ->
    geoana_fill eval s (pre ++ mid) (length pre) = Ok (pre ++ by_location f s).
  Proof.
    induction s as [|[cs ls] s IH]; intros E pre mid L.
    - destruct mid; [reflexivity|discriminate].
    - cbn [geoana_fill].
      rewrite survey_nD_cons in L. unfold rx_nD in L; cbn [fst snd] in L.
      rewrite <- (firstn_skipn (length cs * length ls) mid).
      rewrite (locs_fill_ok eval f cs ls); [|intros l Hl; apply (E (cs, ls)); [left; reflexivity|exact Hl]|rewrite firstn_length; lia].
      cbn [bind fst snd]. rewrite by_location_cons; cbn [fst snd].
      rewrite app_assoc.
      replace (length pre + length cs * length ls)%nat
        with (length (pre ++ flat_map (fun l => map (fun c => f c l) cs) ls)).
      + rewrite IH; [rewrite <- app_assoc; reflexivity|intros r l Hr Hl; apply E; [right; exact Hr|exact Hl]|rewrite skipn_length; lia].
      + rewrite app_length. f_equal. apply (rx_rows_length f (cs, ls)).
  Qed.

  (** *** Strided writes. *)
  Lemma upd_at_length {A} (K : list A) i f : length (upd_at K i f) = length K.
  Proof. revert i; induction K as [|x K IH]; intros [|i]; cbn; auto. Qed.
  Lemma upd_at_same {A} (K : list A) i f : nth_error (upd_at K i f) i = option_map f (nth_error K i).
  Proof. revert i; induction K as [|x K IH]; intros [|i]; cbn; auto. Qed.
  Lemma upd_at_other {A} (K : list A) i j f : i <> j -> nth_error (upd_at K i f) j = nth_error K j.
  Proof. revert i j; induction K as [|x K IH]; intros [|i] [|j] H; cbn; auto; lia. Qed.

  Section W.
    Context {A : Type} (w : Cmp -> pt -> A -> A).
    Lemma comp_write_spec off nc i c : (0 < nc)%nat -> forall locs r0 K,
      let K' := fold_left (fun K rl => upd_at K (off + i + fst rl * nc)%nat (w c (snd rl))) (combine (seq r0 (length locs)) locs) K in
      (forall r l, nth_error locs r = Some l ->
         nth_error K' (off + i + (r0 + r) * nc)%nat = option_map (w c l) (nth_error K (off + i + (r0 + r) * nc)%nat)) /\
      (forall j, (forall r, (r < length locs)%nat -> j <> (off + i + (r0 + r) * nc)%nat) -> nth_error K' j = nth_error K j) /\
      length K' = length K.
    Proof.
      intros Hnc. induction locs as [|l locs IH]; intros r0 K; cbn [length seq combine fold_left fst snd].
      - split; [intros [|r] l H; discriminate|]. split; [intros; reflexivity|reflexivity].
      - destruct (IH (S r0) (upd_at K (off + i + r0 * nc)%nat (w c l))) as (H1 & H2 & H3).
        cbn zeta in *. split; [|split].
        + intros [|r] l' E; cbn in E.
          * injection E as ->. rewrite Nat.add_0_r. rewrite H2, upd_at_same; [reflexivity|].
            intros r _. nia.
          * replace (r0 + S r)%nat with (S r0 + r)%nat by lia. rewrite (H1 r l' E).
            rewrite upd_at_other by nia. reflexivity.
        + intros j Hj. rewrite H2.
          * apply upd_at_other. intros E. apply (Hj 0%nat); [lia|]. rewrite Nat.add_0_r. auto.
          * intros r Hr. replace (S r0 + r)%nat with (r0 + S r)%nat by lia. apply Hj. lia.
        + rewrite H3. apply upd_at_length.
    Qed.
    Lemma rx_write_spec off nc locs : forall cs i0 K, (i0 + length cs <= nc)%nat ->
      let K' := fold_left (fun K ic => comp_write w off nc (fst ic) (snd ic) locs K) (combine (seq i0 (length cs)) cs) K in
      (forall i c r l, nth_error cs i = Some c -> nth_error locs r = Some l ->
         nth_error K' (off + (i0 + i) + r * nc)%nat = option_map (w c l) (nth_error K (off + (i0 + i) + r * nc)%nat)) /\
      (forall j, (forall i r, (i < length cs)%nat -> (r < length locs)%nat -> j <> (off + (i0 + i) + r * nc)%nat) -> nth_error K' j = nth_error K j) /\
      length K' = length K.
    Proof.
      induction cs as [|c cs IH]; intros i0 K Hn; cbn [length seq combine fold_left fst snd].
      - split; [intros [|i] c r l H; discriminate|]. split; [intros; reflexivity|reflexivity].
      - cbn [length] in Hn. assert (Hnc : (0 < nc)%nat) by lia.
        destruct (comp_write_spec off nc i0 c Hnc locs 0%nat K) as (C1 & C2 & C3).
        fold (comp_write w off nc i0 c locs K) in C1, C2, C3.
        destruct (IH (S i0) (comp_write w off nc i0 c locs K) ltac:(lia)) as (H1 & H2 & H3).
        cbn zeta in *. split; [|split].
        + intros [|i] c' r l E El; cbn in E.
          * injection E as ->. rewrite Nat.add_0_r.
            assert (Hr : (r < length locs)%nat) by (apply nth_error_Some; rewrite El; discriminate).
            rewrite H2; [apply (C1 r l El)|].
            intros i r' Hi Hr' E'.
            assert (r = r') by nia. subst. lia.
          * replace (i0 + S i)%nat with (S i0 + i)%nat by lia. rewrite (H1 i c' r l E El).
            f_equal. apply C2. intros r' Hr' E'.
            assert (Hi : (i < length cs)%nat) by (apply nth_error_Some; rewrite E; discriminate).
            assert (r = r') by nia. subst. lia.
        + intros j Hj. rewrite H2.
          * apply C2. intros r Hr. specialize (Hj 0%nat r ltac:(lia) Hr). rewrite Nat.add_0_r in Hj. exact Hj.
          * intros i r Hi Hr. replace (S i0 + i)%nat with (i0 + S i)%nat by lia. apply Hj; lia.
        + rewrite H3. exact C3.
    Qed.
  End W.

  Lemma rx_rows_nth {A} (f : Cmp -> pt -> A) cs : forall locs i c r l,
    nth_error cs i = Some c -> nth_error locs r = Some l ->
    nth_error (flat_map (fun l => map (fun c => f c l) cs) locs) (i + r * length cs) = Some (f c l).
  Proof.
    induction locs as [|l0 locs IH]; intros i c r l Ec El; [destruct r; discriminate|].
    assert (Hi : (i < length cs)%nat) by (apply nth_error_Some; rewrite Ec; discriminate).
    cbn [flat_map]. destruct r as [|r]; cbn in El.
    - injection El as ->. rewrite nth_error_app1 by (rewrite map_length; lia).
      rewrite Nat.add_0_r, nth_error_map, Ec. reflexivity.
    - rewrite nth_error_app2 by (rewrite map_length; nia). rewrite map_length.
      replace (i + S r * length cs - length cs)%nat with (i + r * length cs)%nat by nia.
      apply IH; assumption.
  Qed.

  (** Apply a list of updates to a list of entries. *)
  Definition apply_all {A} (fs : list (A -> A)) (xs : list A) : list A := map (fun p => fst p (snd p)) (combine fs xs).
  Lemma apply_all_app {A} (f1 f2 : list (A -> A)) x1 x2 : length f1 = length x1 -> apply_all (f1 ++ f2) (x1 ++ x2) = apply_all f1 x1 ++ apply_all f2 x2.
  Proof.
    unfold apply_all. revert x1; induction f1 as [|f f1 IH]; intros [|x x1]; cbn; intros; try lia; auto.
    f_equal. apply IH. lia.
  Qed.
  Lemma nth_error_combine {A B} : forall (l : list A) (m : list B) i a b,
    nth_error l i = Some a -> nth_error m i = Some b -> nth_error (combine l m) i = Some (a, b).
  Proof.
    induction l as [|x l IH]; intros [|y m] [|i] a b; cbn; try discriminate.
    - injection 1 as ->; injection 1 as ->; reflexivity.
    - apply IH.
  Qed.
  Lemma apply_all_length {A} (fs : list (A -> A)) xs : length fs = length xs -> length (apply_all fs xs) = length xs.
  Proof. intros L. unfold apply_all. rewrite map_length, combine_length. lia. Qed.

  Lemma rx_write_all {A} (w : Cmp -> pt -> A -> A) (r : rx) pre mid post :
    length mid = rx_nD r ->
    rx_write w (length pre) r (pre ++ mid ++ post)
    = pre ++ apply_all (flat_map (fun l => map (fun c => w c l) (fst r)) (snd r)) mid ++ post.
  Proof.
    intros L. set (fs := flat_map _ _).
    assert (Lf : length fs = length mid) by (unfold fs; rewrite (rx_rows_length w r); auto).
    destruct (rx_write_spec w (length pre) (length (fst r)) (snd r) (fst r) 0%nat (pre ++ mid ++ post) ltac:(lia)) as (H1 & H2 & H3).
    fold (rx_write w (length pre) r (pre ++ mid ++ post)) in H1, H2, H3.
    apply nth_error_ext. intros j.
    unfold rx_nD in L. remember (length (fst r)) as nc eqn:Enc. remember (length (snd r)) as nl eqn:Enl.
    destruct (Nat.lt_ge_cases j (length pre)) as [Hlt|Hge].
    - rewrite H2; [rewrite !nth_error_app1 by lia; reflexivity|].
      intros i q _ _. lia.
    - destruct (Nat.lt_ge_cases j (length pre + nc * nl)) as [Hin|Hout].
      + assert (Hnc : (0 < nc)%nat) by nia.
        set (d := (j - length pre)%nat).
        assert (Hd : d = (d mod nc + (d / nc) * nc)%nat) by (rewrite Nat.add_comm, (Nat.mul_comm (d / nc)); apply Nat.div_mod; lia).
        assert (Hi : (d mod nc < nc)%nat) by (apply Nat.mod_upper_bound; lia).
        assert (Hr : (d / nc < nl)%nat) by (apply Nat.div_lt_upper_bound; unfold d; lia).
        destruct (nth_error (fst r) (d mod nc)) as [c|] eqn:Ec; [|apply nth_error_None in Ec; lia].
        destruct (nth_error (snd r) (d / nc)) as [l|] eqn:El; [|apply nth_error_None in El; lia].
        pose proof (H1 _ _ _ _ Ec El) as E. cbn in E.
        replace (length pre + d mod nc + d / nc * nc)%nat with j in E by (unfold d in *; lia).
        rewrite E.
        rewrite (nth_error_app2 pre (mid ++ post)) by lia.
        rewrite (nth_error_app2 pre (apply_all _ _ ++ post)) by lia.
        fold d. rewrite (nth_error_app1 mid) by (unfold d; lia).
        rewrite (nth_error_app1 (apply_all fs mid)) by (rewrite apply_all_length by exact Lf; unfold d; lia).
        unfold apply_all. rewrite nth_error_map.
        destruct (nth_error mid d) as [x|] eqn:Ex; [|apply nth_error_None in Ex; unfold d in Ex; lia].
        pose proof (rx_rows_nth w (fst r) (snd r) _ _ _ _ Ec El) as Ef.
        rewrite <- Enc, <- Hd in Ef. fold fs in Ef.
        rewrite (nth_error_combine fs mid d (w c l) x Ef Ex). reflexivity.
      + rewrite H2.
        * rewrite (nth_error_app2 pre), (nth_error_app2 mid) by lia.
          rewrite (nth_error_app2 pre), (nth_error_app2 (apply_all fs mid)) by (try rewrite apply_all_length by exact Lf; lia).
          rewrite apply_all_length by exact Lf. reflexivity.
        * intros i q Hi Hq. nia.
  Qed.
  Lemma choclo_write_all {A} (w : Cmp -> pt -> A -> A) : forall s pre mid,
    length mid = survey_nD s ->
    choclo_write w s (length pre) (pre ++ mid) = pre ++ apply_all (by_location w s) mid.
  Proof.
    induction s as [|r s IH]; intros pre mid L; cbn [choclo_write].
    - destruct mid; [reflexivity|discriminate].
    - rewrite survey_nD_cons in L.
      rewrite <- (firstn_skipn (rx_nD r) mid).
      rewrite rx_write_all by (rewrite firstn_length; lia).
      rewrite by_location_cons.
      rewrite apply_all_app by (rewrite (rx_rows_length w r), firstn_length; lia).
      rewrite app_assoc.
      set (P := pre ++ apply_all _ (firstn (rx_nD r) mid)).
      replace (length pre + rx_nD r)%nat with (length P).
      + rewrite IH by (rewrite skipn_length; lia). unfold P. rewrite <- app_assoc. reflexivity.
      + unfold P. rewrite app_length. f_equal.
        assert (Lm : length (firstn (rx_nD r) mid) = rx_nD r) by (rewrite firstn_length; lia).
        rewrite apply_all_length; [exact Lm|]. rewrite (rx_rows_length w r); auto.
  Qed.
  Lemma apply_all_const {A} (fs : list A) xs : length fs = length xs -> apply_all (map (fun a _ => a) fs) xs = fs.
  Proof.
    unfold apply_all. revert xs; induction fs as [|f fs IH]; intros [|x xs]; cbn; intros; try lia; auto.
    f_equal. apply IH; lia.
  Qed.
  Lemma by_location_map {A B} (g : A -> B) (f : Cmp -> pt -> A) s : by_location (fun c l => g (f c l)) s = map g (by_location f s).
  Proof.
    induction s as [|[cs ls] s IH]; [reflexivity|].
    rewrite !by_location_cons, map_app, IH; cbn [fst snd]. f_equal.
    clear IH. induction ls as [|l ls IH]; [reflexivity|]. cbn [flat_map]. rewrite map_app, IH, map_map. reflexivity.
  Qed.
  Lemma by_location_ext {A} (f g : Cmp -> pt -> A) s : (forall l, In l (locations s) -> forall c, f c l = g c l) -> by_location f s = by_location g s.
  Proof.
    induction s as [|[cs ls] s IH]; intros E; [reflexivity|].
    rewrite !by_location_cons; cbn [fst snd]. f_equal.
    - assert (E' : forall l, In l ls -> forall c, f c l = g c l) by (intros l Hl; apply E; unfold locations; cbn; apply in_or_app; left; exact Hl).
      clear E IH. induction ls as [|l ls IH]; [reflexivity|]. cbn [flat_map]. f_equal.
      + apply map_ext. intros c. apply E'. left; reflexivity.
      + apply IH. intros; apply E'; right; assumption.
    - apply IH. intros l Hl. apply E. unfold locations in *; cbn; apply in_or_app; right; exact Hl.
  Qed.

  Lemma choclo_matrix_ok (row : Cmp -> pt -> vec) s K0 : length K0 = survey_nD s -> choclo_matrix row s K0 = by_location row s.
  Proof.
    intros L. unfold choclo_matrix. change (choclo_write (fun c l (_ : vec) => row c l) s 0 K0) with (choclo_write (fun c l (_ : vec) => row c l) s (length (@nil vec)) ([] ++ K0)).
    rewrite choclo_write_all by exact L. cbn [app].
    rewrite (by_location_map (fun a (_ : vec) => a) row s). apply apply_all_const. rewrite by_location_length. auto.
  Qed.
  Lemma choclo_forward_ok (fwd : Cmp -> pt -> R -> R) s : choclo_forward fwd s = by_location (fun c l => fwd c l 0) s.
  Proof.
    unfold choclo_forward. change (choclo_write fwd s 0 (vzero (survey_nD s))) with (choclo_write fwd s (length (@nil R)) ([] ++ vzero (survey_nD s))).
    rewrite choclo_write_all by apply vzero_length. cbn [app].
    rewrite (by_location_map (fun f : R -> R => f 0) fwd s).
    unfold apply_all, vzero, vconst. rewrite <- (by_location_length fwd s).
    induction (by_location fwd s) as [|f fs IH]; [reflexivity|]. cbn. f_equal. exact IH.
  Qed.
End Fill.
