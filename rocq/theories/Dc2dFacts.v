(** 2.5D DC: what the calls compute, whatever the history. *)
From Coq Require Import Reals Lra Lia.
From Verif Require Import Py Vec VecDeriv Joint LinSimFacts Dc SpecDc Dc2d SpecDc2d.
Local Open Scope R_scope.

Lemma dget_app {A} i (d : list (nat * A)) k x : dict_get Nat.eqb i (d ++ [(k, x)]) =
  match dict_get Nat.eqb i d with Some y => Some y | None => if Nat.eqb i k then Some x else None end.
Proof. induction d as [|[a y] d IH]; cbn; [reflexivity|]. destruct (Nat.eqb i a); [reflexivity|exact IH]. Qed.

Section Pure.
  Context (s : dc2) (bc : bct).
  Let K := length (e_ks s).
  Definition Bp (i : nat) : mat := if bc_needed s bc then e_bcm s bc i else [].
  Definition Ap (m : vec) (i : nat) : mx := A_mat s bc (Bp i) i m.
  Definition Bsp (m : vec) (i : nat) : mat * mat :=
    match e_form s with Cell => ([], []) | Nodal => if bc_needed s bc then (e_bcm s bc i, e_dsig s m) else ([], []) end.
  Definition up (m : vec) (i : nat) (c : src2) : vec := e_solve s (Ap m i) (c_q c).
  Definition fP (m : vec) : fields2T := map (fun i => map (up m i) (e_srcs s)) (ks_idx s).
  Definition AsP (m : vec) : list mx := map (Ap m) (ks_idx s).
  Definition w_ (i : nat) : R := nth i (e_ws s) 0.
  Definition jv1 (m v : vec) (i : nat) (c : src2) : vec :=
    concat (map (fun r => rx2_deriv r (e_solve s (Ap m i) (vopp (A_deriv s bc (Bp i) (Bsp m i) i m (up m i c) v)))) (c_rx c)).
  Definition JvP (m v : vec) (l : list nat) (acc : vec) : vec :=
    fold_left (fun acc i => vadd acc (vscale (w_ i) (concat (map (jv1 m v i) (e_srcs s))))) l acc.
  Definition jt1 (m : vec) (i : nat) (w : vec) (c : src2) : vec :=
    vopp (A_derivT s bc (Bp i) (Bsp m i) i m (up m i c)
      (e_solve s (Ap m i) (fold_right (fun rw acc => vadd (rx2_derivT s (fst rw) (snd rw)) acc) (vzero (e_n s)) (combine (c_rx c) (cut (map rx2_nD (c_rx c)) w))))).
  Definition JtP (m w : vec) (l : list nat) (acc : vec) : vec :=
    fold_left (fun acc i => fold_left (fun acc x => vadd acc (vscale (w_ i) x))
      (map (fun wc => jt1 m i (fst wc) (snd wc)) (combine (cut (map src2_nD (e_srcs s)) w) (e_srcs s))) acc) l acc.
  Definition j1 (m : vec) (i : nat) (c : src2) : mat :=
    concat (map (fun r => map (fun row => vscale (- w_ i) (A_derivT s bc (Bp i) (Bsp m i) i m (up m i c) (e_solve s (Ap m i) row))) (rx2_rows r)) (c_rx c)).
  Definition JP2 (m : vec) (l : list nat) (acc : mat) : mat := fold_left (fun acc i => madd acc (concat (map (j1 m i) (e_srcs s)))) l acc.
  Definition JJ (m : vec) : mat := JP2 m (ks_idx s) (repeat (vzero (e_p s)) (nD2 s)).

  Definition InvB (st : state2) : Prop := u_bc st = bc /\ forall i B, dict_get Nat.eqb i (u_B st) = Some B -> B = e_bcm s bc i.
  Definition BsAt (st : state2) (m : vec) : Prop := forall i x, e_form s = Nodal -> bc_needed s bc = true -> dict_get Nat.eqb i (u_Bs st) = Some x -> x = Bsp m i.
  Definition full (st : state2) : Prop := forall i, (i < K)%nat -> getB s st i = Ok (Bp i).
  Definition InvA (st : state2) : Prop := forall As, u_A st = Some As -> full st.
  Definition InvJ (st : state2) : Prop := forall J, u_J st = Some J -> exists m, u_model st = Some m /\ J = JJ m.
  Definition InvS2 (st : state2) : Prop := InvB st /\ InvA st /\ InvJ st.

  Lemma setBC_ok st i : InvB st -> InvB (setBC s st i) /\ getB s (setBC s st i) i = Ok (Bp i) /\
    (forall j, getB s st j = Ok (Bp j) -> getB s (setBC s st i) j = Ok (Bp j)) /\
    u_model (setBC s st i) = u_model st /\ u_A (setBC s st i) = u_A st /\ u_Bs (setBC s st i) = u_Bs st /\ u_J (setBC s st i) = u_J st.
  Proof.
    intros [E H]. unfold setBC, getB, Bp. rewrite E. destruct (bc_needed s bc) eqn:N.
    - destruct (dict_get Nat.eqb i (u_B st)) as [B|] eqn:D.
      + rewrite E, N, D. split; [split; [exact E|exact H]|]. rewrite (H _ _ D). repeat (split; auto).
      + cbn [u_bc u_B u_model u_A u_Bs u_J]. rewrite ?E, N. split; [split; [reflexivity|]|].
        * cbn [u_B]. intros j B'. rewrite dget_app. destruct (dict_get Nat.eqb j (u_B st)) eqn:Dj; [intros Q; injection Q as <-; now apply H|].
          destruct (Nat.eqb_spec j i) as [->|]; [congruence|discriminate].
        * rewrite dget_app, D, Nat.eqb_refl. split; [reflexivity|]. split; [|repeat (split; auto)].
          intros j. rewrite dget_app. destruct (dict_get Nat.eqb j (u_B st)); [auto|]. destruct (u_B st); discriminate.
    - rewrite E, N. split; [split; auto|]. repeat (split; auto).
  Qed.

  Lemma field_loop_ok m : forall l st As acc, InvB st ->
    exists st', field_loop s st m l As acc = (st', Ok (rev As ++ map (Ap m) l, rev acc ++ map (fun i => map (up m i) (e_srcs s)) l)) /\ InvB st' /\
      (forall j, getB s st j = Ok (Bp j) -> getB s st' j = Ok (Bp j)) /\ (forall j, In j l -> getB s st' j = Ok (Bp j)) /\
      u_model st' = u_model st /\ u_A st' = u_A st /\ u_Bs st' = u_Bs st /\ u_J st' = u_J st.
  Proof.
    induction l as [|i l IH]; intros st As acc I; cbn [field_loop].
    - exists st. rewrite !app_nil_r. split; [reflexivity|]. split; [exact I|]. split; [auto|]. split; [intros j []|auto].
    - destruct (setBC_ok st i I) as (I1 & G1 & K1 & M1 & A1 & S1 & J1). rewrite G1.
      destruct (IH (setBC s st i) (A_mat s (u_bc (setBC s st i)) (Bp i) i m :: As)
        (map (fun c => e_solve s (A_mat s (u_bc (setBC s st i)) (Bp i) i m) (c_q c)) (e_srcs s) :: acc) I1) as (st' & E & I' & K' & F' & M' & A' & S' & J').
      exists st'. rewrite E. split.
      { cbn [rev map]. rewrite <- !app_assoc. destruct I1 as [-> _]. reflexivity. }
      split; [exact I'|]. split; [auto|]. split; [intros j [<-|Hj]; [apply K'; exact G1|now apply F']|]. split; [congruence|]. split; [congruence|]. split; congruence.
  Qed.

  Lemma set_model2_ok st m : InvS2 st -> length m = e_p s -> e_fixJ s = false ->
    exists st', set_model2 s st m = (st', Ok tt) /\ InvS2 st' /\ u_A st' = u_A st /\ u_model st' = Some m /\ u_Bs st' = u_Bs st /\ u_B st' = u_B st.
  Proof.
    intros (IB & IA & IJ) Lm FJ. unfold set_model2. rewrite Lm, Nat.eqb_refl, FJ.
    assert (X : exists st', (mkSt2 (u_bc st) (Some m) (u_A st) (u_B st) (u_Bs st) None, Ok tt : result unit) = (st', Ok tt) /\ InvS2 st' /\ u_A st' = u_A st /\ u_model st' = Some m /\ u_Bs st' = u_Bs st /\ u_B st' = u_B st).
    { eexists. split; [reflexivity|]. split; [|auto]. split; [exact IB|]. split; [exact IA|]. intros J Q. discriminate Q. }
    destruct (u_model st) as [m'|] eqn:Em; [|exact X]. destruct (list_eq_dec Req_EM_T m' m) as [->|]; [|exact X].
    exists st. split; [reflexivity|]. split; [split; [exact IB|split; [exact IA|exact IJ]]|]. auto.
  Qed.
  Lemma set_model2_bad st m : length m <> e_p s -> set_model2 s st m = (st, Err ValueError).
  Proof. intros N. unfold set_model2. destruct (Nat.eqb_spec (length m) (e_p s)); [contradiction|reflexivity]. Qed.

  Lemma fields2_ok st m : InvS2 st -> length m = e_p s -> e_fixJ s = false ->
    exists st', fields2 s st m = (st', Ok (fP m)) /\ InvS2 st' /\ u_A st' = Some (AsP m) /\ full st' /\ u_model st' = Some m /\ u_Bs st' = u_Bs st.
  Proof.
    intros I Lm FJ. destruct (set_model2_ok st m I Lm FJ) as (st1 & E1 & (IB & IA & IJ) & A1 & M1 & S1 & B1).
    unfold fields2. rewrite E1. destruct (field_loop_ok m (ks_idx s) st1 [] [] IB) as (st2 & E2 & IB2 & K2 & F2 & M2 & A2 & S2 & J2).
    rewrite E2. cbn [rev app]. eexists. split; [reflexivity|].
    assert (Fu : full (mkSt2 (u_bc st2) (u_model st2) (Some (map (Ap m) (ks_idx s))) (u_B st2) (u_Bs st2) (u_J st2))).
    { intros i Hi. change (getB s st2 i = Ok (Bp i)). apply F2. unfold ks_idx. apply in_seq. fold K. lia. }
    split; [|split; [reflexivity|split; [exact Fu|split; [cbn; congruence|cbn; congruence]]]].
    split; [exact IB2|]. split; [intros ? _; exact Fu|]. intros J Q. cbn [u_J u_model] in *. rewrite J2 in Q. destruct (IJ J Q) as (m0 & Hm & HJ). exists m0. split; [congruence|exact HJ].
  Qed.

  (** the state during the loops over wavenumbers *)
  Definition Syn (st : state2) (m : vec) : Prop := InvS2 st /\ full st /\ u_A st = Some (AsP m) /\ BsAt st m.
  Lemma getBs_ok st i m : Syn st m -> (i < K)%nat ->
    exists st', getBs s st i m = (st', Ok (Bsp m i)) /\ Syn st' m /\ u_model st' = u_model st /\ u_J st' = u_J st.
  Proof.
    intros Y Hi. pose proof Y as ((IB & IA & IJ) & Fu & HA & HB). unfold getBs, Bsp. pose proof IB as [Eb Hb].
    destruct (e_form s) eqn:F; [|exists st; auto].
    assert (N0 : bc_needed s (u_bc st) = bc_needed s bc) by now rewrite Eb. rewrite N0. destruct (bc_needed s bc) eqn:N; [|exists st; auto].
    destruct (dict_get Nat.eqb i (u_Bs st)) as [x|] eqn:D.
    - exists st. pose proof (HB i x F N D) as E. unfold Bsp in E. rewrite F, N in E. rewrite E. auto.
    - rewrite (Fu i Hi). unfold Bp. rewrite N. eexists. split; [reflexivity|]. split; [|auto].
      split; [split; [exact IB|split; [intros ? _; exact Fu|exact IJ]]|]. split; [exact Fu|]. split; [exact HA|].
      intros j x _ _. cbn [u_Bs]. rewrite dget_app. destruct (dict_get Nat.eqb j (u_Bs st)) as [y|] eqn:Dj.
      + intros Q. injection Q as <-. now apply HB.
      + destruct (Nat.eqb_spec j i) as [->|]; [|discriminate]. intros Q. injection Q as <-. unfold Bsp. rewrite F, N. reflexivity.
  Qed.
  Lemma Ainv2_ok st m i b : Syn st m -> (i < K)%nat -> Ainv2 s st i b = Ok (e_solve s (Ap m i) b).
  Proof.
    intros (_ & _ & HA & _) Hi. unfold Ainv2. rewrite HA. unfold AsP, ks_idx. rewrite nth_error_map, (nth_error_nth' _ 0%nat) by (rewrite seq_length; exact Hi).
    cbn. rewrite seq_nth by exact Hi. reflexivity.
  Qed.
  Lemma fP_nth m i : (i < K)%nat -> nth i (fP m) [] = map (up m i) (e_srcs s).
  Proof.
    intros Hi. unfold fP. rewrite (nth_indep _ [] (map (up m 0) (e_srcs s))) by (rewrite map_length; unfold ks_idx; rewrite seq_length; exact Hi).
    rewrite (map_nth (fun i => map (up m i) (e_srcs s)) (ks_idx s) 0%nat). unfold ks_idx. rewrite seq_nth by exact Hi. reflexivity.
  Qed.
  Lemma combine_map_l {A B} (f : A -> B) l : combine (map f l) l = map (fun c => (f c, c)) l.
  Proof. induction l; cbn; [reflexivity|]. now rewrite IHl. Qed.
  Lemma combine_map_l2 {A B C} (f : A -> B) (l : list A) : forall (w : list C), combine (map f l) (combine w l) = map (fun wc => (f (snd wc), wc)) (combine w l).
  Proof. induction l as [|a l IH]; intros [|x w]; cbn; [reflexivity..|]. now rewrite IH. Qed.
  Lemma mapM_map {A B C} (g : B -> result C) (f : A -> B) l : mapM g (map f l) = mapM (fun x => g (f x)) l.
  Proof. induction l; cbn; [reflexivity|]. now rewrite IHl. Qed.

  Lemma jv_loop_ok m v : forall l st acc, Syn st m -> (forall i, In i l -> (i < K)%nat) ->
    exists st', jv_loop s st m v (fP m) l acc = (st', Ok (JvP m v l acc)) /\ Syn st' m /\ u_model st' = u_model st /\ u_J st' = u_J st.
  Proof.
    induction l as [|i l IH]; intros st acc Y Hl; cbn [jv_loop]; [exists st; auto|].
    assert (Hi : (i < K)%nat) by (apply Hl; now left). destruct (getBs_ok st i m Y Hi) as (st1 & -> & Y1 & M1 & J1).
    pose proof Y1 as ((IB & _) & Fu & _). rewrite (Fu i Hi). cbn [bind]. rewrite fP_nth by exact Hi. rewrite combine_map_l, mapM_map. cbn [fst snd].
    rewrite (mapM_all _ (jv1 m v i)).
    2:{ intros c Hc. unfold jv_src. destruct IB as [-> _]. rewrite (Ainv2_ok _ m) by assumption. reflexivity. }
    destruct (IH st1 (vadd acc (vscale (nth i (e_ws s) 0) (concat (map (jv1 m v i) (e_srcs s))))) Y1 (fun j h => Hl j (or_intror h))) as (st2 & E2 & Y2 & M2 & J2).
    exists st2. split; [exact E2|]. split; [exact Y2|]. split; congruence.
  Qed.
  Lemma jt_loop_ok m w : forall l st acc, Syn st m -> (forall i, In i l -> (i < K)%nat) ->
    exists st', jt_loop s st m w (fP m) l acc = (st', Ok (JtP m w l acc)) /\ Syn st' m /\ u_model st' = u_model st /\ u_J st' = u_J st.
  Proof.
    induction l as [|i l IH]; intros st acc Y Hl; cbn [jt_loop]; [exists st; auto|].
    assert (Hi : (i < K)%nat) by (apply Hl; now left). destruct (getBs_ok st i m Y Hi) as (st1 & -> & Y1 & M1 & J1).
    pose proof Y1 as ((IB & _) & Fu & _). rewrite (Fu i Hi). cbn [bind]. rewrite fP_nth by exact Hi. rewrite combine_map_l2, mapM_map. cbn [fst snd].
    rewrite (mapM_all _ (fun wc => jt1 m i (fst wc) (snd wc))).
    2:{ intros c Hc. unfold jt_src2. destruct IB as [-> _]. rewrite (Ainv2_ok _ m) by assumption. reflexivity. }
    destruct (IH st1 (fold_left (fun acc x => vadd acc (vscale (nth i (e_ws s) 0) x)) (map (fun wc => jt1 m i (fst wc) (snd wc)) (combine (cut (map src2_nD (e_srcs s)) w) (e_srcs s))) acc) Y1 (fun j h => Hl j (or_intror h))) as (st2 & E2 & Y2 & M2 & J2).
    exists st2. split; [exact E2|]. split; [exact Y2|]. split; congruence.
  Qed.
  Lemma j_loop_ok m : forall l st acc, Syn st m -> (forall i, In i l -> (i < K)%nat) ->
    exists st', j_loop s st m (fP m) l acc = (st', Ok (JP2 m l acc)) /\ Syn st' m /\ u_model st' = u_model st /\ u_J st' = u_J st.
  Proof.
    induction l as [|i l IH]; intros st acc Y Hl; cbn [j_loop]; [exists st; auto|].
    assert (Hi : (i < K)%nat) by (apply Hl; now left). destruct (getBs_ok st i m Y Hi) as (st1 & -> & Y1 & M1 & J1).
    pose proof Y1 as ((IB & _) & Fu & _). rewrite (Fu i Hi). cbn [bind]. rewrite fP_nth by exact Hi. rewrite combine_map_l, mapM_map. cbn [fst snd].
    rewrite (mapM_all _ (j1 m i)).
    2:{ intros c Hc. unfold j_src. rewrite (mapM_all _ (fun r => map (fun row => vscale (- w_ i) (A_derivT s bc (Bp i) (Bsp m i) i m (up m i c) (e_solve s (Ap m i) row))) (rx2_rows r))); [reflexivity|].
        intros r Hr. apply mapM_all. intros row Hrow. rewrite (Ainv2_ok _ m) by assumption. destruct IB as [-> _]. reflexivity. }
    destruct (IH st1 (madd acc (concat (map (j1 m i) (e_srcs s)))) Y1 (fun j h => Hl j (or_intror h))) as (st2 & E2 & Y2 & M2 & J2).
    exists st2. split; [exact E2|]. split; [exact Y2|]. split; congruence.
  Qed.
  Lemma ks_lt i : In i (ks_idx s) -> (i < K)%nat. Proof. unfold ks_idx. rewrite in_seq. fold K. lia. Qed.

  (** Given fields are those of the model, with its factorisations. *)
  Definition good_given (st : state2) (m : vec) (f : option fields2T) : Prop := match f with Some f => f = fP m /\ u_A st = Some (AsP m) | None => True end.
  Lemma given2_ok st m f : InvS2 st -> good_given st m f -> length m = e_p s -> e_fixJ s = false -> u_model st = Some m -> BsAt st m ->
    exists st', given2 s st m f = (st', Ok (fP m)) /\ Syn st' m /\ u_model st' = Some m /\ (f <> None -> u_A st' = u_A st).
  Proof.
    intros I GF Lm FJ Mm HB. destruct f as [f|]; cbn [given2].
    - destruct GF as [-> GA]. exists st. split; [reflexivity|]. split; [|auto]. split; [exact I|]. split; [exact (proj1 (proj2 I) _ GA)|]. auto.
    - destruct (fields2_ok st m I Lm FJ) as (st' & -> & I' & A' & F' & M' & S'). exists st'. split; [reflexivity|]. split; [|split; [exact M'|congruence]].
      split; [exact I'|]. split; [exact F'|]. split; [exact A'|]. intros i x. rewrite S'. apply HB.
  Qed.
  Lemma getJ2_ok st m f : InvS2 st -> good_given st m f -> length m = e_p s -> e_fixJ s = false -> BsAt st m ->
    exists st', getJ2 s st m f = (st', Ok (JJ m)) /\ InvS2 st' /\ BsAt st' m /\ (f <> None -> u_A st' = u_A st).
  Proof.
    intros I GF Lm FJ HB. destruct (set_model2_ok st m I Lm FJ) as (st1 & E1 & I1 & A1 & M1 & S1 & B1). unfold getJ2. rewrite E1.
    assert (HB1 : BsAt st1 m) by (intros i x; rewrite S1; apply HB).
    assert (GF1 : good_given st1 m f) by (destruct f; [|exact Logic.I]; cbn in *; rewrite A1; exact GF).
    destruct (u_J st1) as [J|] eqn:EJ.
    - exists st1. destruct (proj2 (proj2 I1) J EJ) as (m0 & Hm & ->). assert (m0 = m) by congruence. subst m0. split; [reflexivity|]. auto.
    - destruct (given2_ok st1 m f I1 GF1 Lm FJ M1 HB1) as (st2 & -> & Y2 & M2 & G2).
      destruct (j_loop_ok m (ks_idx s) st2 (repeat (vzero (e_p s)) (nD2 s)) Y2 ks_lt) as (st3 & -> & Y3 & M3 & J3).
      eexists. split; [reflexivity|]. pose proof Y3 as ((IB & IA & IJ) & Fu & A3 & B3). split; [split; [exact IB|split; [intros ? _; exact Fu|]]|split; [exact B3|]].
      + intros J Q. cbn [u_J] in Q. injection Q as <-. exists m. split; [cbn [u_model]; rewrite M3; exact M2|reflexivity].
      + cbn [u_A]. intros Hf. destruct Y2 as (_ & _ & A2 & _). rewrite A3, <- A2, (G2 Hf). exact A1.
  Qed.
  Lemma Jvec2_ok st m v f : InvS2 st -> good_given st m f -> length m = e_p s -> e_fixJ s = false -> BsAt st m ->
    exists st', Jvec2 s st m v f = (st', Ok (if e_storeJ s then mv (JJ m) v else JvP m v (ks_idx s) (vzero (nD2 s)))) /\ InvS2 st' /\ BsAt st' m /\ (f <> None -> u_A st' = u_A st).
  Proof.
    intros I GF Lm FJ HB. unfold Jvec2. destruct (e_storeJ s).
    - destruct (getJ2_ok st m f I GF Lm FJ HB) as (st' & -> & X). exists st'. split; [reflexivity|exact X].
    - destruct (set_model2_ok st m I Lm FJ) as (st1 & E1 & I1 & A1 & M1 & S1 & B1). rewrite E1.
      assert (HB1 : BsAt st1 m) by (intros i x; rewrite S1; apply HB).
      assert (GF1 : good_given st1 m f) by (destruct f; [|exact Logic.I]; cbn in *; rewrite A1; exact GF).
      destruct (given2_ok st1 m f I1 GF1 Lm FJ M1 HB1) as (st2 & -> & Y2 & M2 & G2).
      destruct (jv_loop_ok m v (ks_idx s) st2 (vzero (nD2 s)) Y2 ks_lt) as (st3 & -> & Y3 & M3 & J3). exists st3. split; [reflexivity|].
      pose proof Y3 as (I3 & Fu & A3 & B3). split; [exact I3|]. split; [exact B3|]. intros Hf. destruct Y2 as (_ & _ & A2 & _). rewrite A3, <- A2, (G2 Hf). exact A1.
  Qed.
  Lemma Jtvec2_ok st m w f : InvS2 st -> good_given st m f -> length m = e_p s -> e_fixJ s = false -> BsAt st m ->
    exists st', Jtvec2 s st m w f = (st', Ok (if e_storeJ s then mtv (e_p s) (JJ m) w else JtP m w (ks_idx s) (vzero (e_p s)))) /\ InvS2 st' /\ BsAt st' m /\ (f <> None -> u_A st' = u_A st).
  Proof.
    intros I GF Lm FJ HB. unfold Jtvec2. destruct (e_storeJ s).
    - destruct (getJ2_ok st m f I GF Lm FJ HB) as (st' & -> & X). exists st'. split; [reflexivity|exact X].
    - destruct (set_model2_ok st m I Lm FJ) as (st1 & E1 & I1 & A1 & M1 & S1 & B1). rewrite E1.
      assert (HB1 : BsAt st1 m) by (intros i x; rewrite S1; apply HB).
      assert (GF1 : good_given st1 m f) by (destruct f; [|exact Logic.I]; cbn in *; rewrite A1; exact GF).
      destruct (given2_ok st1 m f I1 GF1 Lm FJ M1 HB1) as (st2 & -> & Y2 & M2 & G2).
      destruct (jt_loop_ok m w (ks_idx s) st2 (vzero (length m)) Y2 ks_lt) as (st3 & -> & Y3 & M3 & J3). exists st3. rewrite Lm. split; [reflexivity|].
      pose proof Y3 as (I3 & Fu & A3 & B3). split; [exact I3|]. split; [exact B3|]. intros Hf. destruct Y2 as (_ & _ & A2 & _). rewrite A3, <- A2, (G2 Hf). exact A1.
  Qed.
  Lemma init_ok m : InvS2 (init2 bc) /\ BsAt (init2 bc) m.
  Proof. split; [split; [split; [reflexivity|]|split]|]; repeat intro; discriminate. Qed.
End Pure.
