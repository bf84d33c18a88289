From Verif Require Import Py Vec VecDeriv Joint Dc SpecDc.
From Coq Require Import Reals Lra Lia.
Local Open Scope R_scope.

Section Hist.
  Context (s : dc) (srcs : list source).
  Definition U : list source := used s (init srcs).
  Definition fieldsP (m : vec) : dfields := combine (map s_id U) (map (d_solve s (getA s m)) (map (src_eval s) U)).
  Definition stA (m : vec) : state := mkSt srcs None (Some m) None None None.
  Definition JP (m : vec) : result mat := Jrows s (stA m) m (fieldsP m).
  Definition dpredP (m : vec) : result vec :=
    if Nat.eqb (length m) (d_p s) then do d <- predict s (fieldsP m) U; Ok (mini_data s 0 Rminus Rplus d) else Err ValueError.
  Definition JvecP (m v : vec) : result vec :=
    if Nat.eqb (length m) (d_p s) then
      if d_storeJ s then do J <- JP m; Ok (mv J v)
      else do d <- over (fun src u r => do du <- Ainv s (stA m) (vopp (getADeriv s m u v)); rx_deriv s src r du) (fieldsP m) U; Ok (mini_data s 0 Rminus Rplus d)
    else Err ValueError.
  Definition JtvecP (m w : vec) : result vec :=
    if Nat.eqb (length m) (d_p s) then
      if d_storeJ s then do J <- JP m; Ok (mtv (d_p s) J w)
      else jt_src s (stA m) m (fieldsP m) U (mini_dataT s w) (vzero (length m))
    else Err ValueError.
  Definition getJP (m : vec) : result mat := if Nat.eqb (length m) (d_p s) then JP m else Err ValueError.

  Definition InvS (st : state) : Prop :=
    used s st = U /\ (st_q st = None \/ st_q st = Some (map (src_eval s) U)) /\
    (forall J, st_J st = Some J -> exists m, st_model st = Some m /\ JP m = Ok J).
  Definition InvL (st : state) (l : last_fields) : Prop :=
    forall m f, l = Some (m, f) -> length m = d_p s /\ f = fieldsP m /\ st_A st = Some m.
  Definition Inv (st : state) (l : last_fields) : Prop := InvS st /\ InvL st l.

  Lemma used_eq st st' : st_srcs st = st_srcs st' -> used s st = used s st'.
  Proof. unfold used. destruct (d_mini s); congruence. Qed.
  Lemma set_model_ok st m : InvS st -> length m = d_p s -> exists st', set_model s st m = (st', Ok tt) /\ InvS st' /\ st_A st' = st_A st /\ st_model st' = Some m.
  Proof.
    intros (IU & Iq & IJ) Lm. unfold set_model. rewrite Lm, Nat.eqb_refl.
    assert (K : exists st', (mkSt (st_srcs st) (Some m) (st_A st) (st_q st) None None, Ok tt) = (st', Ok tt : result unit) /\ InvS st' /\ st_A st' = st_A st /\ st_model st' = Some m).
    { eexists. split; [reflexivity|]. split; [|split; reflexivity]. split; [rewrite <- IU; apply used_eq; reflexivity|]. split; [exact Iq|]. cbn. discriminate. }
    destruct (st_model st) as [m'|] eqn:E; [|exact K]. destruct (list_eq_dec Req_EM_T m' m) as [->|N]; [|exact K].
    exists st. rewrite E. repeat split; auto. rewrite E. exact IJ.
  Qed.
  Lemma set_model_bad st m : length m <> d_p s -> set_model s st m = (st, Err ValueError).
  Proof. intros N. unfold set_model. destruct (Nat.eqb_spec (length m) (d_p s)); [contradiction|reflexivity]. Qed.
  Lemma fields_ok st m : InvS st -> length m = d_p s -> exists st', fields s st m = (st', Ok (fieldsP m)) /\ InvS st' /\ st_A st' = Some m /\ st_model st' = Some m /\ st_srcs st' = st_srcs st.
  Proof.
    intros I Lm. destruct (set_model_ok st m I Lm) as (st1 & E & (IU & Iq & IJ) & EA & Em).
    assert (ES : st_srcs st1 = st_srcs st).
    { unfold set_model in E. destruct (Nat.eqb _ _); [|discriminate]. destruct (st_model st) as [m'|]; [destruct (list_eq_dec _ _ _)|]; inversion E; reflexivity. }
    unfold fields. rewrite E. cbv zeta. unfold get_q. cbn [st_q st_srcs st_model st_A st_J st_gtg].
    assert (EU : forall q, used s (mkSt (st_srcs st1) (st_model st1) (Some m) q (st_J st1) (st_gtg st1)) = U) by (intros q; rewrite <- IU; apply used_eq; reflexivity).
    destruct Iq as [-> | ->]; rewrite !EU; rewrite map_length, Nat.eqb_refl; eexists; (split; [reflexivity|]); (split; [|cbn; auto]); (split; [apply EU|]); (split; [right; reflexivity|exact IJ]).
  Qed.
  Lemma fields_bad st m : length m <> d_p s -> fields s st m = (st, Err ValueError).
  Proof. intros N. unfold fields. rewrite set_model_bad by exact N. reflexivity. Qed.
  Lemma given_ok st l m g : Inv st l -> length m = d_p s ->
    exists st', given s st m (pick l m g) = (st', Ok (fieldsP m)) /\ InvS st' /\ st_A st' = Some m /\ InvL st' (kept l (pick l m g)) /\ st_srcs st' = st_srcs st.
  Proof.
    intros [I IL] Lm. unfold pick. assert (K : exists st', given s st m None = (st', Ok (fieldsP m)) /\ InvS st' /\ st_A st' = Some m /\ InvL st' (kept l None) /\ st_srcs st' = st_srcs st).
    { cbn [given kept]. destruct (fields_ok st m I Lm) as (st' & E & I' & EA & _ & ES). exists st'. split; [exact E|]. split; [exact I'|]. split; [exact EA|]. split; [intros ? ? ?; discriminate|exact ES]. }
    destruct g; [|exact K]. destruct l as [[m' f]|]; [|exact K]. destruct (list_eq_dec Req_EM_T m' m) as [->|]; [|exact K].
    destruct (IL m f eq_refl) as (_ & -> & EA). exists st. cbn [given kept]. split; [reflexivity|]. split; [exact I|]. split; [exact EA|]. split; [exact IL|reflexivity].
  Qed.
  Lemma given_bad st l m g : Inv st l -> length m <> d_p s -> pick l m g = None /\ given s st m None = (st, Err ValueError).
  Proof.
    intros [I IL] N. split; [|apply fields_bad; exact N]. unfold pick. destruct g; [|reflexivity]. destruct l as [[m' f]|]; [|reflexivity].
    destruct (list_eq_dec Req_EM_T m' m) as [->|]; [|reflexivity]. destruct (IL m f eq_refl). contradiction.
  Qed.
  Lemma Ainv_eq st m b : st_A st = Some m -> Ainv s st b = Ainv s (stA m) b.
  Proof. unfold Ainv. intros ->. reflexivity. Qed.
  Lemma mapM_ext {A B} (f g : A -> result B) l : (forall x, f x = g x) -> mapM f l = mapM g l.
  Proof. intros E. induction l as [|x l IH]; cbn; [reflexivity|]. rewrite E, IH. reflexivity. Qed.
  Lemma bind_ext {A B} (r : result A) (f g : A -> result B) : (forall x, f x = g x) -> bind r f = bind r g.
  Proof. intros E. destruct r; cbn; auto. Qed.
  Lemma over_ext {A} (g h : source -> vec -> receiver -> result (list A)) f l : (forall a u r, g a u r = h a u r) -> over g f l = over h f l.
  Proof.
    intros E. unfold over. f_equal. apply mapM_ext. intros x. apply bind_ext. intros u. f_equal. apply mapM_ext. intros. apply E.
  Qed.
  Lemma Jrows_eq st m f : used s st = U -> st_A st = Some m -> Jrows s st m f = Jrows s (stA m) m f.
  Proof.
    intros EU EA. unfold Jrows. rewrite EU. replace (used s (stA m)) with U by (unfold U; apply used_eq; reflexivity). f_equal. apply over_ext. intros a u r. apply bind_ext. intros P. apply mapM_ext. intros row.
    rewrite (Ainv_eq st m) by exact EA. reflexivity.
  Qed.
  Lemma jt_rx_eq st m src u rs : st_A st = Some m -> forall w acc, jt_rx s st m src u rs w acc = jt_rx s (stA m) m src u rs w acc.
  Proof.
    intros EA. induction rs as [|r rs IH]; intros w acc; cbn [jt_rx]; [reflexivity|]. apply bind_ext. intros pt. rewrite (Ainv_eq st m) by exact EA. apply bind_ext. intros a. apply IH.
  Qed.
  Lemma jt_src_eq st m f l : st_A st = Some m -> forall w acc, jt_src s st m f l w acc = jt_src s (stA m) m f l w acc.
  Proof.
    intros EA. induction l as [|x l IH]; intros w acc; cbn [jt_src]; [reflexivity|]. apply bind_ext. intros u. rewrite jt_rx_eq by exact EA. apply bind_ext. intros wa. apply IH.
  Qed.

  Lemma dpred_ok st l m g : Inv st l -> Inv (fst (dpred s st m (pick l m g))) (kept l (pick l m g)) /\ snd (dpred s st m (pick l m g)) = dpredP m.
  Proof.
    intros II. pose proof II as [I IL]. unfold dpred, dpredP. set (st1 := mkSt (used s st) _ _ _ _ _).
    assert (EU1 : used s st1 = U). { unfold st1, used at 1. cbn [st_srcs]. destruct (d_mini s) eqn:E; [|apply I]. unfold U, used. rewrite E. reflexivity. }
    assert (II1 : Inv st1 l). { split; [|exact IL]. split; [exact EU1|]. split; [apply I|]. apply I. }
    destruct (Nat.eqb_spec (length m) (d_p s)) as [Lm|N].
    - destruct (given_ok st1 l m g II1 Lm) as (st' & -> & (IU & Iq & IJ) & EA & IL' & ES). rewrite ES. cbn [st_srcs st1]. replace (used s st) with U by (symmetry; apply I).
      destruct (predict s (fieldsP m) U) as [d|e]; cbn.
      + split; [|reflexivity]. split; [split; [|split]|exact IL']; [|exact Iq|exact IJ]. rewrite <- (proj1 I). apply used_eq. reflexivity.
      + split; [|reflexivity]. split; [split; [|split]|exact IL']; assumption.
    - destruct (given_bad st1 l m g II1 N) as [-> ->]. cbn. split; [|reflexivity]. split; [apply II1|]. intros ? ?. discriminate.
  Qed.
  Lemma getJ_some st m : InvS st -> length m = d_p s -> st_A st = Some m ->
    InvS (fst (getJ s st m (Some (fieldsP m)))) /\ st_A (fst (getJ s st m (Some (fieldsP m)))) = Some m /\ snd (getJ s st m (Some (fieldsP m))) = JP m.
  Proof.
    intros I Lm EA. unfold getJ. destruct (set_model_ok st m I Lm) as (st1 & -> & I1 & EA1 & Em). rewrite EA in EA1. destruct (st_J st1) as [J|] eqn:EJ.
    - cbn. split; [exact I1|]. split; [exact EA1|]. destruct (proj2 (proj2 I1) J EJ) as (m' & E' & <-). congruence.
    - cbn [given]. rewrite (Jrows_eq st1 m) by (auto; apply I1). fold (JP m). destruct (JP m) as [J|e] eqn:EP; cbn.
      + split; [|auto]. split; [rewrite <- (proj1 I1); apply used_eq; reflexivity|]. split; [apply I1|]. cbn. intros J' E'. inversion E'; subst. eauto.
      + auto.
  Qed.
  Lemma InvL_A st st' l : st_A st' = st_A st -> InvL st l -> InvL st' l.
  Proof. intros E H m f Hl. rewrite E. apply H; exact Hl. Qed.
  Lemma getJ_ok st l m g : Inv st l -> Inv (fst (getJ s st m (pick l m g))) (kept l (pick l m g)) /\ snd (getJ s st m (pick l m g)) = getJP m.
  Proof.
    intros II. pose proof II as [I IL]. unfold getJ, getJP. destruct (Nat.eqb_spec (length m) (d_p s)) as [Lm|N].
    - destruct (set_model_ok st m I Lm) as (st1 & -> & I1 & EA1 & Em). assert (II1 : Inv st1 l) by (split; [exact I1|eapply InvL_A; eauto]).
      destruct (st_J st1) as [J|] eqn:EJ.
      + cbn. split; [split; [exact I1|]|].
        * intros m' f' H. destruct II1 as [_ IL1]. unfold kept in H. destruct (pick l m g); [|discriminate]. apply IL1. exact H.
        * destruct (proj2 (proj2 I1) J EJ) as (m' & E' & <-). congruence.
      + assert (EmP : exists st', given s st1 m (pick l m g) = (st', Ok (fieldsP m)) /\ InvS st' /\ st_A st' = Some m /\ InvL st' (kept l (pick l m g)) /\ st_model st' = Some m).
        { destruct (given_ok st1 l m g II1 Lm) as (st' & E & I' & EA & IL' & ES). exists st'. split; [exact E|]. split; [exact I'|]. split; [exact EA|]. split; [exact IL'|].
          destruct (pick l m g); cbn [given] in E; [inversion E; subst; exact Em|]. destruct (fields_ok st1 m I1 Lm) as (st2 & E2 & _ & _ & Em2 & _). congruence. }
        destruct EmP as (st' & -> & I' & EA & IL' & Em'). rewrite (Jrows_eq st' m) by (auto; apply I'). fold (JP m). destruct (JP m) as [J|e] eqn:EP; cbn.
        * split; [|reflexivity]. split; [|exact IL']. split; [rewrite <- (proj1 I'); apply used_eq; reflexivity|]. split; [apply I'|]. cbn. intros J' E'. inversion E'; subst. eauto.
        * split; [|reflexivity]. split; assumption.
    - rewrite set_model_bad by exact N. cbn. split; [|reflexivity]. split; [exact I|]. destruct (given_bad st l m g II N) as [-> _]. intros ? ? ?. discriminate.
  Qed.
  Lemma Jvec_ok st l m v g : Inv st l -> Inv (fst (Jvec s st m v (pick l m g))) (kept l (pick l m g)) /\ snd (Jvec s st m v (pick l m g)) = JvecP m v.
  Proof.
    intros II. unfold Jvec, JvecP. destruct (Nat.eqb_spec (length m) (d_p s)) as [Lm|N].
    - destruct (given_ok st l m g II Lm) as (st' & -> & I' & EA & IL' & ES). destruct (set_model_ok st' m I' Lm) as (st1 & -> & I1 & EA1 & Em). rewrite EA in EA1.
      destruct (d_storeJ s).
      + destruct (getJ_some st1 m I1 Lm EA1) as (I2 & EA2 & E2). destruct (getJ s st1 m (Some (fieldsP m))) as [st2 J]. cbn [fst snd] in *. subst J. split; [|reflexivity].
        split; [exact I2|]. eapply InvL_A; [|exact IL']. congruence.
      + cbn [fst snd]. split; [split; [exact I1|eapply InvL_A; [|exact IL']; congruence]|]. rewrite (proj1 I1). f_equal. apply over_ext. intros. rewrite (Ainv_eq st1 m) by exact EA1. reflexivity.
    - destruct (given_bad st l m g II N) as [-> ->]. cbn. split; [|reflexivity]. split; [apply II|]. intros ? ? ?. discriminate.
  Qed.
  Lemma Jtvec_ok st l m w g : Inv st l -> Inv (fst (Jtvec s st m w (pick l m g))) (kept l (pick l m g)) /\ snd (Jtvec s st m w (pick l m g)) = JtvecP m w.
  Proof.
    intros II. unfold Jtvec, JtvecP. destruct (Nat.eqb_spec (length m) (d_p s)) as [Lm|N].
    - destruct (given_ok st l m g II Lm) as (st' & -> & I' & EA & IL' & ES). destruct (set_model_ok st' m I' Lm) as (st1 & -> & I1 & EA1 & Em). rewrite EA in EA1.
      destruct (d_storeJ s).
      + destruct (getJ_some st1 m I1 Lm EA1) as (I2 & EA2 & E2). destruct (getJ s st1 m (Some (fieldsP m))) as [st2 J]. cbn [fst snd] in *. subst J. split; [|reflexivity].
        split; [exact I2|]. eapply InvL_A; [|exact IL']. congruence.
      + cbn [fst snd]. split; [split; [exact I1|eapply InvL_A; [|exact IL']; congruence]|]. rewrite (proj1 I1). apply jt_src_eq. exact EA1.
    - destruct (given_bad st l m g II N) as [-> ->]. cbn. split; [|reflexivity]. split; [apply II|]. intros ? ? ?. discriminate.
  Qed.
  Lemma JtJ_inv st l m W g : Inv st l -> Inv (fst (getJtJdiag s st m W (pick l m g))) (kept l (pick l m g)).
  Proof.
    intros II. unfold getJtJdiag. destruct (st_gtg st) as [x|].
    - cbn. split; [apply II|]. intros m' f' H. unfold kept in H. destruct (pick l m g); [|discriminate]. apply II. exact H.
    - destruct (getJ_ok st l m g II) as [I' E]. destruct (getJ s st m (pick l m g)) as [st1 [J|e]]; cbn [fst snd] in *; [|exact I'].
      split; [|intros a b H; apply (proj2 I' a b H)]. destruct I' as [(IU & Iq & IJ) _]. split; [rewrite <- IU; apply used_eq; reflexivity|]. split; assumption.
  Qed.
  Lemma inv_init : Inv (init srcs) None.
  Proof. split; [|intros ? ? ?; discriminate]. split; [reflexivity|]. split; [left; reflexivity|]. intros J E. discriminate. Qed.
  Lemma do_call_inv stl c : Inv (fst stl) (snd stl) -> Inv (fst (do_call s stl c)) (snd (do_call s stl c)).
  Proof.
    destruct stl as [st l]. intros II. cbn [fst snd] in II. destruct c; cbn [do_call]; cbn [fst snd].
    - destruct (Nat.eq_dec (length m) (d_p s)) as [Lm|N].
      + destruct (fields_ok st m (proj1 II) Lm) as (st' & -> & I' & EA & _). cbn. split; [exact I'|]. intros m' f E. inversion E; subst. auto.
      + rewrite fields_bad by exact N. cbn. split; [apply II|]. intros ? ? ?. discriminate.
    - apply dpred_ok. exact II.
    - apply Jvec_ok. exact II.
    - apply Jtvec_ok. exact II.
    - apply getJ_ok. exact II.
    - apply JtJ_inv. exact II.
  Qed.
  Lemma history_inv h : Inv (fst (history s srcs h)) (snd (history s srcs h)).
  Proof.
    unfold history. assert (G : forall h stl, Inv (fst stl) (snd stl) -> Inv (fst (fold_left (do_call s) h stl)) (snd (fold_left (do_call s) h stl))).
    { induction h0 as [|c h0 IH]; intros stl I; [exact I|]. cbn. apply IH. apply do_call_inv. exact I. }
    apply G. exact inv_init.
  Qed.
End Hist.

Lemma pickF l m : pick l m false = None. Proof. reflexivity. Qed.
Lemma history_free s srcs h m v w g :
  let st := fst (history s srcs h) in let l := snd (history s srcs h) in
  snd (dpred s st m (pick l m g)) = snd (dpred s (init srcs) m None) /\
  snd (Jvec s st m v (pick l m g)) = snd (Jvec s (init srcs) m v None) /\
  snd (Jtvec s st m w (pick l m g)) = snd (Jtvec s (init srcs) m w None) /\
  snd (getJ s st m (pick l m g)) = snd (getJ s (init srcs) m None) /\
  snd (fields s st m) = snd (fields s (init srcs) m).
Proof.
  intros st l. pose proof (history_inv s srcs h) as I. fold st l in I. pose proof (inv_init s srcs) as I0. split; [|split; [|split; [|split]]].
  - rewrite (proj2 (dpred_ok s srcs st l m g I)). symmetry. apply (dpred_ok s srcs (init srcs) None m false I0).
  - rewrite (proj2 (Jvec_ok s srcs st l m v g I)). symmetry. apply (Jvec_ok s srcs (init srcs) None m v false I0).
  - rewrite (proj2 (Jtvec_ok s srcs st l m w g I)). symmetry. apply (Jtvec_ok s srcs (init srcs) None m w false I0).
  - rewrite (proj2 (getJ_ok s srcs st l m g I)). symmetry. apply (getJ_ok s srcs (init srcs) None m false I0).
  - destruct (Nat.eq_dec (length m) (d_p s)) as [Lm|N].
    + destruct (fields_ok s srcs st m (proj1 I) Lm) as (? & -> & _). destruct (fields_ok s srcs (init srcs) m (proj1 I0) Lm) as (? & -> & _). reflexivity.
    + rewrite !fields_bad by exact N. reflexivity.
Qed.
