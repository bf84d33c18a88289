From Coq Require Import Reals Lra Lia.
From Verif Require Import Py Vec VecDeriv Frechet Joint Richards RichardsFacts RichardsFacts2 RichardsFacts3 LinSimFacts SolveDeriv Dc SpecDc DcFacts DcFacts2 DcFacts3 DcFacts4 JointFacts SelfPot SpecSelfPot SelfPotFacts.
Local Open Scope R_scope.

Lemma mapM_concat {A B} (h : A -> result B) (g : A -> B) (ls : list (list A)) : (forall l x, In l ls -> In x l -> h x = Ok (g x)) ->
  mapM (fun l => mapM h l) ls = Ok (map (map g) ls).
Proof. intros H. apply mapM_all. intros l Hl. apply mapM_all. intros x Hx. eapply H; eauto. Qed.
Lemma mapM_map_in {A B C} (f : A -> B) (g : B -> result C) l : mapM g (map f l) = mapM (fun x => g (f x)) l.
Proof. induction l as [|x l IH]; [reflexivity|]. cbn. rewrite IH. reflexivity. Qed.

Section Hist.
  Context (s : spot) (q : qmap) (rs : list receiver) (rho : vec) (SR : z_srcs s = [rs]) (HN : honest q).
  Let p := q_p q.
  Let d := z_dc s.
  Definition Jinv (st : zstate) : Prop := forall J, w_J st = Some J -> exists m', length m' = p /\ J = JP s q rho m' /\ ((z_storeJ s && negb (q_linear q))%bool = true -> w_model st = Some m').
  Definition base (st : zstate) : Prop := w_rho st = rho /\ w_map st = q /\ (w_A st = None \/ w_A st = Some rho) /\ Jinv st.
  Definition fok (st : zstate) (f : option vec) : Prop := f <> None -> w_A st = Some rho.
  Lemma base_init : base (zinit rho q).
  Proof. split; [reflexivity|]. split; [reflexivity|]. split; [left; reflexivity|]. intros J E. discriminate E. Qed.
  Lemma crs' : concat (z_srcs s) = rs. Proof. rewrite SR. cbn. apply app_nil_r. Qed.
  Lemma set_ok st m : base st -> if Nat.eqb (length m) p then exists st', zset_model s st m = (st', Ok tt) /\ base st' /\ w_model st' = Some m /\ w_A st' = w_A st
                                 else zset_model s st m = (st, Err ValueError).
  Proof.
    intros (E1 & E2 & E3 & E4). unfold zset_model. rewrite E2. fold p. destruct (Nat.eqb (length m) p) eqn:EL; [|reflexivity]. cbn zeta.
    assert (N : exists st', (if (z_storeJ s && negb (q_linear q))%bool then mkZ (w_rho st) q (Some m) (w_A st) None None else mkZ (w_rho st) q (Some m) (w_A st) (w_J st) (w_gtg st)) = st' /\ base st' /\ w_model st' = Some m /\ w_A st' = w_A st).
    { eexists. split; [reflexivity|]. destruct (z_storeJ s && negb (q_linear q))%bool eqn:B; (split; [|split; reflexivity]); (split; [exact E1|]; split; [reflexivity|]; split; [exact E3|]); intros J EJ; cbn [w_J w_model] in *; [discriminate|].
      destruct (E4 J EJ) as (m' & L & J1 & J2). exists m'. split; [exact L|]. split; [exact J1|]. rewrite B in *. discriminate. }
    destruct N as (st' & -> & B' & M' & A'). destruct (w_model st) as [m'|] eqn:EM.
    - destruct (list_eq_dec Req_EM_T m' m) as [->|].
      + exists st. split; [reflexivity|]. split; [repeat split; try assumption|]. split; [exact EM|reflexivity].
      + exists st'. auto.
    - exists st'. auto.
  Qed.
  Lemma fields_ok st m : base st -> if Nat.eqb (length m) p then exists st', zfields s st m = (st', Ok (fP s q rho m)) /\ base st' /\ w_model st' = Some m /\ w_A st' = Some rho
                                    else zfields s st m = (st, Err ValueError).
  Proof.
    intros B. unfold zfields. pose proof (set_ok st m B) as H. destruct (Nat.eqb (length m) p).
    - destruct H as (st' & -> & B' & M' & _). rewrite SR. cbn [length Nat.eqb w_rho w_map w_model w_A w_J w_gtg]. eexists. split; [unfold zrhs; cbn [w_map]; rewrite (proj1 (proj2 B')), (proj1 B'); reflexivity|].
      destruct B' as (E1 & E2 & E3 & E4). split; [|split; cbn; congruence]. split; [cbn; congruence|]. split; [cbn; congruence|]. split; [right; cbn; congruence|]. exact E4.
    - rewrite H. reflexivity.
  Qed.
  Lemma given_ok st m f : base st -> fok st f -> length m = p -> exists st' u, zgiven s st m f = (st', Ok u) /\ base st' /\ w_A st' = Some rho /\ (w_model st = Some m -> w_model st' = Some m) /\ (f = None -> u = fP s q rho m) /\ (f <> None -> f = Some u /\ st' = st).
  Proof.
    intros B F Lm. unfold zgiven. destruct f as [u|].
    - exists st, u. split; [reflexivity|]. split; [exact B|]. split; [apply F; discriminate|]. split; [auto|]. split; [discriminate|auto].
    - pose proof (fields_ok st m B) as H. rewrite Lm, Nat.eqb_refl in H. destruct H as (st' & E & B' & M' & A'). exists st', (fP s q rho m). split; [exact E|]. split; [exact B'|]. split; [exact A'|]. split; [auto|]. split; [auto|]. intros N. destruct (N eq_refl).
  Qed.
  Lemma rows_ok st m : base st -> w_A st = Some rho -> zrows s st m = Ok (JP s q rho m).
  Proof.
    intros B A. unfold zrows. rewrite crs'. rewrite (mapM_all _ (fun r => map (fun row => mtv p (q_der q m) (vmul (z_vol s) (Sv s rho row))) (getP d r))).
    - cbn [bind]. unfold JP, zP. rewrite crs', concat_map, map_map. reflexivity.
    - intros r _. apply mapM_all. intros row _. unfold zAinv. rewrite A. cbn [bind]. unfold zrhs_derivT. rewrite (proj1 (proj2 B)). reflexivity.
  Qed.
  Definition sure : Prop := z_storeJ s = true \/ q_linear q = true.
  Lemma getJ_ok st m f : base st -> fok st f -> if Nat.eqb (length m) p then exists st' J, zgetJ s st m f = (st', Ok J) /\ base st' /\ (sure -> J = JP s q rho m) /\ (w_A st = Some rho -> w_A st' = Some rho)
                                       else zgetJ s st m f = (st, Err ValueError).
  Proof.
    intros B F. unfold zgetJ. pose proof (set_ok st m B) as H. destruct (Nat.eqb (length m) p) eqn:EL; [|rewrite H; reflexivity]. apply Nat.eqb_eq in EL.
    destruct H as (st1 & -> & B1 & M1 & A1). destruct (w_J st1) as [J|] eqn:EJ.
    - exists st1, J. split; [reflexivity|]. split; [exact B1|]. split; [|congruence]. intros SU. destruct B1 as (_ & _ & _ & JI). destruct (JI J EJ) as (m' & L & -> & Q).
      destruct (q_linear q) eqn:QL.
      + unfold JP. rewrite (HN QL m' m) by assumption. reflexivity.
      + destruct SU as [SU|SU]; [|congruence]. rewrite SU in Q. specialize (Q eq_refl). congruence.
    - destruct (given_ok st1 m f B1) as (st2 & u & -> & B2 & A2 & M2 & _); [intros N; rewrite A1; apply F; exact N|exact EL|].
      rewrite (rows_ok st2 m B2 A2). eexists. exists (JP s q rho m). split; [reflexivity|]. split; [|split; [auto|intros _; exact A2]]. destruct B2 as (E1 & E2 & E3 & E4). split; [exact E1|]. split; [exact E2|]. split; [exact E3|].
      intros J E. cbn [w_J] in E. assert (EJ' : J = JP s q rho m) by congruence. subst J. exists m. split; [exact EL|]. split; [reflexivity|]. intros _. cbn [w_model]. apply M2. exact M1.
  Qed.
  Definition JvecR (m v : vec) : result vec := if Nat.eqb (length m) p then Ok (if z_storeJ s then mv (JP s q rho m) v else jP s q rho m v) else Err ValueError.
  Lemma Jvec_ok st m v f : base st -> fok st f -> snd (zJvec s st m v f) = JvecR m v /\ base (fst (zJvec s st m v f)) /\ (w_A st = Some rho -> w_A (fst (zJvec s st m v f)) = Some rho).
  Proof.
    intros B F. unfold zJvec, JvecR. destruct (Nat.eqb (length m) p) eqn:EL.
    - apply Nat.eqb_eq in EL. destruct (given_ok st m f B F EL) as (st1 & u & -> & B1 & A1 & _). pose proof (set_ok st1 m B1) as H. rewrite EL, Nat.eqb_refl in H. destruct H as (st2 & -> & B2 & M2 & A2). destruct (z_storeJ s) eqn:ES.
      + pose proof (getJ_ok st2 m (Some u) B2) as G. rewrite EL, Nat.eqb_refl in G. destruct G as (st3 & J & -> & B3 & Q & A3); [intros _; congruence|]. cbn [fst snd bind]. rewrite Q by (left; exact ES). split; [reflexivity|]. split; [exact B3|]. intros _. apply A3. congruence.
      + cbn [fst snd]. split; [|split; [exact B2|intros _; congruence]]. rewrite SR. cbn [mapM]. unfold zAinv. rewrite A2, A1. cbn [bind]. cbn [concat]. rewrite app_nil_r. unfold jP, zP. rewrite crs', mv_concat, map_map. unfold zrhs_deriv. rewrite (proj1 (proj2 B2)). reflexivity.
    - destruct f as [u|]; cbn [zgiven].
      + pose proof (set_ok st m B) as H. rewrite EL in H. rewrite H. cbn. auto.
      + pose proof (fields_ok st m B) as H. rewrite EL in H. rewrite H. cbn. auto.
  Qed.
  Definition JtvecR (m w : vec) : result vec := if Nat.eqb (length m) p then (if z_storeJ s then Ok (mtv p (JP s q rho m) w) else zjt s (mkZ rho q None (Some rho) None None) m rs w (vzero (length m))) else Err ValueError.
  Lemma zjt_state st st' m : w_A st = w_A st' -> w_map st = w_map st' -> forall l w acc, zjt s st m l w acc = zjt s st' m l w acc.
  Proof. intros E1 E2. induction l as [|r l IH]; intros w acc; cbn [zjt]; [reflexivity|]. unfold zAinv, zrhs_derivT. rewrite E1, E2. destruct (w_A st'); cbn [bind]; [apply IH|reflexivity]. Qed.
  Lemma Jtvec_ok st m w f : base st -> fok st f -> snd (zJtvec s st m w f) = JtvecR m w /\ base (fst (zJtvec s st m w f)) /\ (w_A st = Some rho -> w_A (fst (zJtvec s st m w f)) = Some rho).
  Proof.
    intros B F. unfold zJtvec, JtvecR. destruct (Nat.eqb (length m) p) eqn:EL.
    - apply Nat.eqb_eq in EL. destruct (given_ok st m f B F EL) as (st1 & u & -> & B1 & A1 & _). pose proof (set_ok st1 m B1) as H. rewrite EL, Nat.eqb_refl in H. destruct H as (st2 & -> & B2 & M2 & A2). destruct (z_storeJ s) eqn:ES.
      + pose proof (getJ_ok st2 m (Some u) B2) as G. rewrite EL, Nat.eqb_refl in G. destruct G as (st3 & J & -> & B3 & Q & A3); [intros _; congruence|]. cbn [fst snd bind]. rewrite Q by (left; exact ES). rewrite (proj1 (proj2 B3)). split; [reflexivity|]. split; [exact B3|]. intros _. apply A3. congruence.
      + cbn [fst snd]. rewrite crs'. split; [|split; [exact B2|intros _; congruence]]. apply zjt_state; cbn; [congruence|apply B2].
    - destruct f as [u|]; cbn [zgiven].
      + pose proof (set_ok st m B) as H. rewrite EL in H. rewrite H. cbn. auto.
      + pose proof (fields_ok st m B) as H. rewrite EL in H. rewrite H. cbn. auto.
  Qed.
End Hist.
