From Coq Require Import Reals Lra Field Lia.
From Verif Require Import Py Vec VecDeriv Joint Cplx CplxFacts FdemFacts5 Mt1d Cx NsemRx SpecNsemRx NsemRxFacts NsemRxFacts2.
Local Open Scope R_scope.

Lemma imp_e_elec E o : imp_e E o = getP E (elec o) false. Proof. destruct o; reflexivity. Qed.
Lemma F1 {A} (P : A -> Prop) a : Forall P [a] -> P a. Proof. intros H. now inversion H. Qed.
Lemma F2' {A} (P : A -> Prop) a b : Forall P [a; b] -> P a /\ P b.
Proof. intros H. inversion H as [|? ? ? H']. inversion H'. auto. Qed.
Lemma F3' {A} (P : A -> Prop) a b c : Forall P [a; b; c] -> P a /\ P b /\ P c.
Proof. intros H. inversion H as [|? ? ? H']. inversion H' as [|? ? ? H'']. inversion H''. auto. Qed.
Lemma sgn_cdl s f t d : cdl f t d -> cdl (fun u => sgn s (f u)) t (sgn s d).
Proof. intros H. destruct s; cbn; [now apply cdl_opp|exact H]. Qed.
Lemma sgn_neq s z : z <> x0 -> sgn s z <> x0.
Proof. intros H E. apply H. destruct s; cbn in E; [|exact E]. replace z with (xopp (xopp z)) by ring. rewrite E. ring. Qed.

(** ** Derivatives *)
Section Deriv.
  Context (E : env) (F : R -> flds) (t : R) (dF : flds) (M : moves E F t dF).
  Let ME P HP i Hi := proj1 (moves_at E F t dF P M) HP i Hi.
  Let MH P HP i Hi := proj2 (moves_at E F t dF P M) HP i Hi.
  Lemma imp_cdl o1 o2 c i : fits E (RImp o1 o2 c) -> degenerate E (RImp o1 o2 c) = false -> (i < nD E)%nat -> regular E (RImp o1 o2 c) (F t) i ->
    cdl (fun s => eval_imp E o1 o2 (F s) i) t (deriv_imp E o1 o2 (F t) dF i).
  Proof.
    unfold fits, degenerate, regular, uses, eval_imp, deriv_imp, is3. intros [A B] D Hi Rg. destruct (e_dim E) eqn:ED; cbn in D |- *.
    - apply F1 in A, B. rewrite D. unfold imp_low. rewrite ED. 
      apply (ratio_cdl (fun s => at_ (pj (getP E G1e false) (e0 (F s))) i) (fun s => sgn _ (at_ (pj (getP E G1h false) (h0 (F s))) i))).
      + apply (ME _ A i Hi).
      + apply sgn_cdl. apply (MH _ B i Hi).
      + apply sgn_neq. rewrite at_pj. exact Rg.
    - rewrite D. unfold imp_low. rewrite ED. destruct o1; apply F1 in A, B.
      + apply (ratio_cdl (fun s => at_ (pj _ (e0 (F s))) i) (fun s => at_ (pj _ (h0 (F s))) i)); [apply (ME _ A i Hi)|apply (MH _ B i Hi)|rewrite at_pj; exact Rg].
      + apply (ratio_cdl (fun s => at_ (pj _ (e0 (F s))) i) (fun s => at_ (pj _ (h0 (F s))) i)); [apply (ME _ A i Hi)|apply (MH _ B i Hi)|rewrite at_pj; exact Rg].
    - rewrite imp_e_elec. apply F1 in A. apply F2' in B. destruct B as [B C].
      apply (imp3_cdl o2 (fun s => Eat _ (F s) i) (fun s => Hat _ (F s) i) (fun s => Hat _ (F s) i)); [apply (ME _ A i Hi)|apply (MH _ B i Hi)|apply (MH _ C i Hi)|].
      rewrite !Hat_seen. exact Rg.
  Qed.
  Lemma tip_cdl o1 o2 c i : fits E (RTip o1 o2 c) -> (i < nD E)%nat -> regular E (RTip o1 o2 c) (F t) i ->
    cdl (fun s => eval_tip E o1 o2 (F s) i) t (deriv_tip E o1 o2 (F t) dF i).
  Proof.
    unfold fits, regular, uses, eval_tip, deriv_tip. intros [_ B] Hi Rg.
    assert (K3 : is_mat (nD E) (nh E) (getP E (face o1) false) /\ is_mat (nD E) (nh E) (getP E GFx true) /\ is_mat (nD E) (nh E) (getP E GFy true) ->
       independent (seenH (getP E GFx true) (F t) i) (seenH (getP E GFy true) (F t) i) ->
       cdl (fun s => tip3 o2 (Hat (getP E (face o1) false) (F s) i) (Hat (getP E GFx true) (F s) i) (Hat (getP E GFy true) (F s) i)) t
           (tip3_deriv o2 (Hat (getP E (face o1) false) (F t) i) (Hat (getP E GFx true) (F t) i) (Hat (getP E GFy true) (F t) i)
              (Hat (getP E (face o1) false) dF i) (Hat (getP E GFx true) dF i) (Hat (getP E GFy true) dF i))).
    { intros (X & Y & Z) I.
      apply (tip3_cdl o2 (fun s => Hat _ (F s) i) (fun s => Hat _ (F s) i) (fun s => Hat _ (F s) i)); [apply (MH _ X i Hi)|apply (MH _ Y i Hi)|apply (MH _ Z i Hi)|].
      rewrite !Hat_seen. exact I. }
    destruct (e_dim E); cbn in B |- *.
    - apply K3; [apply F3'; exact B|exact Rg].
    - apply F2' in B. destruct B as [B C].
      apply (ratio_cdl (fun s => at_ (pj _ (h0 (F s))) i) (fun s => at_ (pj _ (h0 (F s))) i)); [apply (MH _ B i Hi)|apply (MH _ C i Hi)|rewrite at_pj; exact Rg].
    - apply K3; [apply F3'; exact B|exact Rg].
  Qed.
  Lemma adm_cdl o1 o2 c i dZ : fits E (RAdm o1 o2 c) -> (i < nD E)%nat -> regular E (RAdm o1 o2 c) (F t) i ->
    deriv_adm E o1 o2 (F t) dF = Ok dZ -> exists Z : R -> nat -> cx, (forall s, eval_adm E o1 o2 (F s) = Ok (Z s)) /\ cdl (fun s => Z s i) t (dZ i).
  Proof.
    unfold fits, regular, uses, eval_adm, deriv_adm. intros [A B] Hi Rg. destruct (e_dim E); cbn in A, B |- *; [discriminate| |].
    - destruct o1, o2; cbn in *; try discriminate; intros [= <-]; apply F1 in A, B;
        (eexists; split; [intros s; reflexivity|]; cbn beta);
        (apply (ratio_cdl (fun s => at_ (pj _ (h0 (F s))) i) (fun s => at_ (pj _ (e0 (F s))) i)); [apply (MH _ B i Hi)|apply (ME _ A i Hi)|rewrite at_pj; exact Rg]).
    - intros [= <-]. apply F1 in B. apply F2' in A. destruct A as [A C]. eexists; split; [intros s; reflexivity|]; cbn beta.
      apply (adm3_cdl o2 (fun s => Hat _ (F s) i) (fun s => Eat _ (F s) i) (fun s => Eat _ (F s) i)); [apply (MH _ B i Hi)|apply (ME _ A i Hi)|apply (ME _ C i Hi)|].
      rewrite !Eat_seen. exact Rg.
  Qed.
  Lemma nrm2_ge z : 0 <= nrm2 z. Proof. unfold nrm2. nra. Qed.
  Lemma app_bot_pos G i : regular E RApp G i -> app_bot (Eat (getP E GEx false) G i) (Eat (getP E GEy false) G i) <> 0.
  Proof.
    intros (z & Hz & Nz). unfold app_bot. rewrite !pabs2_alt, !Eat_seen. unfold seenE. cbn [fst snd]. apply nrm2_pos in Nz.
    pose proof (nrm2_ge (seen (getP E GEx false) (e0 G) i)). pose proof (nrm2_ge (seen (getP E GEx false) (e1 G) i)).
    pose proof (nrm2_ge (seen (getP E GEy false) (e0 G) i)). pose proof (nrm2_ge (seen (getP E GEy false) (e1 G) i)).
    cbn [In] in Hz. destruct Hz as [<-|[<-|[<-|[<-|[]]]]]; lra.
  Qed.
  Lemma app_dpl' a i : fits E RApp -> (i < nD E)%nat -> regular E RApp (F t) i -> deriv_app E (F t) dF = Ok a ->
    exists v : R -> nat -> R, (forall s, eval_app E (F s) = Ok (v s)) /\ derivable_pt_lim (fun s => v s i) t (a i).
  Proof.
    unfold fits, uses, eval_app, deriv_app. intros [A B] Hi Rg. pose proof (app_bot_pos _ _ Rg) as N.
    destruct (e_dim E); try discriminate. intros [= <-]. apply F2' in A. apply F3' in B. destruct A as [A1 A2], B as (B1 & B2 & B3).
    eexists; split; [intros s; reflexivity|]; cbn beta.
    apply (app_dpl (app_w E) (fun s => Eat _ (F s) i) (fun s => Eat _ (F s) i) (fun s => Hat _ (F s) i) (fun s => Hat _ (F s) i) (fun s => Hat _ (F s) i));
      try (apply (ME _ A1 i Hi)); try (apply (ME _ A2 i Hi)); try (apply (MH _ B1 i Hi)); try (apply (MH _ B2 i Hi)); try (apply (MH _ B3 i Hi)). exact N.
  Qed.
  Lemma tab_deriv c (Z : R -> nat -> cx) dZ : is_complex c = false -> (forall i, (i < nD E)%nat -> cdl (fun s => Z s i) t (dZ i)) ->
    (c = CPhi -> forall i, (i < nD E)%nat -> off_cut (Z t i)) ->
    exists v : R -> vec, (forall s, tabulate E c (Z s) = RealData (v s)) /\ vderiv (nD E) v t (tabulate_deriv E c (Z t) dZ).
  Proof.
    intros Hc D O. exists (fun s => map (fun i => comp_eval (alpha E) c (Z s i)) (seq 0 (nD E))). split; [intros s; destruct c; try discriminate; reflexivity|].
    split; [intros; now rewrite map_length, seq_length|]. split; [unfold tabulate_deriv; now rewrite map_length, seq_length|].
    intros i Hi. unfold tabulate_deriv. rewrite nth_tab by exact Hi. apply (dpl_ext (fun s => comp_eval (alpha E) c (Z s i))); [intros s; rewrite nth_tab by exact Hi; reflexivity|].
    apply (comp_dpl (alpha E) c (fun s => Z s i)); [apply D; exact Hi|]. intros Ec. apply O; assumption.
  Qed.
  Lemma deriv_ok r d : fits E r -> degenerate E r = false -> (forall i, (i < nD E)%nat -> smooth_at E r (F t) i) -> evalDeriv E r (F t) dF = Ok d ->
    exists v : R -> vec, (forall s, eval E r (F s) = Ok (RealData (v s))) /\ vderiv (nD E) v t d.
  Proof.
    intros Hf Hd Sm. destruct r as [o1 o2 c|o1 o2 c|o1 o2 c|]; cbn [evalDeriv eval].
    - destruct (is_complex c) eqn:Ec; [discriminate|]. cbn [degenerate] in Hd. rewrite Hd. intros [= <-].
      destruct (tab_deriv c (fun s => eval_imp E o1 o2 (F s)) (deriv_imp E o1 o2 (F t) dF) Ec) as (v & V1 & V2).
      + intros i Hi. apply (imp_cdl o1 o2 c); auto. apply (Sm i Hi).
      + intros -> i Hi. destruct (Sm i Hi) as [_ O]. specialize (O eq_refl _ eq_refl). rewrite nth_tab in O by exact Hi. exact O.
      + exists v. split; [intros s; now rewrite V1|exact V2].
    - destruct (is_complex (ofT c)) eqn:Ec; [discriminate|]. intros [= <-].
      destruct (tab_deriv (ofT c) (fun s => eval_tip E o1 o2 (F s)) (deriv_tip E o1 o2 (F t) dF) Ec) as (v & V1 & V2).
      + intros i Hi. apply (tip_cdl o1 o2 c); auto. apply (Sm i Hi).
      + destruct c; discriminate.
      + exists v. split; [intros s; now rewrite V1|exact V2].
    - destruct (is_complex (ofT c)) eqn:Ec; [discriminate|]. destruct (eval_adm E o1 o2 (F t)) as [Z|] eqn:EZ; [|discriminate].
      cbn [bind]. destruct (deriv_adm E o1 o2 (F t) dF) as [dZ|] eqn:ED; [|discriminate]. cbn [bind]. intros [= <-].
      assert (exists Zs : R -> nat -> cx, forall s, eval_adm E o1 o2 (F s) = Ok (Zs s)) as [Zs HZ].
      { unfold eval_adm in *. destruct (e_dim E); [discriminate| |eexists; intros; reflexivity].
        destruct (adm_low E o1 o2) as [PP|]; [|discriminate]. cbn [bind]. eexists; intros; reflexivity. }
      assert (Z = Zs t) as -> by (rewrite HZ in EZ; congruence).
      destruct (tab_deriv (ofT c) Zs dZ Ec) as (v & V1 & V2).
      + intros i Hi. destruct (adm_cdl o1 o2 c i dZ Hf Hi (proj1 (Sm i Hi)) ED) as (Z' & HZ' & C).
        eapply cdl_ext; [|exact C]. intros s. specialize (HZ s). rewrite HZ' in HZ. injection HZ as Q. cbn beta. now rewrite Q.
      + destruct c; discriminate.
      + exists v. split; [intros s; rewrite HZ; cbn [bind]; now rewrite V1|exact V2].
    - destruct (deriv_app E (F t) dF) as [a|] eqn:ED; [|discriminate]. cbn [bind]. intros [= <-].
      assert (exists v : R -> nat -> R, forall s, eval_app E (F s) = Ok (v s)) as [v HV].
      { unfold eval_app, deriv_app in *. destruct (e_dim E); try discriminate. eexists; intros; reflexivity. }
      exists (fun s => map (v s) (seq 0 (nD E))). split; [intros s; now rewrite HV|].
      split; [intros; now rewrite map_length, seq_length|]. split; [now rewrite map_length, seq_length|].
      intros i Hi. rewrite nth_tab by exact Hi. apply (dpl_ext (fun s => v s i)); [intros s; rewrite nth_tab by exact Hi; reflexivity|].
      destruct (app_dpl' a i Hf Hi (proj1 (Sm i Hi)) ED) as (v' & HV' & C). eapply dpl_ext; [|exact C].
      intros s. specialize (HV s). rewrite HV' in HV. injection HV as Q. cbn beta. now rewrite Q.
  Qed.
End Deriv.

(** ** Adjoints *)
Section Adj.
  Context (E : env) (F dF : flds) (S : sized E dF).
  Let LE : len2 (ne E) (e0 dF, e1 dF). Proof. destruct S as (A & B & _). split; assumption. Qed.
  Let LH : len2 (nh E) (h0 dF, h1 dF). Proof. destruct S as (_ & _ & A & B). split; assumption. Qed.
  Lemma pairing_mkG e h : pairing (mkG e h) dF = rdot2 e (e0 dF, e1 dF) + rdot2 h (h0 dF, h1 dF).
  Proof. unfold pairing, mkG, rdot2. cbn. ring. Qed.
  Lemma sized_mkG e h : len2 (ne E) e -> len2 (nh E) h -> sized E (mkG e h).
  Proof. intros [A B] [C D]. repeat split; cbn; first [apply A|apply B|apply C|apply D]. Qed.
  Lemma bE P g : is_mat (nD E) (ne E) P -> rdot2 (backT (nD E) (ne E) P g) (e0 dF, e1 dF) = sumn (nD E) (fun i => Re (pdot (g i) (Eat P dF i))).
  Proof. intros H. rewrite rdot2_backT by assumption. reflexivity. Qed.
  Lemma bH P g : is_mat (nD E) (nh E) P -> rdot2 (backT (nD E) (nh E) P g) (h0 dF, h1 dF) = sumn (nD E) (fun i => Re (pdot (g i) (Hat P dF i))).
  Proof. intros H. rewrite rdot2_backT by assumption. reflexivity. Qed.
  Lemma Re_add a b : Re a + Re b = Re (a +x b). Proof. reflexivity. Qed.
  Let lenB k n P g : is_mat k n P -> len2 n (backT k n P g). Proof. intros H. apply backT_len. exact H. Qed.

  Lemma imp_adj o1 o2 c w : fits E (RImp o1 o2 c) -> degenerate E (RImp o1 o2 c) = false -> (forall i, (i < nD E)%nat -> regular E (RImp o1 o2 c) F i) ->
    sized E (adj_imp E o1 o2 F w) /\ pairing (adj_imp E o1 o2 F w) dF = sumn (nD E) (fun i => Re (w i *x deriv_imp E o1 o2 F dF i)).
  Proof.
    unfold fits, degenerate, regular, uses, adj_imp, deriv_imp, is3. intros [A B] D Rg. 
    assert (K2 : forall PE PH s, is_mat (nD E) (ne E) PE -> is_mat (nD E) (nh E) PH -> (forall i, (i < nD E)%nat -> sgn s (at_ (pj PH (h0 F)) i) <> x0) ->
       let g := fun i => ratio_adj (at_ (pj PE (e0 F)) i) (sgn s (at_ (pj PH (h0 F)) i)) (w i) in
       let G := mkF (pjT (ne E) PE (collect (nD E) (fun i => fst (g i)))) (czero (ne E)) (pjT (nh E) PH (collect (nD E) (fun i => sgn s (snd (g i))))) (czero (nh E)) in
       sized E G /\ pairing G dF = sumn (nD E) (fun i => Re (w i *x ratio_deriv (at_ (pj PE (e0 F)) i) (sgn s (at_ (pj PH (h0 F)) i)) (at_ (pj PE (e0 dF)) i) (sgn s (at_ (pj PH (h0 dF)) i))))).
    { intros PE PH s HE HH N g G. split.
      - split; [eapply clen_pjT; exact HE|]. split; [apply len_zero|]. split; [eapply clen_pjT; exact HH|apply len_zero].
      - unfold pairing, G. cbn [e0 e1 h0 h1]. rewrite !(rdot_zero_l), !Rplus_0_r. destruct S as (S1 & _ & S2 & _). rewrite !lift by assumption. rewrite sumn_add. apply sumn_ext.
        intros i Hi. rewrite Re_add. f_equal. unfold g. rewrite <- ratio_adj_ok by (apply N; exact Hi). destruct s; cbn [sgn]; ring. }
    destruct (e_dim E) eqn:ED; cbn [negb andb] in D |- *.
    - apply F1 in A, B. unfold imp_low. rewrite ED. apply K2; auto. intros i Hi. apply sgn_neq. rewrite at_pj. apply Rg. exact Hi.
    - unfold imp_low. rewrite ED. destruct o1; apply F1 in A, B; apply (K2 _ _ false); auto; intros i Hi; cbn [sgn]; rewrite at_pj; apply (Rg i Hi).
    - rewrite imp_e_elec. apply F1 in A. apply F2' in B. destruct B as [B C]. split; [apply sized_mkG; auto using len2_add|].
      rewrite pairing_mkG, (rdot2_add (nh E)) by auto. rewrite bE, !bH by assumption. rewrite !sumn_add. apply sumn_ext. intros i Hi.
      rewrite !Re_add. f_equal. rewrite <- imp3_adj_ok by (rewrite !Hat_seen; apply Rg; exact Hi). cbn zeta. ring.
  Qed.
  Lemma tip_adj o1 o2 c w : fits E (RTip o1 o2 c) -> (forall i, (i < nD E)%nat -> regular E (RTip o1 o2 c) F i) ->
    sized E (adj_tip E o1 o2 F w) /\ pairing (adj_tip E o1 o2 F w) dF = sumn (nD E) (fun i => Re (w i *x deriv_tip E o1 o2 F dF i)).
  Proof.
    unfold fits, regular, uses, adj_tip, deriv_tip. intros [_ B] Rg.
    assert (K3 : forall Pho Phx Phy, is_mat (nD E) (nh E) Pho /\ is_mat (nD E) (nh E) Phx /\ is_mat (nD E) (nh E) Phy ->
       (forall i, (i < nD E)%nat -> independent (seenH Phx F i) (seenH Phy F i)) ->
       let g := fun i => tip3_adj o2 (Hat Pho F i) (Hat Phx F i) (Hat Phy F i) (w i) in
       let G := mkG (zero2 (ne E)) (add2 (add2 (backT (nD E) (nh E) Phx (fun i => g2 (g i))) (backT (nD E) (nh E) Phy (fun i => g3 (g i)))) (backT (nD E) (nh E) Pho (fun i => g1 (g i)))) in
       sized E G /\ pairing G dF = sumn (nD E) (fun i => Re (w i *x tip3_deriv o2 (Hat Pho F i) (Hat Phx F i) (Hat Phy F i) (Hat Pho dF i) (Hat Phx dF i) (Hat Phy dF i)))).
    { intros Pho Phx Phy (X & Y & Z) I g G. split; [apply sized_mkG; auto using len2_add, len2_zero|]. unfold G.
      rewrite pairing_mkG, rdot2_zero, !(rdot2_add (nh E)) by auto using len2_add. rewrite !bH by assumption. rewrite Rplus_0_l, !sumn_add. apply sumn_ext. intros i Hi.
      rewrite !Re_add. f_equal. unfold g. rewrite <- tip3_adj_ok by (rewrite !Hat_seen; apply I; exact Hi). cbn zeta. ring. }
    destruct (e_dim E); cbn [fst snd] in B |- *.
    - apply K3; [apply F3'; exact B|exact Rg].
    - apply F2' in B. destruct B as [B C]. split.
      + split; [apply len_zero|]. split; [apply len_zero|]. split; [|apply len_zero]. apply len_add; eapply clen_pjT; eassumption.
      + unfold pairing. cbn [e0 e1 h0 h1]. rewrite !(rdot_zero_l). destruct S as (_ & _ & S2 & _).
        rewrite (rdot_add_l (nh E)) by (try assumption; eapply clen_pjT; eassumption). rewrite !lift by assumption. rewrite Rplus_0_l, Rplus_0_r, !Rplus_0_l, sumn_add. apply sumn_ext.
        intros i Hi. rewrite Re_add. f_equal. rewrite <- ratio_adj_ok by (rewrite at_pj; apply Rg; exact Hi). ring.
    - apply K3; [apply F3'; exact B|exact Rg].
  Qed.
  Lemma adm_adj o1 o2 c w dZ : fits E (RAdm o1 o2 c) -> (forall i, (i < nD E)%nat -> regular E (RAdm o1 o2 c) F i) -> deriv_adm E o1 o2 F dF = Ok dZ ->
    exists G, adj_adm E o1 o2 F w = Ok G /\ sized E G /\ pairing G dF = sumn (nD E) (fun i => Re (w i *x dZ i)).
  Proof.
    unfold fits, regular, uses, adj_adm, deriv_adm. intros [A B] Rg. destruct (e_dim E); cbn [fst snd] in A, B |- *; [discriminate| |].
    - assert (K2 : forall PE PH, is_mat (nD E) (ne E) PE -> is_mat (nD E) (nh E) PH -> (forall i, (i < nD E)%nat -> at_ (pj PE (e0 F)) i <> x0) ->
         let g := fun i => ratio_adj (at_ (pj PH (h0 F)) i) (at_ (pj PE (e0 F)) i) (w i) in
         let G := mkF (pjT (ne E) PE (collect (nD E) (fun i => snd (g i)))) (czero (ne E)) (pjT (nh E) PH (collect (nD E) (fun i => fst (g i)))) (czero (nh E)) in
         sized E G /\ pairing G dF = sumn (nD E) (fun i => Re (w i *x ratio_deriv (at_ (pj PH (h0 F)) i) (at_ (pj PE (e0 F)) i) (at_ (pj PH (h0 dF)) i) (at_ (pj PE (e0 dF)) i)))).
      { intros PE PH HE HH N g G. split.
        - split; [eapply clen_pjT; exact HE|]. split; [apply len_zero|]. split; [eapply clen_pjT; exact HH|apply len_zero].
        - unfold pairing, G. cbn [e0 e1 h0 h1]. rewrite !(rdot_zero_l), !Rplus_0_r. destruct S as (S1 & _ & S2 & _). rewrite !lift by assumption. rewrite sumn_add. apply sumn_ext.
          intros i Hi. rewrite Re_add. f_equal. unfold g. rewrite <- ratio_adj_ok by (apply N; exact Hi). ring. }
      destruct o1, o2; cbn in *; try discriminate; intros [= <-]; apply F1 in A, B; (eexists; split; [reflexivity|]); apply K2; auto; intros i Hi; rewrite at_pj; apply (Rg i Hi).
    - intros [= <-]. apply F1 in B. apply F2' in A. destruct A as [A C]. eexists; split; [reflexivity|]. split; [apply sized_mkG; auto using len2_add|].
      rewrite pairing_mkG, (rdot2_add (ne E)) by auto. rewrite !bE, bH by assumption. rewrite !sumn_add. apply sumn_ext. intros i Hi.
      rewrite !Re_add. f_equal. rewrite <- adm3_adj_ok by (rewrite !Eat_seen; apply Rg; exact Hi). cbn zeta. ring.
  Qed.
  Lemma hE P g : is_mat (nD E) (ne E) P -> hdot2 (backT (nD E) (ne E) P g) (e0 dF, e1 dF) = sumn (nD E) (fun i => preal (g i) (Eat P dF i)).
  Proof. intros H. rewrite hdot2_backT by assumption. reflexivity. Qed.
  Lemma hH P g : is_mat (nD E) (nh E) P -> hdot2 (backT (nD E) (nh E) P g) (h0 dF, h1 dF) = sumn (nD E) (fun i => preal (g i) (Hat P dF i)).
  Proof. intros H. rewrite hdot2_backT by assumption. reflexivity. Qed.
  Lemma preal_pmul u c d : preal (pmul u (xr c)) d = c * preal u d.
  Proof. unfold preal, pmul, cconj, xmul, xr, Re, Im. cbn. ring. Qed.
  Lemma app_adj_ok v a : fits E RApp -> (forall i, (i < nD E)%nat -> regular E RApp F i) -> deriv_app E F dF = Ok a ->
    exists G, adj_app E F v = Ok G /\ sized E G /\ pairing G dF = sumn (nD E) (fun i => nth i v 0 * a i).
  Proof.
    unfold fits, uses, adj_app, deriv_app. intros [A B] Rg. pose proof (fun i Hi => app_bot_pos E F i (Rg i Hi)) as N.
    destruct (e_dim E); try discriminate. intros [= <-]. apply F2' in A. apply F3' in B. destruct A as [A1 A2], B as (B1 & B2 & B3).
    eexists; split; [reflexivity|]. split; [apply sized_mkG; auto 6 using len2_add, len2_conj|].
    rewrite pairing_mkG, !rdot2_conj, (hdot2_add (ne E)), !(hdot2_add (nh E)) by auto using len2_add. rewrite !hE, !hH by assumption. rewrite !sumn_add, !sumn_scal, sumn_add. apply sumn_ext. intros i Hi.
    specialize (N i Hi). rewrite !preal_pmul. unfold app_adj, app_deriv. cbn [fst snd]. field. exact N.
  Qed.
  Lemma tab_sum c Z dZ v : length v = nD E -> dot v (tabulate_deriv E c Z dZ) = sumn (nD E) (fun i => Re (weights E c Z v i *x dZ i)).
  Proof.
    intros L. unfold tabulate_deriv. rewrite (as_map v (nD E) L) at 1. rewrite dot_sumn. apply sumn_ext. intros i _. unfold weights. now rewrite comp_adj_ok.
  Qed.
  Lemma adjoint_ok r v d : length v = nD E -> fits E r -> degenerate E r = false -> (forall i, (i < nD E)%nat -> regular E r F i) -> evalDeriv E r F dF = Ok d ->
    exists G, evalDerivT E r F v = Ok G /\ sized E G /\ dot v d = pairing G dF.
  Proof.
    intros Lv Hf Hd Rg. destruct r as [o1 o2 c|o1 o2 c|o1 o2 c|]; cbn [evalDeriv evalDerivT].
    - destruct (is_complex c) eqn:Ec; [discriminate|]. pose proof Hd as Hd'. cbn [degenerate] in Hd'. rewrite Hd'. intros [= <-].
      eexists; split; [reflexivity|]. destruct (imp_adj o1 o2 c (weights E c (eval_imp E o1 o2 F) v) Hf Hd Rg) as [SG PG]. split; [exact SG|]. rewrite PG. apply tab_sum. exact Lv.
    - destruct (is_complex (ofT c)) eqn:Ec; [discriminate|]. intros [= <-].
      eexists; split; [reflexivity|]. destruct (tip_adj o1 o2 c (weights E (ofT c) (eval_tip E o1 o2 F) v) Hf Rg) as [SG PG]. split; [exact SG|]. rewrite PG. apply tab_sum. exact Lv.
    - destruct (is_complex (ofT c)) eqn:Ec; [discriminate|]. destruct (eval_adm E o1 o2 F) as [Z|]; [|discriminate].
      cbn [bind]. destruct (deriv_adm E o1 o2 F dF) as [dZ|] eqn:ED; [|discriminate]. cbn [bind]. intros [= <-].
      destruct (adm_adj o1 o2 c (weights E (ofT c) Z v) dZ Hf Rg ED) as (G & EG & SG & PG). exists G. split; [exact EG|]. split; [exact SG|]. rewrite PG. apply tab_sum. exact Lv.
    - destruct (deriv_app E F dF) as [a|] eqn:ED; [|discriminate]. cbn [bind]. intros [= <-].
      destruct (app_adj_ok v a Hf Rg ED) as (G & EG & SG & PG). exists G. split; [exact EG|]. split; [exact SG|]. rewrite PG.
      rewrite (as_map v (nD E) Lv) at 1. apply dot_sumn.
  Qed.
End Adj.
