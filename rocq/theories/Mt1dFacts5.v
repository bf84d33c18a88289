(** The simulation: data, sensitivities, histories. *)
From Verif Require Import Py Vec VecDeriv PropsM LinSimFacts EmpirFacts6 Cx Mt1d SpecMt1d Mt1dFacts Mt1dFacts2 Mt1dFacts3 Mt1dFacts4.
From Coq Require Import Lra.
Local Open Scope R_scope.

Definition Zof (s : mt) (m : vec) (f : R) : cx :=
  match impedance (mt_mu s) f (pval (mt_sigma s) m) (pval (mt_thick s) m) with Ok z => z | Err _ => x0 end.
Definition meas (s : mt) (m : vec) (fr : R * rx) : R := measured (mt_mu s) (fst fr) (Zof s m (fst fr)) (r_comp (snd fr)).

Lemma impedance_ok mu f n S T : length S = Datatypes.S n -> length T = n -> exists z, impedance mu f S T = Ok z.
Proof.
  intros H1 H2. destruct S as [|sb ab]; [discriminate|]. cbn in *. unfold impedance, layers.
  replace (length ab) with (length T) by lia. rewrite Nat.eqb_refl. cbn. eauto.
Qed.
Lemma pair_freq s fr : In fr (rx_pairs s) -> In (fst fr) (frequencies (mt_srcs s)).
Proof.
  unfold rx_pairs. rewrite in_flat_map. intros (c & Hc & H). apply in_map_iff in H. destruct H as (r & <- & Hr).
  apply frequencies_ok. cbn. eauto.
Qed.
Lemma pair_pos s fr : Forall (fun c => 0 < s_freq c) (mt_srcs s) -> In fr (rx_pairs s) -> 0 < fst fr.
Proof.
  unfold rx_pairs. rewrite in_flat_map. intros HF (c & Hc & H). apply in_map_iff in H. destruct H as (r & <- & Hr).
  rewrite Forall_forall in HF. apply HF. exact Hc.
Qed.
Lemma freq_pos s f : Forall (fun c => 0 < s_freq c) (mt_srcs s) -> In f (frequencies (mt_srcs s)) -> 0 < f.
Proof. intros HF H. apply frequencies_ok in H. destruct H as (c & Hc & <-). rewrite Forall_forall in HF. now apply HF. Qed.
Lemma nth_freq {A} s fr (g : R -> A) d : In fr (rx_pairs s) ->
  nth (searchsorted (frequencies (mt_srcs s)) (fst fr)) (map g (frequencies (mt_srcs s))) d = g (fst fr).
Proof.
  intros H. apply pair_freq in H. destruct (frequencies_ok (mt_srcs s)) as [HI _].
  destruct (searchsorted_nth _ _ HI H) as [A1 A2].
  rewrite (nth_indep _ d (g 0)) by (rewrite map_length; exact A1). rewrite map_nth, A2. reflexivity.
Qed.

Lemma dpred_ok s n m : length (pval (mt_sigma s) m) = S n -> length (pval (mt_thick s) m) = n -> plain_rx s ->
  dpred s m = Ok (map (meas s m) (rx_pairs s)) /\
  forall f, impedance (mt_mu s) f (pval (mt_sigma s) m) (pval (mt_thick s) m) = Ok (Zof s m f).
Proof.
  intros H1 H2 HP.
  assert (HZ : forall f, impedance (mt_mu s) f (pval (mt_sigma s) m) (pval (mt_thick s) m) = Ok (Zof s m f)).
  { intros f. unfold Zof. destruct (impedance_ok (mt_mu s) f n _ _ H1 H2) as (z & ->). reflexivity. }
  split; [|exact HZ]. unfold dpred. rewrite (mapM_all _ (Zof s m)) by (intros; apply HZ). cbn. f_equal.
  unfold plain_rx in HP. rewrite Forall_forall in HP.
  assert (G : forall l, incl l (rx_pairs s) ->
    flat_map (fun fr => datum (mt_mu s) (fst fr) (nth (searchsorted (frequencies (mt_srcs s)) (fst fr)) (map (Zof s m) (frequencies (mt_srcs s))) x0) (r_comp (snd fr))) l
    = map (meas s m) l).
  { induction l as [|fr l IH]; intros HI; [reflexivity|]. cbn [flat_map map].
    rewrite IH by (intros x Hx; apply HI; right; exact Hx).
    rewrite nth_freq by (apply HI; left; reflexivity).
    rewrite datum_measured by (apply HP; apply HI; left; reflexivity). reflexivity. }
  apply G. intros x Hx. exact Hx.
Qed.

Lemma usable_len p n q m m' : usable p n q m -> length m' = p -> length (pval q m') = n.
Proof. destruct q; cbn; intros (A & B & C); [auto|]. intros H. apply C. exact H. Qed.

(** Directions of the properties. *)
Definition dir (n : nat) (q : pspec) (m h : vec) : vec := match q with Fixed _ => vzero n | Mapped _ D => mv (D m) h end.
Definition dir' (q : pspec) (m h : vec) : vec := match q with Fixed _ => [] | Mapped _ D => mv (D m) h end.
Lemma usable_curve p n q m h : usable p n q m -> length m = p -> length h = p ->
  vderiv n (fun t => pval q (vadd m (vscale t h))) 0 (dir n q m h).
Proof.
  destruct q as [v|f D]; cbn; intros (A & B & C) Hm Hh.
  - apply vderiv_const. exact A.
  - destruct C as (_ & _ & C). apply C. exact Hh.
Qed.
Lemma xdot_zero l n : xdot l (vzero n) = x0.
Proof.
  revert n; induction l as [|d l IH]; intros [|n]; cbn; try reflexivity.
  change (vconst n 0) with (vzero n). rewrite IH. assert (xr 0 = x0) as -> by reflexivity. ring.
Qed.

(** The complex row of a frequency: the blocks of the mapped properties. *)
Definition crow (s : mt) (ds dt : list cx) : list cx :=
  (if is_mapped (mt_sigma s) then ds else []) ++ (if is_mapped (mt_thick s) then dt else []).
Lemma crow_dot s n m h ds dt : length ds = S n -> length dt = n ->
  length (dir (S n) (mt_sigma s) m h) = S n ->
  xdot (crow s ds dt) (dir' (mt_sigma s) m h ++ dir' (mt_thick s) m h) =
  xdot ds (dir (S n) (mt_sigma s) m h) +x xdot dt (dir n (mt_thick s) m h).
Proof.
  intros H1 H2 H3. unfold crow. destruct (mt_sigma s) as [v|f D], (mt_thick s) as [v'|f' D']; cbn [is_mapped dir dir' app] in *.
  - rewrite !xdot_zero. cbn. ring.
  - rewrite xdot_zero. ring.
  - rewrite xdot_app by lia. rewrite xdot_zero. cbn. reflexivity.
  - rewrite xdot_app by lia. reflexivity.
Qed.

Section S.
  Variables (s : mt) (p n : nat) (m : vec).
  Hypotheses (HU : usable_sim s p n m) (HP : plain_rx s).

  Lemma lens m' : length m' = p -> length (pval (mt_sigma s) m') = S n /\ length (pval (mt_thick s) m') = n.
  Proof. destruct HU as (_ & _ & Hm & A & B). intros H. split; eapply usable_len; eauto. Qed.

  Definition zd (f : R) : cx * list cx * list cx :=
    match impedance_deriv (mt_mu s) f (pval (mt_sigma s) m) (pval (mt_thick s) m) with Ok z => z | Err _ => (x0, [], []) end.
  Definition row (fr : R * rx) : vec :=
    match jrow (mt_mu s) (fst fr) (fst (fst (zd (fst fr)))) (crow s (snd (fst (zd (fst fr)))) (snd (zd (fst fr)))) (r_comp (snd fr)) with
    | Some r => r | None => [] end.

  Lemma freq_facts f h : 0 < f -> length h = p ->
    impedance_deriv (mt_mu s) f (pval (mt_sigma s) m) (pval (mt_thick s) m) = Ok (zd f) /\
    length (snd (fst (zd f))) = S n /\ length (snd (zd f)) = n /\ fst (fst (zd f)) = Zof s m f /\ good (Zof s m f) /\
    cdl (fun t => Zof s (vadd m (vscale t h)) f) 0
      (xdot (crow s (snd (fst (zd f))) (snd (zd f))) (dir' (mt_sigma s) m h ++ dir' (mt_thick s) m h)).
  Proof.
    intros Hf Hh. destruct HU as (Hmu & HF & Hm & A & B).
    pose proof (usable_curve p (S n) _ m h A Hm Hh) as DS. pose proof (usable_curve p n _ m h B Hm Hh) as DT.
    assert (E0 : vadd m (vscale 0 h) = m) by (apply (at_start p); assumption).
    destruct (imp_deriv (mt_mu s) f n _ _ 0 _ _ Hmu Hf DS DT) as (Zf & ds & dt & HZ & HD & L1 & L2 & HC & HG).
    { rewrite E0. apply A. }
    { rewrite E0. apply B. }
    rewrite E0 in HD.
    assert (EZ : forall t, Zof s (vadd m (vscale t h)) f = Zf t) by (intros t; unfold Zof; rewrite HZ; reflexivity).
    assert (E1 : zd f = (Zf 0, ds, dt)) by (unfold zd; rewrite HD; reflexivity).
    assert (E2 : Zof s m f = Zf 0) by (rewrite <- EZ, E0; reflexivity).
    rewrite E1, E2. cbn [fst snd].
    split; [exact HD|]. split; [exact L1|]. split; [exact L2|]. split; [reflexivity|]. split; [exact HG|].
    eapply cdl_ext; [intros t; symmetry; apply EZ|]. eapply cdl_eq; [|exact HC]. symmetry. apply (crow_dot s n); try assumption. apply DS.
  Qed.

  Lemma row_facts fr h : In fr (rx_pairs s) -> length h = p ->
    jrow (mt_mu s) (fst fr) (fst (fst (zd (fst fr)))) (crow s (snd (fst (zd (fst fr)))) (snd (zd (fst fr)))) (r_comp (snd fr)) = Some (row fr) /\
    length (row fr) = length (crow s (snd (fst (zd (fst fr)))) (snd (zd (fst fr)))) /\
    derivable_pt_lim (fun t => meas s (vadd m (vscale t h)) fr) 0 (dot (row fr) (dir' (mt_sigma s) m h ++ dir' (mt_thick s) m h)).
  Proof.
    intros Hin Hh. pose proof HU as (Hmu & HF & Hm & A & B).
    assert (Hf : 0 < fst fr) by (eapply pair_pos; eassumption).
    destruct (freq_facts (fst fr) h Hf Hh) as (F1 & F2 & F3 & F4 & F5 & F6).
    unfold plain_rx in HP. rewrite Forall_forall in HP. destruct (HP fr Hin) as [_ Hc].
    assert (E0 : vadd m (vscale 0 h) = m) by (apply (at_start p); assumption).
    assert (HG : good ((fun t => Zof s (vadd m (vscale t h)) (fst fr)) 0)) by (cbv beta; rewrite E0; exact F5).
    destruct (measured_deriv (mt_mu s) (fst fr) _ 0 _ _ _ Hmu Hf Hc F6 HG) as (r & R1 & R2 & R3).
    cbv beta in R1. rewrite E0, <- F4 in R1.
    assert (ER : row fr = r) by (unfold row; rewrite R1; reflexivity).
    rewrite ER. split; [exact R1|]. split; [exact R2|]. exact R3.
  Qed.

  Lemma jrows_ok : forall l last, incl l (rx_pairs s) ->
    jrows (mt_mu s) (frequencies (mt_srcs s))
      (map (fun z => (fst (fst z), crow s (snd (fst z)) (snd z))) (map zd (frequencies (mt_srcs s)))) last l = Ok (map row l).
  Proof.
    induction l as [|fr l IH]; intros last HI; [reflexivity|]. cbn [jrows map]. destruct fr as [f r].
    assert (Hin : In (f, r) (rx_pairs s)) by (apply HI; left; reflexivity).
    rewrite map_map. pose proof (nth_freq s (f, r) (fun x => (fst (fst (zd x)), crow s (snd (fst (zd x))) (snd (zd x)))) (x0, []) Hin) as E.
    cbn [fst] in E. rewrite E. cbn [fst snd].
    pose proof HU as (_ & _ & Hm & _).
    destruct (row_facts (f, r) (vzero p) Hin (vzero_length p)) as (R1 & _). cbn [fst snd] in R1. rewrite R1.
    rewrite map_map in IH. rewrite IH by (intros x Hx; apply HI; right; exact Hx). cbn.
    unfold plain_rx in HP. rewrite Forall_forall in HP. destruct (HP _ Hin) as [Hn _]. cbn in Hn. rewrite Hn. reflexivity.
  Qed.

  Definition ns : nat := if is_mapped (mt_sigma s) then S n else 0%nat.
  Definition theJ : option mat * option mat :=
    (if is_mapped (mt_sigma s) then Some (map (firstn ns) (map row (rx_pairs s))) else None,
     if is_mapped (mt_thick s) then Some (map (skipn ns) (map row (rx_pairs s))) else None).
  Lemma getJ0_ok : invertible s -> getJ0 s m = Ok theJ.
  Proof.
    intros HV. pose proof HU as (Hmu & HF & Hm & A & B).
    unfold getJ0. rewrite (mapM_all _ zd).
    - cbn [bind].
      assert (EO : is_mapped (mt_sigma s) || is_mapped (mt_thick s) = true) by (destruct HV as [V|V]; rewrite V; auto with bool).
      rewrite EO.
      change (map (fun z : cx * list cx * list cx => (fst (fst z), (if is_mapped (mt_sigma s) then snd (fst z) else []) ++ (if is_mapped (mt_thick s) then snd z else []))) (map zd (frequencies (mt_srcs s))))
        with (map (fun z => (fst (fst z), crow s (snd (fst z)) (snd z))) (map zd (frequencies (mt_srcs s)))).
      rewrite jrows_ok by (intros x Hx; exact Hx). cbn [bind]. unfold theJ, ns.
      destruct (lens m Hm) as [L _]. rewrite L. reflexivity.
    - intros f Hf. apply (freq_facts f (vzero p)); [eapply freq_pos; eassumption|apply vzero_length].
  Qed.

  Definition Jv (v : vec) : vec := map (fun fr => dot (row fr) (dir' (mt_sigma s) m v ++ dir' (mt_thick s) m v)) (rx_pairs s).

  Lemma dot_split k a u v : length u = k -> dot a (u ++ v) = dot (firstn k a) u + dot (skipn k a) v.
  Proof.
    revert a u; induction k as [|k IH]; intros a u H.
    - destruct u; [|discriminate]. cbn. ring.
    - destruct u as [|x u]; [discriminate|]. destruct a as [|y a]; cbn; [ring|].
      cbn in H. rewrite IH by lia. ring.
  Qed.
  Lemma jvec_ok v : invertible s -> length v = p -> jvec0 s theJ m v = Ok (Jv v).
  Proof.
    intros HV Hv. pose proof HU as (Hmu & HF & Hm & (A1 & A2 & A3) & (B1 & B2 & B3)).
    unfold jvec0, theJ, Jv, ns. destruct HV as [V|V]; destruct (mt_sigma s) as [v1|f1 D1], (mt_thick s) as [v2|f2 D2]; cbn [is_mapped] in V; try discriminate;
      cbn [is_mapped jv1 osum dir' app fst snd].
    1: { f_equal. unfold mv. rewrite !map_map. apply map_ext. intros fr. rewrite (dot_split (S n)).
         - destruct (skipn (S n) (row fr)); cbn; ring.
         - rewrite map_length. apply A3. }
    1,3: f_equal; unfold mv; rewrite !map_map; unfold vadd; 
       assert (G : forall l, zipw Rplus (map (fun x => dot (firstn (S n) (row x)) (map (fun row0 => dot row0 v) (D1 m))) l)
                (map (fun x => dot (skipn (S n) (row x)) (map (fun row0 => dot row0 v) (D2 m))) l)
              = map (fun fr => dot (row fr) (map (fun row0 => dot row0 v) (D1 m) ++ map (fun row0 => dot row0 v) (D2 m))) l)
         by (induction l as [|x l IH]; cbn [map zipw]; [reflexivity|]; rewrite IH; f_equal; symmetry; apply dot_split; rewrite map_length; apply A3);
       apply G.
    f_equal. unfold mv. rewrite !map_map. apply map_ext. intros fr. reflexivity.
  Qed.
  Lemma Jv_length v : length (Jv v) = length (rx_pairs s).
  Proof. apply map_length. Qed.
  Lemma nD_plain : nD s = length (rx_pairs s).
  Proof.
    unfold nD. unfold plain_rx in HP. induction (rx_pairs s) as [|fr l IH]; [reflexivity|].
    inversion HP as [|? ? [E _] HP']; subst. cbn [map length list_sum]. unfold list_sum in *. cbn [fold_right]. rewrite E, IH; auto.
  Qed.
  Lemma jac : has_jacobian p (nD s) (fun m' => map (meas s m') (rx_pairs s)) m Jv.
  Proof.
    intros h Hh. rewrite nD_plain. split; [intros t; apply map_length|]. split; [apply map_length|].
    intros i Hi.
    destruct (nth_error (rx_pairs s) i) as [fr|] eqn:E; [|apply nth_error_None in E; lia].
    assert (G : forall g, nth i (map g (rx_pairs s)) 0 = g fr).
    { intros g. apply nth_error_nth. rewrite nth_error_map, E. reflexivity. }
    unfold Jv. rewrite G. apply (dpl_ext (fun t => meas s (vadd m (vscale t h)) fr)); [intros t; symmetry; apply G|].
    apply row_facts; [eapply nth_error_In; exact E|exact Hh].
  Qed.

  Lemma crow_length f : 0 < f -> length (crow s (snd (fst (zd f))) (snd (zd f))) = (ns + (if is_mapped (mt_thick s) then n else 0))%nat.
  Proof.
    intros Hf. destruct (freq_facts f (vzero p) Hf (vzero_length p)) as (_ & L1 & L2 & _).
    unfold crow, ns. rewrite app_length. destruct (is_mapped (mt_sigma s)), (is_mapped (mt_thick s)); cbn; lia.
  Qed.
  Lemma row_length fr : In fr (rx_pairs s) -> length (row fr) = (ns + (if is_mapped (mt_thick s) then n else 0))%nat.
  Proof.
    intros Hin. destruct (row_facts fr (vzero p) Hin (vzero_length p)) as (_ & L & _). rewrite L. apply crow_length.
    destruct HU as (_ & HF & _). eapply pair_pos; eassumption.
  Qed.
  Lemma is_mat_firstn : is_mapped (mt_sigma s) = true -> is_mat (length (rx_pairs s)) (S n) (map (firstn ns) (map row (rx_pairs s))).
  Proof.
    intros V. split; [rewrite !map_length; reflexivity|]. apply Forall_forall. intros r Hr. rewrite map_map in Hr. apply in_map_iff in Hr.
    destruct Hr as (fr & <- & Hin). rewrite firstn_length, row_length by exact Hin. unfold ns. rewrite V. lia.
  Qed.
  Lemma is_mat_skipn : is_mapped (mt_thick s) = true -> is_mat (length (rx_pairs s)) n (map (skipn ns) (map row (rx_pairs s))).
  Proof.
    intros V. split; [rewrite !map_length; reflexivity|]. apply Forall_forall. intros r Hr. rewrite map_map in Hr. apply in_map_iff in Hr.
    destruct Hr as (fr & <- & Hin). rewrite skipn_length, row_length by exact Hin. rewrite V. lia.
  Qed.

  Lemma jtv1_adj q k M u v : usable p k q m -> is_mapped q = true -> is_mat (length (rx_pairs s)) k M ->
    length u = length (rx_pairs s) -> length v = p ->
    exists a b, jtv1 q (Some M) m u = Some a /\ jv1 q (Some M) m v = Some b /\ length a = p /\ length b = length (rx_pairs s) /\ dot a v = dot u b.
  Proof.
    intros HQ V HM Hu Hv. destruct q as [|f D]; [discriminate|]. cbn in *. destruct HQ as (_ & _ & _ & HD & _).
    pose proof HU as (_ & _ & Hm & _).
    eexists; eexists. split; [reflexivity|]. split; [reflexivity|]. rewrite Hm.
    destruct HD as [LD HD']. rewrite LD.
    split; [eapply mtv_length; split; eassumption|]. split; [rewrite mv_length; apply HM|].
    rewrite <- (mv_mtv_adjoint k p (D m)); [|split; assumption|eapply mtv_length; exact HM|exact Hv].
    rewrite <- (mv_mtv_adjoint (length (rx_pairs s)) k M); [reflexivity|exact HM|exact Hu|rewrite mv_length; exact LD].
  Qed.
  Lemma jtvec_ok u v : invertible s -> length u = nD s -> length v = p ->
    exists g, jtvec0 s theJ m u = Ok g /\ length g = p /\ dot g v = dot u (Jv v).
  Proof.
    intros HV Hu Hv. rewrite nD_plain in Hu. pose proof (jvec_ok v HV Hv) as EJ. unfold jvec0, jtvec0 in *.
    pose proof HU as (_ & _ & Hm & A & B).
    assert (NS : forall q M w, jv1 q None M w = None) by (intros []; reflexivity).
    assert (NT : forall q M w, jtv1 q None M w = None) by (intros []; reflexivity).
    unfold theJ in *. cbn [fst snd] in *.
    destruct (is_mapped (mt_sigma s)) eqn:V1, (is_mapped (mt_thick s)) eqn:V2.
    - destruct (jtv1_adj _ _ _ u v A V1 (is_mat_firstn V1) Hu Hv) as (a & b & E1 & E2 & L1 & L2 & D1).
      destruct (jtv1_adj _ _ _ u v B V2 (is_mat_skipn V2) Hu Hv) as (a' & b' & E3 & E4 & L3 & L4 & D2).
      rewrite E1, E3. rewrite E2, E4 in EJ. cbn in *. injection EJ as EJ. rewrite <- EJ.
      eexists. split; [reflexivity|]. split; [rewrite vadd_length; congruence|].
      rewrite dot_vadd_l, dot_vadd_r by congruence. lra.
    - destruct (jtv1_adj _ _ _ u v A V1 (is_mat_firstn V1) Hu Hv) as (a & b & E1 & E2 & L1 & L2 & D1).
      rewrite E1, NT. rewrite E2, NS in EJ. cbn in *. injection EJ as EJ. rewrite <- EJ.
      eexists. split; [reflexivity|]. split; [exact L1|exact D1].
    - destruct (jtv1_adj _ _ _ u v B V2 (is_mat_skipn V2) Hu Hv) as (a & b & E1 & E2 & L1 & L2 & D1).
      rewrite E1, NT. rewrite E2, NS in EJ. cbn in *. injection EJ as EJ. rewrite <- EJ.
      eexists. split; [reflexivity|]. split; [exact L1|exact D1].
    - destruct HV; congruence.
  Qed.

  (** The diagonal. *)
  Lemma coord_length j : length (coord p j) = p.
  Proof. unfold coord. rewrite map_length, seq_length. reflexivity. Qed.
  Lemma dot_coord_gen : forall k a x j, length x = k -> dot x (map (fun i => if Nat.eqb i j then 1 else 0) (seq a k)) =
    if (Nat.leb a j && Nat.ltb j (a + k))%bool then nth (j - a) x 0 else 0.
  Proof.
    induction k as [|k IH]; intros a x j H.
    - destruct x; [|discriminate]. cbn. destruct (_ && _)%bool; [destruct (j - a)%nat|]; reflexivity.
    - destruct x as [|y x]; [discriminate|]. cbn in H. cbn [seq map dot]. rewrite IH by lia.
      destruct (Nat.eqb_spec a j) as [->|N].
      + replace (Nat.leb (S j) j) with false by (symmetry; apply Nat.leb_gt; lia).
        replace (Nat.leb j j) with true by (symmetry; apply Nat.leb_le; lia).
        replace (Nat.ltb j (j + S k)) with true by (symmetry; apply Nat.ltb_lt; lia).
        rewrite Nat.sub_diag. cbn. ring.
      + destruct (Nat.leb_spec a j) as [L|L].
        * replace (Nat.leb (S a) j) with true by (symmetry; apply Nat.leb_le; lia).
          replace (a + S k)%nat with (S a + k)%nat by lia. cbn [andb].
          replace (j - a)%nat with (S (j - S a)) by lia. cbn [nth]. destruct (Nat.ltb j (S a + k)); ring.
        * replace (Nat.leb (S a) j) with false by (symmetry; apply Nat.leb_gt; lia). cbn [andb]. ring.
  Qed.
  Lemma dot_coord x j : length x = p -> (j < p)%nat -> dot x (coord p j) = nth j x 0.
  Proof.
    intros H Hj. unfold coord. rewrite dot_coord_gen by exact H.
    replace (Nat.leb 0 j) with true by reflexivity. replace (Nat.ltb j (0 + p)) with true by (symmetry; apply Nat.ltb_lt; lia).
    cbn [andb]. rewrite Nat.sub_0_r. reflexivity.
  Qed.
  Definition sens (q : pspec) (r : vec) (j : nat) : R := dot r (dir' q m (coord p j)).
  Lemma diag1_ok q k M W : usable p k q m -> is_mapped q = true -> is_mat (length (rx_pairs s)) k M ->
    exists g, diag1 q (Some M) m W = Some g /\ length g = p /\ forall j, (j < p)%nat -> nth j g 0 = dot W (map (fun r => (sens q r j) ^ 2) M).
  Proof.
    intros HQ V HM. destruct q as [|f D]; [discriminate|]. cbn in *. destruct HQ as (_ & _ & _ & HD & _).
    pose proof HU as (_ & _ & Hm & _). eexists. split; [reflexivity|]. rewrite Hm.
    split; [rewrite map_length, seq_length; reflexivity|]. intros j Hj.
    erewrite nth_indep by (rewrite map_length, seq_length; exact Hj).
    rewrite (map_nth (fun j => dot W (map (fun row0 => nth j (mtv p (D m) row0) 0 ^ 2) M)) _ 0%nat), seq_nth by exact Hj. cbn [Nat.add].
    f_equal. apply map_ext_in. intros r Hr. unfold sens. cbn [dir'].
    destruct HM as [_ HM]. rewrite Forall_forall in HM. specialize (HM r Hr).
    rewrite <- (dot_coord (mtv p (D m) r) j); [|eapply mtv_length; exact HD|exact Hj].
    rewrite <- (mv_mtv_adjoint k p (D m) r (coord p j) HD HM (coord_length j)). reflexivity.
  Qed.
  Lemma no_effect_0 q r j : (j < p)%nat -> (forall D, (exists f, q = Mapped f D) -> Forall (fun row => length row = p) (D m)) -> no_effect q m j -> sens q r j = 0.
  Proof.
    intros Hj HL HN. unfold sens. destruct q as [|f D]; cbn in *; [now destruct r|].
    specialize (HL D (ex_intro _ f eq_refl)).
    assert (mv (D m) (coord p j) = vzero (length (D m))) as ->; [|apply dot_zero_r].
    induction (D m) as [|row0 M IH]; [reflexivity|]. 
    pose proof (Forall_inv HL) as L1. pose proof (Forall_inv_tail HL) as L2.
    pose proof (Forall_inv HN) as N1. pose proof (Forall_inv_tail HN) as N2. cbn.
    change (vconst (length M) 0) with (vzero (length M)). f_equal; [rewrite dot_coord; auto|].
    apply IH; assumption.
  Qed.
  Lemma usable_rows k q : usable p k q m -> forall D, (exists f, q = Mapped f D) -> Forall (fun row => length row = p) (D m).
  Proof. intros (_ & _ & U) D (f & ->). apply U. Qed.
  Lemma sens_split r j : (length (dir' (mt_sigma s) m (coord p j)) = ns) ->
    dot r (dir' (mt_sigma s) m (coord p j) ++ dir' (mt_thick s) m (coord p j)) =
    sens (mt_sigma s) (firstn ns r) j + sens (mt_thick s) (skipn ns r) j.
  Proof. intros H. apply dot_split. exact H. Qed.
  Lemma dot_map_add W (a b c : R * rx -> R) l : (forall x, In x l -> c x = a x + b x) -> 
    dot W (map c l) = dot W (map a l) + dot W (map b l).
  Proof.
    revert W; induction l as [|x l IH]; intros [|y W] H; cbn; try ring.
    rewrite IH by (intros z Hz; apply H; right; exact Hz). rewrite H by (left; reflexivity). ring.
  Qed.
  Lemma diag_ok W : invertible s -> separate_maps s m ->
    exists g, diag0 s theJ m W = Ok g /\ length g = p /\
      forall j, (j < p)%nat -> nth j g 0 = dot W (map (fun x => x ^ 2) (Jv (coord p j))).
  Proof.
    intros HV HS. pose proof HU as (_ & _ & Hm & A & B). unfold diag0, theJ. cbn [fst snd].
    assert (NS : forall q w, diag1 q None m w = None) by (intros []; reflexivity).
    assert (LD : forall j, length (dir' (mt_sigma s) m (coord p j)) = ns).
    { intros j. unfold ns. pose proof A as (_ & _ & A3). destruct (mt_sigma s); cbn in *; [reflexivity|]. rewrite mv_length. apply A3. }
    assert (KEY : forall j, (j < p)%nat -> dot W (map (fun x => x ^ 2) (Jv (coord p j))) =
        dot W (map (fun fr => sens (mt_sigma s) (firstn ns (row fr)) j ^ 2) (rx_pairs s))
      + dot W (map (fun fr => sens (mt_thick s) (skipn ns (row fr)) j ^ 2) (rx_pairs s))).
    { intros j Hj. unfold Jv. rewrite map_map. apply dot_map_add. intros fr _. rewrite sens_split by apply LD.
      destruct (HS j) as [Z|Z]; [lia| |].
      - rewrite (no_effect_0 _ (firstn ns (row fr)) j Hj (usable_rows _ _ A) Z). ring.
      - rewrite (no_effect_0 _ (skipn ns (row fr)) j Hj (usable_rows _ _ B) Z). ring. }
    assert (ZS : forall j, is_mapped (mt_sigma s) = false -> dot W (map (fun fr => sens (mt_sigma s) (firstn ns (row fr)) j ^ 2) (rx_pairs s)) = 0).
    { intros j V. destruct (mt_sigma s); [|discriminate]. unfold sens. cbn [dir'].
      clear. revert W; induction (rx_pairs s) as [|x l IH]; intros [|y W]; cbn -[pow]; try reflexivity. rewrite IH. destruct (firstn ns (row x)); cbn; ring. }
    assert (ZT : forall j, is_mapped (mt_thick s) = false -> dot W (map (fun fr => sens (mt_thick s) (skipn ns (row fr)) j ^ 2) (rx_pairs s)) = 0).
    { intros j V. destruct (mt_thick s); [|discriminate]. unfold sens. cbn [dir'].
      clear. revert W; induction (rx_pairs s) as [|x l IH]; intros [|y W]; cbn -[pow]; try reflexivity. rewrite IH. destruct (skipn ns (row x)); cbn; ring. }
    destruct (is_mapped (mt_sigma s)) eqn:V1, (is_mapped (mt_thick s)) eqn:V2.
    - destruct (diag1_ok _ _ _ W A V1 (is_mat_firstn V1)) as (a & E1 & L1 & D1).
      destruct (diag1_ok _ _ _ W B V2 (is_mat_skipn V2)) as (b & E2 & L2 & D2).
      rewrite E1, E2. cbn [osum]. eexists. split; [reflexivity|]. split; [rewrite vadd_length; congruence|].
      intros j Hj. rewrite nth_vadd by congruence. rewrite KEY by exact Hj. rewrite D1, D2 by exact Hj. rewrite !map_map. reflexivity.
    - destruct (diag1_ok _ _ _ W A V1 (is_mat_firstn V1)) as (a & E1 & L1 & D1). rewrite E1, NS. cbn [osum].
      eexists. split; [reflexivity|]. split; [exact L1|]. intros j Hj. rewrite KEY, ZT, D1 by auto. rewrite !map_map. ring.
    - destruct (diag1_ok _ _ _ W B V2 (is_mat_skipn V2)) as (a & E1 & L1 & D1). rewrite E1, NS. cbn [osum].
      eexists. split; [reflexivity|]. split; [exact L1|]. intros j Hj. rewrite KEY, ZS, D1 by auto. rewrite !map_map. ring.
    - destruct HV; congruence.
  Qed.
End S.

(** ** Histories *)
Lemma fresh_dpred s m : fresh s (CallDpred m) = dpred s m. Proof. reflexivity. Qed.
Lemma getJ_fresh s m : snd (getJ s (mt0 false) m) = getJ0 s m.
Proof. unfold getJ, set_model, mt0. cbn. destruct (getJ0 s m); reflexivity. Qed.
Lemma fresh_jvec s m v : fresh s (CallJvec m v) = do J <- getJ0 s m; jvec0 s J m v.
Proof. unfold fresh. cbn [do_call]. rewrite <- getJ_fresh. destruct (getJ s (mt0 false) m); reflexivity. Qed.
Lemma fresh_jtvec s m v : fresh s (CallJtvec m v) = do J <- getJ0 s m; jtvec0 s J m v.
Proof. unfold fresh. cbn [do_call]. rewrite <- getJ_fresh. destruct (getJ s (mt0 false) m); reflexivity. Qed.
Lemma fresh_diag s m v : fresh s (CallDiag m v) = do J <- getJ0 s m; diag0 s J m v.
Proof.
  unfold fresh. cbn [do_call mt0 st_g]. rewrite <- getJ_fresh. change (mkSt false None None None) with (mt0 false). destruct (getJ s (mt0 false) m) as [st r]. cbn.
  destruct (do J <- r; diag0 s J m v); reflexivity.
Qed.

(** A cached matrix belongs to the current model. *)
Definition owned (s : mt) (ms : list vec) (st : mtst) : Prop :=
  st_fix st = false /\ (forall m, st_model st = Some m -> In m ms) /\
  forall J, st_J st = Some J -> exists m, st_model st = Some m /\ getJ0 s m = Ok J.
Lemma owned_set s ms st m : separated ms -> In m ms -> owned s ms st ->
  owned s ms (set_model st m) /\ st_model (set_model st m) = Some m.
Proof.
  intros HS Hin (F & HM & HJ). unfold set_model. rewrite F. rewrite orb_false_r.
  destruct (st_model st) as [m'|] eqn:E.
  - destruct (allclose m' m) as [[|]|] eqn:EA; (split; [|reflexivity]); (split; [reflexivity|]);
      (split; [cbn; intros a Ha; injection Ha as <-; exact Hin|]); cbn; try discriminate.
    intros J EJ. destruct (HJ J EJ) as (m2 & E2 & G). injection E2 as <-. exists m. split; [reflexivity|].
    destruct (HS m' m (HM _ eq_refl) Hin) as [EQ|NE]; congruence.
  - split; [|reflexivity]. split; [reflexivity|]. split; [cbn; intros a Ha; injection Ha as <-; exact Hin|cbn; discriminate].
Qed.
Lemma owned_getJ s ms st m : separated ms -> In m ms -> owned s ms st ->
  owned s ms (fst (getJ s st m)) /\ snd (getJ s st m) = getJ0 s m.
Proof.
  intros HS Hin HO. destruct (owned_set s ms st m HS Hin HO) as [O1 EM]. unfold getJ.
  set (st1 := set_model st m) in *. destruct O1 as (F & HM & HJ).
  destruct (st_J st1) as [J|] eqn:EJ.
  - cbn. split; [split; [exact F|split; [exact HM|intros J' E'; apply HJ; congruence]]|].
    destruct (HJ J eq_refl) as (m2 & E2 & G). rewrite EM in E2. injection E2 as <-. symmetry. exact G.
  - destruct (getJ0 s m) as [J|e] eqn:EG; cbn.
    + split; [|reflexivity]. split; [exact F|]. split; [exact HM|]. cbn. intros J' E'. injection E' as <-. exists m. auto.
    + split; [|reflexivity]. split; [exact F|]. split; [exact HM|]. intros J' E'. apply HJ. congruence.
Qed.
Lemma owned_call s ms st c : separated ms -> In (model_of c) ms -> owned s ms st ->
  owned s ms (fst (do_call s st c)) /\ (is_diag c = false -> snd (do_call s st c) = fresh s c).
Proof.
  intros HS Hin HO. destruct c as [m|m v|m u|m W]; cbn [model_of do_call is_diag] in *.
  - split; [apply owned_set; assumption|intros _; reflexivity].
  - rewrite fresh_jvec. destruct (owned_getJ s ms st m HS Hin HO) as [O1 E]. destruct (getJ s st m). cbn in *. rewrite E. auto.
  - rewrite fresh_jtvec. destruct (owned_getJ s ms st m HS Hin HO) as [O1 E]. destruct (getJ s st m). cbn in *. rewrite E. auto.
  - split; [|discriminate]. destruct (st_g st) as [g|]; [exact HO|].
    destruct (owned_getJ s ms st m HS Hin HO) as [O1 E]. destruct (getJ s st m) as [st1 r]. cbn in *.
    destruct (do J <- r; diag0 s J m W); cbn; exact O1.
Qed.
Lemma history s cs c : separated (map model_of (cs ++ [c])) -> is_diag c = false ->
  snd (do_call s (do_calls s (mt0 false) cs) c) = fresh s c.
Proof.
  intros HS HD. set (ms := map model_of (cs ++ [c])) in *.
  assert (G : forall cs' st, incl (map model_of cs') ms -> owned s ms st -> owned s ms (do_calls s st cs')).
  { induction cs' as [|c' cs' IH]; intros st HI HO; [exact HO|]. cbn [do_calls]. apply IH.
    - intros x Hx. apply HI. right. exact Hx.
    - apply owned_call; [exact HS|apply HI; left; reflexivity|exact HO]. }
  apply (owned_call s ms); [exact HS| |apply G| exact HD].
  - unfold ms. rewrite map_app. apply in_or_app. right. left. reflexivity.
  - intros x Hx. unfold ms. rewrite map_app. apply in_or_app. left. exact Hx.
  - split; [reflexivity|]. split; cbn; discriminate.
Qed.
