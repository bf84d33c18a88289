From Coq Require Import Reals Lra Field Lia.
From Verif Require Import Py Vec VecDeriv Joint Cplx CplxFacts Mt1d Coords CoordsFacts Cx NsemRx SpecNsemRx NsemRxFacts NsemRxFacts2 NsemRxFacts3.
Local Open Scope R_scope.

Lemma cplx_tab E (Z : nat -> cx) : tabulate E CComplex Z = CplxData (map Z (seq 0 (nD E))). Proof. reflexivity. Qed.
Lemma impedance_ok E o1 F : e_dim E = D3 -> exists zx zy,
  eval E (RImp o1 AX CComplex) F = Ok (CplxData zx) /\ eval E (RImp o1 AY CComplex) F = Ok (CplxData zy) /\ length zx = nD E /\ length zy = nD E /\
  forall i, (i < nD E)%nat ->
    let e := seenE (getP E (elec o1) false) F i in let hx := seenH (getP E GFx true) F i in let hy := seenH (getP E GFy true) F i in
    independent hx hy -> transfer e hx hy (nth i zx x0) (nth i zy x0) /\
    forall a b, transfer e hx hy a b -> a = nth i zx x0 /\ b = nth i zy x0.
Proof.
  intros D. do 2 eexists. do 2 (split; [reflexivity|]). do 2 (split; [now rewrite map_length, seq_length|]). intros i Hi e hx hy I.
  rewrite !nth_tab by exact Hi. unfold eval_imp, is3. rewrite D, imp_e_elec, Eat_seen, !Hat_seen. fold e hx hy.
  pose proof (imp3_transfer e hx hy I) as T. split; [exact T|]. intros a b T'. apply (transfer_unique _ _ _ _ _ _ _ I T' T).
Qed.
Lemma tipper_ok E o1 F : e_dim E = D3 -> exists tx ty,
  eval E (RTip o1 AX TComplex) F = Ok (CplxData tx) /\ eval E (RTip o1 AY TComplex) F = Ok (CplxData ty) /\ length tx = nD E /\ length ty = nD E /\
  forall i, (i < nD E)%nat ->
    let ho := seenH (getP E (face o1) false) F i in let hx := seenH (getP E GFx true) F i in let hy := seenH (getP E GFy true) F i in
    independent hx hy -> transfer ho hx hy (nth i tx x0) (nth i ty x0) /\
    forall a b, transfer ho hx hy a b -> a = nth i tx x0 /\ b = nth i ty x0.
Proof.
  intros D. do 2 eexists. do 2 (split; [reflexivity|]). do 2 (split; [now rewrite map_length, seq_length|]). intros i Hi ho hx hy I.
  rewrite !nth_tab by exact Hi. unfold eval_tip. rewrite D, !Hat_seen. fold ho hx hy.
  pose proof (tip3_transfer ho hx hy I) as T. split; [exact T|]. intros a b T'. apply (transfer_unique _ _ _ _ _ _ _ I T' T).
Qed.
Lemma admittance_when E o1 F yx yy i : e_dim E = D3 ->
  eval E (RAdm o1 AX TComplex) F = Ok (CplxData yx) -> eval E (RAdm o1 AY TComplex) F = Ok (CplxData yy) -> (i < nD E)%nat ->
  let h := seenH (getP E (face o1) true) F i in let ex := seenE (getP E GEx false) F i in let ey := seenE (getP E GEy false) F i in
  independent ex ey ->
  (transfer h ex ey (nth i yx x0) (nth i yy x0) <->
   (fst h = x0 /\ snd h = x0) \/ snd ex = fst ey).
Proof.
  intros D. unfold eval, eval_adm. rewrite D. cbn [bind ofT tabulate]. intros Ex Ey Hi I. injection Ex as Ex. injection Ey as Ey. subst yx yy.
  rewrite !nth_tab by exact Hi. rewrite !Eat_seen, Hat_seen. set (h := seenH (getP E (face o1) true) F i) in *. set (ex := seenE (getP E GEx false) F i) in *. set (ey := seenE (getP E GEy false) F i) in *. rewrite adm3_transfer by exact I.
  assert (Z : forall a b : cx, a *x b = x0 -> a = x0 \/ b = x0).
  { intros a b H. destruct (Req_dec (nrm2 a) 0) as [Na|Na]; [left; now apply nrm2_0|].
    right. assert (a <> x0) as A by (intros ->; apply Na; unfold nrm2, x0, Re, Im; cbn; ring).
    replace b with ((a *x b) /x a) by (field; exact A). rewrite H. field. exact A. }
  split.
  - intros [A B]. destruct (Z _ _ A) as [A1|A1]; [destruct (Z _ _ B) as [B1|B1]; [left; auto|]|].
    + right. replace (snd ex) with ((snd ex -x fst ey) +x fst ey) by ring. rewrite B1. ring.
    + right. replace (snd ex) with ((snd ex -x fst ey) +x fst ey) by ring. rewrite A1. ring.
  - intros [[Q1 Q2]|Q]; [rewrite Q1, Q2|rewrite Q]; split; ring.
Qed.
Lemma components_ok E o1 o2 F : 0 < mu0 E -> 0 < freq E -> exists z re im rho phi,
  eval E (RImp o1 o2 CComplex) F = Ok (CplxData z) /\ eval E (RImp o1 o2 CReal) F = Ok (RealData re) /\ eval E (RImp o1 o2 CImag) F = Ok (RealData im) /\
  eval E (RImp o1 o2 CRho) F = Ok (RealData rho) /\ eval E (RImp o1 o2 CPhi) F = Ok (RealData phi) /\
  forall i, (i < nD E)%nat ->
    let Z := nth i z x0 in let theta := nth i phi 0 * PI / 180 in
    nth i re 0 = Re Z /\ nth i im 0 = Im Z /\
    nth i rho 0 * (mu0 E * (2 * PI * freq E)) = (sqrt (Re Z ^ 2 + Im Z ^ 2)) ^ 2 /\
    (- 180 < nth i phi 0 <= 180 /\ sqrt (Re Z ^ 2 + Im Z ^ 2) * cos theta = Re Z /\ sqrt (Re Z ^ 2 + Im Z ^ 2) * sin theta = Im Z).
Proof.
  intros Hm Hf. do 5 eexists. do 5 (split; [reflexivity|]). intros i Hi Z theta. unfold theta, Z. rewrite !nth_tab by exact Hi. cbn [comp_eval]. set (z := eval_imp E o1 o2 F i).
  pose proof PI_RGT_0 as HP. split; [reflexivity|]. split; [reflexivity|]. split.
  - rewrite pow2_sqrt by (pose proof (pow2_ge_0 (Re z)); pose proof (pow2_ge_0 (Im z)); lra). unfold alpha. field. repeat split; lra.
  - rewrite arctan2_atan2. pose proof (atan2_bound (Im z) (Re z)) as [B1 B2]. replace (180 / PI * atan2 (Im z) (Re z) * PI / 180) with (atan2 (Im z) (Re z)) by (field; lra).
    split; [|apply atan2_polar]. split.
    + replace (-180) with (180 / PI * (- PI)) by (field; lra). apply Rmult_lt_compat_l; [apply Rdiv_lt_0_compat; lra|exact B1].
    + replace 180 with (180 / PI * PI) at 2 by (field; lra). apply Rmult_le_compat_l; [left; apply Rdiv_lt_0_compat; lra|exact B2].
Qed.
Lemma ratio_mul a b : b <> x0 -> ratio a b *x b = a. Proof. intros H. unfold ratio. field. exact H. Qed.
Lemma low_impedance E o1 o2 F : e_dim E = D2 -> o1 <> o2 -> exists z, eval E (RImp o1 o2 CComplex) F = Ok (CplxData z) /\
  forall i, (i < nD E)%nat ->
    let e := seen (getP E (match o1 with AX => GEx | AY => GCC end) false) (e0 F) i in
    let h := seen (getP E (match o1 with AX => GCC | AY => GEx end) true) (h0 F) i in
    h <> x0 -> nth i z x0 *x h = e.
Proof.
  intros D N. eexists. split; [reflexivity|]. intros i Hi e h Hh. rewrite nth_tab by exact Hi. unfold eval_imp, is3, imp_low, e, h in *. rewrite D.
  destruct o1, o2; try (exfalso; apply N; reflexivity); cbn [ax_eqb sgn]; rewrite !at_pj; apply ratio_mul; exact Hh.
Qed.
Lemma low_1d E o1 o2 F : e_dim E = D1 -> o1 <> o2 -> exists z, eval E (RImp o1 o2 CComplex) F = Ok (CplxData z) /\
  forall i, (i < nD E)%nat ->
    let e := seen (getP E G1e false) (e0 F) i in let h := seen (getP E G1h false) (h0 F) i in
    h <> x0 -> nth i z x0 *x h = if Bool.eqb (match o1 with AX => true | AY => false end) (dir_xy E) then e else xopp e.
Proof.
  intros D N. eexists. split; [reflexivity|]. intros i Hi e h Hh. rewrite nth_tab by exact Hi. unfold eval_imp, is3, imp_low, e, h in *. rewrite D.
  destruct o1, o2; try (exfalso; apply N; reflexivity); cbn [ax_eqb]; rewrite !at_pj; destruct (dir_xy E); cbn [Bool.eqb negb sgn]; unfold ratio; field; try exact Hh;
    intros Q; apply Hh; match type of Q with xopp ?q = _ => replace q with (xopp (xopp q)) by ring; rewrite Q; ring end.
Qed.
Lemma low_tipper E o1 o2 F : e_dim E = D2 -> exists z, eval E (RTip o1 o2 TComplex) F = Ok (CplxData z) /\
  forall i, (i < nD E)%nat -> let hz := seen (getP E GEy false) (h0 F) i in let hx := seen (getP E GEx true) (h0 F) i in
    hx <> x0 -> nth i z x0 *x hx = hz.
Proof.
  intros D. eexists. split; [reflexivity|]. intros i Hi hz hx Hh. rewrite nth_tab by exact Hi. unfold eval_tip, hz, hx in *. rewrite D, !at_pj. apply ratio_mul. exact Hh.
Qed.
Lemma low_admittance E o1 o2 F : e_dim E = D2 -> (o1 = BX /\ o2 = AY \/ o1 = BY /\ o2 = AX) -> exists z, eval E (RAdm o1 o2 TComplex) F = Ok (CplxData z) /\
  forall i, (i < nD E)%nat ->
    let e := seen (getP E (match o1 with BY => GEx | _ => GCC end) false) (e0 F) i in
    let h := seen (getP E (match o1 with BY => GCC | _ => GEx end) true) (h0 F) i in
    e <> x0 -> nth i z x0 *x e = h.
Proof.
  intros D O. unfold eval, eval_adm. rewrite D. destruct O as [[-> ->]|[-> ->]]; cbn [adm_low bind fst snd]; eexists; (split; [reflexivity|]); intros i Hi Hh;
    rewrite nth_tab by exact Hi; rewrite !at_pj; apply ratio_mul; exact Hh.
Qed.
Lemma conductivity_ok E F : e_dim E = D3 -> exists s, eval E RApp F = Ok (RealData s) /\ forall i, (i < nD E)%nat -> regular E RApp F i ->
  let tot := fun l : list cx => fold_right (fun z a => (sqrt (Re z * Re z + Im z * Im z)) ^ 2 + a) 0 l in
  nth i s 0 * tot [seen (getP E GEx false) (e0 F) i; seen (getP E GEy false) (e0 F) i; seen (getP E GEx false) (e1 F) i; seen (getP E GEy false) (e1 F) i]
  = 2 * PI * freq E * mu0 E *
    tot (map (fun P => seen P (h0 F) i) [getP E GFx true; getP E GFy true; getP E GFz true] ++ map (fun P => seen P (h1 F) i) [getP E GFx true; getP E GFy true; getP E GFz true]).
Proof.
  intros D. eexists. split; [unfold eval, eval_app; rewrite D; reflexivity|]. intros i Hi Rg tot. rewrite nth_tab by exact Hi.
  pose proof (app_bot_pos E F i Rg) as N. unfold NsemRx.app, app_bot, app_top in *. rewrite !Eat_seen, !Hat_seen in *. unfold pabs2, seenE, seenH, nrm2 in *. cbn [fst snd] in *.
  set (q := fun z : cx => sqrt (Re z * Re z + Im z * Im z) ^ 2).
  assert (T : forall l, tot l = fold_right (fun z a => q z + a) 0 l) by reflexivity. cbn [map Datatypes.app]. rewrite !T. cbn [fold_right].
  repeat match type of N with context [sqrt (Re ?z * Re ?z + Im ?z * Im ?z) ^ 2] => change (sqrt (Re z * Re z + Im z * Im z) ^ 2) with (q z) in * end.
  repeat match goal with |- context [sqrt (Re ?z * Re ?z + Im ?z * Im ?z) ^ 2] => change (sqrt (Re z * Re z + Im z * Im z) ^ 2) with (q z) end.
  rewrite ?T. cbn [fold_right]. clearbody q. unfold app_w. field. lra.
Qed.
Lemma diagonal_refuted : exists E r F dF d, fits E r /\ sized E F /\ sized E dF /\ (exists c, r = RImp AX AX c) /\
  evalDeriv E r F dF = Ok d /\ length d <> nD E /\ forall v, evalDerivT E r F v = Err ValueError.
Proof.
  exists (mkEnv D2 1 2 1 (fun g _ => match g with GEx => [[1; 0]] | _ => [[1]] end) 1 1 true), (RImp AX AX CReal),
    (mkF ([1; 0], [0; 0]) ([0; 0], [0; 0]) ([1], [0]) ([0], [0])), (mkF ([0; 0], [0; 0]) ([0; 0], [0; 0]) ([0], [0]) ([0], [0])).
  eexists. split; [|split; [|split; [|split; [|split; [|split]]]]].
  - unfold fits, uses. cbn. split; repeat constructor.
  - repeat split.
  - repeat split.
  - exists CReal. reflexivity.
  - reflexivity.
  - cbn. lia.
  - intros v. reflexivity.
Qed.
Lemma admittance_refuted : exists E F yx yy, e_dim E = D3 /\ sized E F /\ fits E (RAdm BX AX TComplex) /\ (0 < nD E)%nat /\
  eval E (RAdm BX AX TComplex) F = Ok (CplxData yx) /\ eval E (RAdm BX AY TComplex) F = Ok (CplxData yy) /\
  independent (seenE (getP E GEx false) F 0) (seenE (getP E GEy false) F 0) /\
  ~ transfer (seenH (getP E GFx true) F 0) (seenE (getP E GEx false) F 0) (seenE (getP E GEy false) F 0) (nth 0 yx x0) (nth 0 yy x0).
Proof.
  exists env3, (mkF ([1; 0], [0; 0]) ([1; 1], [0; 0]) ([1; 0; 0], [0; 0; 0]) ([0; 1; 0], [0; 0; 0])).
  assert (I : independent (seenE (getP env3 GEx false) (mkF ([1; 0], [0; 0]) ([1; 1], [0; 0]) ([1; 0; 0], [0; 0; 0]) ([0; 1; 0], [0; 0; 0])) 0)
                (seenE (getP env3 GEy false) (mkF ([1; 0], [0; 0]) ([1; 1], [0; 0]) ([1; 0; 0], [0; 0; 0]) ([0; 1; 0], [0; 0; 0])) 0)).
  { unfold independent. intros Q. apply (f_equal fst) in Q. cbn in Q. lra. }
  do 2 eexists. split; [reflexivity|]. split; [repeat split|]. split; [split; cbn; repeat constructor|]. split; [cbn; lia|]. split; [reflexivity|]. split; [reflexivity|].
  split; [exact I|]. intros T. eapply (admittance_when env3 BX) in T; [|reflexivity|reflexivity|reflexivity|cbn; lia|exact I].
  destruct T as [[T _]|T]; apply (f_equal fst) in T; cbn in T; lra.
Qed.
Lemma remote_refuted : exists E F z, e_dim E = D1 /\ sized E F /\ (0 < nD E)%nat /\ dir_xy E = true /\ eval E (RImp AX AY CComplex) F = Ok (CplxData z) /\
  seen (getP E G1h true) (h0 F) 0 <> x0 /\ seen (getP E G1h false) (h0 F) 0 <> x0 /\
  nth 0 z x0 *x seen (getP E G1h true) (h0 F) 0 <> seen (getP E G1e false) (e0 F) 0.
Proof.
  exists env1, F1d. destruct (low_1d env1 AX AY F1d eq_refl ltac:(discriminate)) as (z & Ez & Hz). exists z.
  split; [reflexivity|]. split; [repeat split|]. split; [cbn; lia|]. split; [reflexivity|]. split; [exact Ez|].
  assert (S1 : seen (getP env1 G1h true) (h0 F1d) 0 = (2, 0)) by (unfold seen; cbn; f_equal; ring).
  assert (S0 : seen (getP env1 G1h false) (h0 F1d) 0 = (1, 0)) by (unfold seen; cbn; f_equal; ring).
  assert (SE : seen (getP env1 G1e false) (e0 F1d) 0 = (1, 0)) by (unfold seen; cbn; f_equal; ring).
  specialize (Hz 0%nat ltac:(cbn; lia)). cbn zeta in Hz. rewrite S0, SE in Hz. rewrite S1, S0, SE.
  assert (N1 : ((1, 0) : cx) <> x0) by (intros [= Q]; lra). specialize (Hz N1). cbn [Bool.eqb dir_xy env1] in Hz.
  split; [intros [= Q]; lra|]. split; [exact N1|]. set (w := nth 0 z x0) in *. destruct w as [a b]. intros Q.
  apply (f_equal Re) in Q. apply (f_equal Re) in Hz. unfold xmul, Re, Im in *. cbn in *. lra.
Qed.
(** ** Examples *)
Lemma ex_sized : sized env3 F3 /\ sized env3 dF3. Proof. repeat split. Qed.
Lemma ex_fits r : fits env3 r.
Proof. destruct r as [o1 o2 c|o1 o2 c|o1 o2 c|]; unfold fits, uses; cbn; try destruct o1; cbn; split; repeat constructor. Qed.
Lemma ex_regular r i : (i < 2)%nat -> regular env3 r F3 i.
Proof.
  intros Hi. assert (i = 0 \/ i = 1)%nat as [-> | ->] by lia; destruct r as [o1 o2 c|o1 o2 c|o1 o2 c|]; cbn [regular e_dim env3];
    try (unfold independent; intros Q; apply (f_equal fst) in Q; cbn in Q; lra);
    (eexists; split; [left; reflexivity|]; intros Q; apply (f_equal fst) in Q; cbn in Q; lra).
Qed.
Lemma ex_moves : moves env3 Fline 0 dF3.
Proof.
  assert (K : forall g k, length (g F3) = k -> length (g dF3) = k -> (forall t, g (Fline t) = vadd (g F3) (vscale t (g dF3))) -> vderiv k (fun s => g (Fline s)) 0 (g dF3)).
  { intros g k A B C. eapply vderiv_ext; [intros s; symmetry; apply C|]. apply vderiv_line; assumption. }
  intros g k H. cbn [In] in H. destruct H as [H|[H|[H|[H|[H|[H|[H|[H|[]]]]]]]]]; injection H as <- <-.
  - apply (K (fun f => fst (e0 f))); intros; reflexivity.
  - apply (K (fun f => snd (e0 f))); intros; reflexivity.
  - apply (K (fun f => fst (e1 f))); intros; reflexivity.
  - apply (K (fun f => snd (e1 f))); intros; reflexivity.
  - apply (K (fun f => fst (h0 f))); intros; reflexivity.
  - apply (K (fun f => snd (h0 f))); intros; reflexivity.
  - apply (K (fun f => fst (h1 f))); intros; reflexivity.
  - apply (K (fun f => snd (h1 f))); intros; reflexivity.
Qed.
