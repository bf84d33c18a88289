(** C85: natural source receivers. *)
From Coq Require Import Reals Lra.
From Verif Require Import Py Vec VecDeriv Joint Cplx Cx NsemRx SpecNsemRx NsemRxFacts NsemRxFacts2 NsemRxFacts3 NsemRxFacts4.
Local Open Scope R_scope.

(** The complex impedances of a pair of 3D receivers are the one solution of E = Z H over both polarisations, with the electric
    field seen at the first locations and the magnetic field at the second. *)
Theorem C85_impedance : forall E o1 F, e_dim E = D3 -> exists zx zy,
  eval E (RImp o1 AX CComplex) F = Ok (CplxData zx) /\ eval E (RImp o1 AY CComplex) F = Ok (CplxData zy) /\ length zx = nD E /\ length zy = nD E /\
  forall i, (i < nD E)%nat ->
    let e := seenE (getP E (elec o1) false) F i in let hx := seenH (getP E GFx true) F i in let hy := seenH (getP E GFy true) F i in
    independent hx hy -> transfer e hx hy (nth i zx x0) (nth i zy x0) /\
    forall a b, transfer e hx hy a b -> a = nth i zx x0 /\ b = nth i zy x0.
Proof. exact impedance_ok. Qed.
Print Assumptions C85_impedance.
Example C85_impedance_ex : e_dim env3 = D3 /\ independent (seenH (getP env3 GFx true) F3 0) (seenH (getP env3 GFy true) F3 0).
Proof. exact (conj eq_refl (ex_regular (RImp AX AX CReal) 0 ltac:(auto))). Qed.

(** The complex tippers are the one solution of Ho = T H, with the roving field seen at the first locations and the horizontal
    fields at the base station. *)
Theorem C85_tipper : forall E o1 F, e_dim E = D3 -> exists tx ty,
  eval E (RTip o1 AX TComplex) F = Ok (CplxData tx) /\ eval E (RTip o1 AY TComplex) F = Ok (CplxData ty) /\ length tx = nD E /\ length ty = nD E /\
  forall i, (i < nD E)%nat ->
    let ho := seenH (getP E (face o1) false) F i in let hx := seenH (getP E GFx true) F i in let hy := seenH (getP E GFy true) F i in
    independent hx hy -> transfer ho hx hy (nth i tx x0) (nth i ty x0) /\
    forall a b, transfer ho hx hy a b -> a = nth i tx x0 /\ b = nth i ty x0.
Proof. exact tipper_ok. Qed.
Print Assumptions C85_tipper.
Example C85_tipper_ex : e_dim env3 = D3 /\ independent (seenH (getP env3 GFx true) F3 1) (seenH (getP env3 GFy true) F3 1).
Proof. exact (conj eq_refl (ex_regular (RTip BZ AX TReal) 1 ltac:(auto))). Qed.

(** The documented admittance is the solution of H = Y E; the receiver computes another number. *)
Theorem C85_admittance_refuted : exists E F yx yy, e_dim E = D3 /\ sized E F /\ fits E (RAdm BX AX TComplex) /\ (0 < nD E)%nat /\
  eval E (RAdm BX AX TComplex) F = Ok (CplxData yx) /\ eval E (RAdm BX AY TComplex) F = Ok (CplxData yy) /\
  independent (seenE (getP E GEx false) F 0) (seenE (getP E GEy false) F 0) /\
  ~ transfer (seenH (getP E GFx true) F 0) (seenE (getP E GEx false) F 0) (seenE (getP E GEy false) F 0) (nth 0 yx x0) (nth 0 yy x0).
Proof. exact admittance_refuted. Qed.
Print Assumptions C85_admittance_refuted.

(** The admittances are right exactly where the magnetic field vanishes or the electric fields happen to be symmetric:
    Ex of the second polarisation equal to Ey of the first. *)
Theorem C85_admittance_when : forall E o1 F yx yy i, e_dim E = D3 ->
  eval E (RAdm o1 AX TComplex) F = Ok (CplxData yx) -> eval E (RAdm o1 AY TComplex) F = Ok (CplxData yy) -> (i < nD E)%nat ->
  let h := seenH (getP E (face o1) true) F i in let ex := seenE (getP E GEx false) F i in let ey := seenE (getP E GEy false) F i in
  independent ex ey ->
  (transfer h ex ey (nth i yx x0) (nth i yy x0) <->
   (fst h = x0 /\ snd h = x0) \/ snd ex = fst ey).
Proof. exact admittance_when. Qed.
Print Assumptions C85_admittance_when.
Example C85_admittance_when_ex : e_dim env3 = D3 /\ independent (seenE (getP env3 GEx false) F3 0) (seenE (getP env3 GEy false) F3 0).
Proof. exact (conj eq_refl (ex_regular (RAdm BX AX TReal) 0 ltac:(auto))). Qed.

(** Real and imaginary parts, apparent resistivity |Z|^2 / (mu_0 omega), and the phase in degrees in (-180, 180]. *)
Theorem C85_components : forall E o1 o2 F, 0 < mu0 E -> 0 < freq E -> exists z re im rho phi,
  eval E (RImp o1 o2 CComplex) F = Ok (CplxData z) /\ eval E (RImp o1 o2 CReal) F = Ok (RealData re) /\ eval E (RImp o1 o2 CImag) F = Ok (RealData im) /\
  eval E (RImp o1 o2 CRho) F = Ok (RealData rho) /\ eval E (RImp o1 o2 CPhi) F = Ok (RealData phi) /\
  forall i, (i < nD E)%nat ->
    let Z := nth i z x0 in let theta := nth i phi 0 * PI / 180 in
    nth i re 0 = Re Z /\ nth i im 0 = Im Z /\
    nth i rho 0 * (mu0 E * (2 * PI * freq E)) = (sqrt (Re Z ^ 2 + Im Z ^ 2)) ^ 2 /\
    (- 180 < nth i phi 0 <= 180 /\ sqrt (Re Z ^ 2 + Im Z ^ 2) * cos theta = Re Z /\ sqrt (Re Z ^ 2 + Im Z ^ 2) * sin theta = Im Z).
Proof. exact components_ok. Qed.
Print Assumptions C85_components.
Example C85_components_ex : 0 < mu0 env3 /\ 0 < freq env3.
Proof. split; cbn; lra. Qed.

(** The apparent conductivity is omega mu_0 times the sum of the squared magnetic amplitudes over that of the electric ones. *)
Theorem C85_conductivity : forall E F, e_dim E = D3 -> exists s, eval E RApp F = Ok (RealData s) /\ forall i, (i < nD E)%nat -> regular E RApp F i ->
  let tot := fun l : list cx => fold_right (fun z a => (sqrt (Re z * Re z + Im z * Im z)) ^ 2 + a) 0 l in
  nth i s 0 * tot [seen (getP E GEx false) (e0 F) i; seen (getP E GEy false) (e0 F) i; seen (getP E GEx false) (e1 F) i; seen (getP E GEy false) (e1 F) i]
  = 2 * PI * freq E * mu0 E *
    tot (map (fun P => seen P (h0 F) i) [getP E GFx true; getP E GFy true; getP E GFz true] ++ map (fun P => seen P (h1 F) i) [getP E GFx true; getP E GFy true; getP E GFz true]).
Proof. exact conductivity_ok. Qed.
Print Assumptions C85_conductivity.
Example C85_conductivity_ex : e_dim env3 = D3 /\ regular env3 RApp F3 0.
Proof. exact (conj eq_refl (ex_regular RApp 0 ltac:(auto))). Qed.

(** Off-diagonal impedances on a 2D mesh: Z h = e, each at its own locations. *)
Theorem C85_impedance_2d : forall E o1 o2 F, e_dim E = D2 -> o1 <> o2 -> exists z, eval E (RImp o1 o2 CComplex) F = Ok (CplxData z) /\
  forall i, (i < nD E)%nat ->
    let e := seen (getP E (match o1 with AX => GEx | AY => GCC end) false) (e0 F) i in
    let h := seen (getP E (match o1 with AX => GCC | AY => GEx end) true) (h0 F) i in
    h <> x0 -> nth i z x0 *x h = e.
Proof. exact low_impedance. Qed.
Print Assumptions C85_impedance_2d.
Example C85_impedance_2d_ex : e_dim env2 = D2 /\ AX <> AY /\ seen (getP env2 GCC true) (h0 F2) 0 <> x0.
Proof. split; [reflexivity|]. split; [discriminate|]. intros Q. apply (f_equal fst) in Q. cbn in Q. lra. Qed.

(** On a 1D mesh: Z h = e if the orientation is that of the fields, and - e otherwise. *)
Theorem C85_impedance_1d : forall E o1 o2 F, e_dim E = D1 -> o1 <> o2 -> exists z, eval E (RImp o1 o2 CComplex) F = Ok (CplxData z) /\
  forall i, (i < nD E)%nat ->
    let e := seen (getP E G1e false) (e0 F) i in let h := seen (getP E G1h false) (h0 F) i in
    h <> x0 -> nth i z x0 *x h = if Bool.eqb (match o1 with AX => true | AY => false end) (dir_xy E) then e else xopp e.
Proof. exact low_1d. Qed.
Print Assumptions C85_impedance_1d.
Example C85_impedance_1d_ex : e_dim env1 = D1 /\ seen (getP env1 G1h false) (h0 F1d) 0 <> x0.
Proof. split; [reflexivity|]. intros Q. apply (f_equal fst) in Q. cbn in Q. lra. Qed.

(** On a 1D mesh the magnetic field is not taken at the locations given for it. *)
Theorem C85_remote_1d_refuted : exists E F z, e_dim E = D1 /\ sized E F /\ (0 < nD E)%nat /\ dir_xy E = true /\ eval E (RImp AX AY CComplex) F = Ok (CplxData z) /\
  seen (getP E G1h true) (h0 F) 0 <> x0 /\ seen (getP E G1h false) (h0 F) 0 <> x0 /\
  nth 0 z x0 *x seen (getP E G1h true) (h0 F) 0 <> seen (getP E G1e false) (e0 F) 0.
Proof. exact remote_refuted. Qed.
Print Assumptions C85_remote_1d_refuted.

(** On a 2D mesh every tipper is T hx = hz, whatever its orientation. *)
Theorem C85_tipper_2d : forall E o1 o2 F, e_dim E = D2 -> exists z, eval E (RTip o1 o2 TComplex) F = Ok (CplxData z) /\
  forall i, (i < nD E)%nat -> let hz := seen (getP E GEy false) (h0 F) i in let hx := seen (getP E GEx true) (h0 F) i in
    hx <> x0 -> nth i z x0 *x hx = hz.
Proof. exact low_tipper. Qed.
Print Assumptions C85_tipper_2d.
Example C85_tipper_2d_ex : e_dim env2 = D2 /\ seen (getP env2 GEx true) (h0 F2) 0 <> x0.
Proof. split; [reflexivity|]. intros Q. apply (f_equal fst) in Q. cbn in Q. lra. Qed.

(** Admittances on a 2D mesh: Y e = h. *)
Theorem C85_admittance_2d : forall E o1 o2 F, e_dim E = D2 -> (o1 = BX /\ o2 = AY \/ o1 = BY /\ o2 = AX) -> exists z, eval E (RAdm o1 o2 TComplex) F = Ok (CplxData z) /\
  forall i, (i < nD E)%nat ->
    let e := seen (getP E (match o1 with BY => GEx | _ => GCC end) false) (e0 F) i in
    let h := seen (getP E (match o1 with BY => GCC | _ => GEx end) true) (h0 F) i in
    e <> x0 -> nth i z x0 *x e = h.
Proof. exact low_admittance. Qed.
Print Assumptions C85_admittance_2d.
Example C85_admittance_2d_ex : e_dim env2 = D2 /\ seen (getP env2 GEx false) (e0 F2) 0 <> x0.
Proof. split; [reflexivity|]. intros Q. apply (f_equal fst) in Q. cbn in Q. lra. Qed.

(** The derivative of the data along any curve of fields, for every receiver and every real component, is the
    derivative (the phase away from its cut). *)
Theorem C85_derivative : forall E (F : R -> flds) t dF, moves E F t dF -> forall r d,
  fits E r -> degenerate E r = false -> (forall i, (i < nD E)%nat -> smooth_at E r (F t) i) -> evalDeriv E r (F t) dF = Ok d ->
  exists v : R -> vec, (forall s, eval E r (F s) = Ok (RealData (v s))) /\ vderiv (nD E) v t d.
Proof. exact deriv_ok. Qed.
Print Assumptions C85_derivative.
Example C85_derivative_ex : moves env3 Fline 0 dF3 /\ fits env3 (RTip BZ AY TImag) /\ regular env3 (RTip BZ AY TImag) F3 1 /\
  exists d, evalDeriv env3 (RTip BZ AY TImag) (Fline 0) dF3 = Ok d.
Proof. exact (conj ex_moves (conj (ex_fits _) (conj (ex_regular _ 1 ltac:(auto)) (ex_intro _ _ eq_refl)))). Qed.

(** The adjoint: for every receiver with a derivative, v . (derivative of the data) is the pairing of the adjoint fields
    with the change of the fields. *)
Theorem C85_adjoint : forall E F dF, sized E dF -> forall r v d, length v = nD E ->
  fits E r -> degenerate E r = false -> (forall i, (i < nD E)%nat -> regular E r F i) -> evalDeriv E r F dF = Ok d ->
  exists G, evalDerivT E r F v = Ok G /\ sized E G /\ dot v d = pairing G dF.
Proof. exact adjoint_ok. Qed.
Print Assumptions C85_adjoint.
Example C85_adjoint_ex : sized env3 dF3 /\ fits env3 RApp /\ regular env3 RApp F3 0 /\ exists d, evalDeriv env3 RApp F3 dF3 = Ok d.
Proof. exact (conj (proj2 ex_sized) (conj (ex_fits _) (conj (ex_regular _ 0 ltac:(auto)) (ex_intro _ _ eq_refl)))). Qed.

(** The derivative of a diagonal impedance on a 2D mesh does not have one entry for each datum, and the adjoint cannot be used. *)
Theorem C85_diagonal_refuted : exists E r F dF d, fits E r /\ sized E F /\ sized E dF /\ (exists c, r = RImp AX AX c) /\
  evalDeriv E r F dF = Ok d /\ length d <> nD E /\ forall v, evalDerivT E r F v = Err ValueError.
Proof. exact diagonal_refuted. Qed.
Print Assumptions C85_diagonal_refuted.

