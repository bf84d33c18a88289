(** Natural source receivers: simpeg/electromagnetics/natural_source/receivers.py.
    The fields of a source are two columns (one for each polarisation) of electric and of magnetic
    values on the mesh; a receiver projects them onto its two sets of locations and forms a transfer
    function.  Complex numbers are exact pairs of reals.  Derivatives are taken with respect to the
    e and h fields themselves: the chain through [f._eDeriv] and [f._hDeriv] is that of C66. *)
From Coq Require Import Reals.
From Verif Require Import Py Vec Joint Cplx Mt1d Cx.
Local Open Scope R_scope.

(** ** Orientations, components, environments *)
Inductive ax := AX | AY.
Inductive ax3 := BX | BY | BZ.
Definition ax_eqb (a b : ax) : bool := match a, b with AX, AX | AY, AY => true | _, _ => false end.
(** 203-207 component of an impedance; 655-682 and 945-972 accept the first two and the last only. *)
Inductive comp := CReal | CImag | CRho | CPhi | CComplex.
Inductive tcomp := TReal | TImag | TComplex.
Definition ofT (c : tcomp) : comp := match c with TReal => CReal | TImag => CImag | TComplex => CComplex end.
Inductive rx :=
| RImp (o1 o2 : ax) (c : comp)
| RTip (o1 : ax3) (o2 : ax) (c : tcomp)
| RAdm (o1 : ax3) (o2 : ax) (c : tcomp)
| RApp.
(** The grids of the projections, and the grids on which a 1D fields object keeps e and h (317-321). *)
Inductive grid := GEx | GEy | GFx | GFy | GFz | GCC | G1e | G1h.
Inductive dim := D1 | D2 | D3.
(** What [eval] reads besides the fields: the dimension of the mesh, the number of data, the numbers
    of electric and of magnetic values, [getP(mesh, grid, location_id)] (81-131; [false] is location
    id 0), the frequency of the source, mu_0 and, for 1D fields, [field_directions == "xy"]. *)
Record env := mkEnv { e_dim : dim; nD : nat; ne : nat; nh : nat; getP : grid -> bool -> mat; freq : R; mu0 : R; dir_xy : bool }.
Definition face (o : ax3) : grid := match o with BX => GFx | BY => GFy | BZ => GFz end.
Record flds := mkF { e0 : cvec; e1 : cvec; h0 : cvec; h1 : cvec }.

(** ** One location *)
(** The two polarisations of a projected field at one location. *)
Definition pol := (cx * cx)%type.
Definition popp (a : pol) : pol := (xopp (fst a), xopp (snd a)).
Definition padd (a b : pol) : pol := (fst a +x fst b, snd a +x snd b).
Definition psub (a b : pol) : pol := (fst a -x fst b, snd a -x snd b).
Definition pmul (a : pol) (w : cx) : pol := (fst a *x w, snd a *x w).
(** a[:, 0] * b[:, 1] - a[:, 1] * b[:, 0] *)
Definition cross (a b : pol) : cx := fst a *x snd b -x snd a *x fst b.
(** a[:, 0] * db[:, 1] + da[:, 0] * b[:, 1] - a[:, 1] * db[:, 0] - da[:, 1] * b[:, 0] *)
Definition dcross (a b da db : pol) : cx :=
  fst a *x snd db +x fst da *x snd b -x snd a *x fst db -x snd da *x fst b.
(** (bot * dtop - top * dbot) / (bot * bot) *)
Definition dratio (top bot dtop dbot : cx) : cx := (bot *x dtop -x top *x dbot) /x (bot *x bot).

(** 309-315, 361-364 *)
Definition imp_h (b : ax) (hx hy : pol) : pol := match b with AX => hy | AY => popp hx end.
(** 317-318, 339 *)
Definition imp3 (b : ax) (e hx hy : pol) : cx := cross e (imp_h b hx hy) /x cross hx hy.
(** 440-462 *)
Definition imp3_deriv (b : ax) (e hx hy de dhx dhy : pol) : cx :=
  dratio (cross e (imp_h b hx hy)) (cross hx hy) (dcross e (imp_h b hx hy) de (imp_h b dhx dhy)) (dcross hx hy dhx dhy).
(** 404-418: (ge_v, ghx_v, ghy_v) *)
Definition imp3_adj (b : ax) (e hx hy : pol) (w : cx) : pol * pol * pol :=
  let h := imp_h b hx hy in
  let bot := cross hx hy in
  let imp := cross e h /x bot in
  let gtop := w /x bot in
  let gbot := xopp imp *x w /x bot in
  let ghx := pmul (snd hy, xopp (fst hy)) gbot in
  let ghy := pmul (xopp (snd hx), fst hx) gbot in
  let ge := pmul (snd h, xopp (fst h)) gtop in
  let gh := pmul (xopp (snd e), fst e) gtop in
  match b with AX => (ge, ghx, padd ghy gh) | AY => (ge, psub ghx gh, ghy) end.

(** 727-730, 761-764 *)
Definition tip_h (b : ax) (hx hy : pol) : pol := match b with AX => popp hy | AY => hx end.
(** 732-735 *)
Definition tip3 (b : ax) (ho hx hy : pol) : cx := cross (tip_h b hx hy) ho /x cross hx hy.
(** 819-840 *)
Definition tip3_deriv (b : ax) (ho hx hy dho dhx dhy : pol) : cx :=
  dratio (cross (tip_h b hx hy) ho) (cross hx hy) (dcross (tip_h b hx hy) ho (tip_h b dhx dhy) dho) (dcross hx hy dhx dhy).
(** 783-795: (gho_v, ghx_v, ghy_v) *)
Definition tip3_adj (b : ax) (ho hx hy : pol) (w : cx) : pol * pol * pol :=
  let h := tip_h b hx hy in
  let bot := cross hx hy in
  let tip := cross h ho /x bot in
  let gtop := w /x bot in
  let gbot := xopp tip *x w /x bot in
  let ghx := pmul (snd hy, xopp (fst hy)) gbot in
  let ghy := pmul (xopp (snd hx), fst hx) gbot in
  let gho := pmul (xopp (snd h), fst h) gtop in
  let gh := pmul (snd ho, xopp (fst ho)) gtop in
  match b with AX => (gho, ghx, psub ghy gh) | AY => (gho, padd ghx gh, ghy) end.

(** 1001-1008 *)
Definition adm3 (b : ax) (h ex ey : pol) : cx :=
  (match b with
   | AX => fst h *x snd ey -x snd h *x snd ex
   | AY => xopp (fst h) *x fst ey +x snd h *x fst ex
   end) /x cross ex ey.
(** 1044-1049: p_ind and fact *)
Definition p_ind (b : ax) (a : pol) : cx := match b with AX => snd a | AY => fst a end.
Definition fact (b : ax) : cx := match b with AX => x1 | AY => xopp x1 end.
(** 1051 *)
Definition adm_top (b : ax) (h ex ey : pol) : cx := fact b *x (fst h *x p_ind b ey -x snd h *x p_ind b ex).
(** 1093-1113 *)
Definition adm3_deriv (b : ax) (h ex ey dh dex dey : pol) : cx :=
  dratio (adm_top b h ex ey) (cross ex ey)
    (fact b *x (fst h *x p_ind b dey +x fst dh *x p_ind b ey -x snd h *x p_ind b dex -x snd dh *x p_ind b ex))
    (dcross ex ey dex dey).
(** 1060-1078: (h_v, ex_v, ey_v) *)
Definition p_add (b : ax) (a : pol) (z : cx) : pol := match b with AX => (fst a, snd a +x z) | AY => (fst a +x z, snd a) end.
Definition adm3_adj (b : ax) (h ex ey : pol) (w : cx) : pol * pol * pol :=
  let bot := cross ex ey in
  let adm := adm_top b h ex ey /x bot in
  let a := fact b *x w /x bot in
  let bv := xopp adm *x w /x bot in
  let exv := pmul (snd ey, xopp (fst ey)) bv in
  let eyv := pmul (xopp (snd ex), fst ex) bv in
  (pmul (p_ind b ey, xopp (p_ind b ex)) a, p_add b exv (xopp (snd h *x a)), p_add b eyv (fst h *x a)).

(** One polarisation, 1D and 2D: top / bot, (dtop - z dbot) / bot and v / bot, - z v / bot
    (332-339, 470, 404-406; 712-715, 815, 778-779; 991-1008, 1086-1091, 1061-1062). *)
Definition ratio (top bot : cx) : cx := top /x bot.
Definition ratio_deriv (top bot dtop dbot : cx) : cx := (dtop -x (top /x bot) *x dbot) /x bot.
Definition ratio_adj (top bot w : cx) : cx * cx := (w /x bot, xopp (top /x bot) *x w /x bot).

(** np.sum(np.abs(a) ** 2, axis=-1): the square of the absolute value. *)
Definition pabs2 (a : pol) : R := sqrt (nrm2 (fst a)) ^ 2 + sqrt (nrm2 (snd a)) ^ 2.
Definition cconj (z : cx) : cx := (Re z, - Im z).
Definition preal (a da : pol) : R := Re (cconj (fst a) *x fst da) + Re (cconj (snd a) *x snd da).
(** 1196-1199 *)
Definition app_top (hx hy hz : pol) : R := pabs2 hx + pabs2 hy + pabs2 hz.
Definition app_bot (ex ey : pol) : R := pabs2 ex + pabs2 ey.
Definition app (w : R) (ex ey hx hy hz : pol) : R := w * app_top hx hy hz / app_bot ex ey.
(** 1262-1273 *)
Definition app_deriv (w : R) (ex ey hx hy hz dex dey dhx dhy dhz : pol) : R :=
  let dtop := 2 * (preal hx dhx + preal hy dhy + preal hz dhz) in
  let dbot := 2 * (preal ex dex + preal ey dey) in
  let top := app_top hx hy hz in
  let bot := app_bot ex ey in
  w * (bot * dtop - top * dbot) / (bot * bot).
(** 1231-1233: the weights a_v and b_v *)
Definition app_adj (w : R) (ex ey hx hy hz : pol) (v : R) : R * R :=
  let top := app_top hx hy hz in
  let bot := app_bot ex ey in
  (w * v / bot, - w * top * v / bot ^ 2).

(** ** Components *)
(** 13-14 *)
Definition alpha (E : env) : R := 1 / (2 * PI * mu0 E * freq E).
(** 505-513 for the components which are real *)
Definition comp_eval (al : R) (c : comp) (Z : cx) : R :=
  match c with
  | CReal => Re Z
  | CImag => Im Z
  | CRho => al * (Re Z ^ 2 + Im Z ^ 2)
  | CPhi => 180 / PI * arctan2 (Im Z) (Re Z)
  | CComplex => 0
  end.
(** 472-485 *)
Definition comp_deriv (al : R) (c : comp) (Z dZ : cx) : R :=
  match c with
  | CReal => Re dZ
  | CImag => Im dZ
  | CRho => 2 * al * (Re Z * Re dZ + Im Z * Im dZ)
  | CPhi =>
    let amp2 := Im Z ^ 2 + Re Z ^ 2 in
    180 / PI * (- Im Z / amp2 * Re dZ + Re Z / amp2 * Im dZ)
  | CComplex => 0
  end.
(** 392-402, 855-857, 1056-1058: the weight of v *)
Definition comp_adj (al : R) (c : comp) (Z : cx) (v : R) : cx :=
  match c with
  | CReal => xr v
  | CImag => xopp xi *x xr v
  | CRho => let w := xscale (2 * al) Z *x xr v in (Re w, - Im w)
  | CPhi =>
    let w := xdivr (xscale (180 / PI) Z) (Re Z ^ 2 + Im Z ^ 2) *x xr v in
    (- Im w, - Re w)
  | CComplex => x0
  end.

(** ** Receivers *)
(** Entry i of a projected field, and a field of adjoint values collected over the locations. *)
Definition at_ (z : cvec) (i : nat) : cx := (nth i (fst z) 0, nth i (snd z) 0).
Definition collect (n : nat) (g : nat -> cx) : cvec := (map (fun i => Re (g i)) (seq 0 n), map (fun i => Im (g i)) (seq 0 n)).
Definition pj (P : mat) (z : cvec) : cvec := cmap (mv P) z.
Definition pjT (n : nat) (P : mat) (z : cvec) : cvec := cmap (mtv n P) z.
Definition at2 (P : mat) (a b : cvec) (i : nat) : pol := (at_ (pj P a) i, at_ (pj P b) i).
Definition Eat (P : mat) (F : flds) : nat -> pol := at2 P (e0 F) (e1 F).
Definition Hat (P : mat) (F : flds) : nat -> pol := at2 P (h0 F) (h1 F).

Inductive data := RealData (d : vec) | CplxData (d : list cx).
Definition tabulate (E : env) (c : comp) (Z : nat -> cx) : data :=
  match c with
  | CComplex => CplxData (map Z (seq 0 (nD E)))
  | _ => RealData (map (fun i => comp_eval (alpha E) c (Z i)) (seq 0 (nD E)))
  end.

(** 304-307, 350-355: the electric projection of a 3D impedance *)
Definition imp_e (E : env) (o1 : ax) : mat := match o1 with AX => getP E GEx false | AY => getP E GEy false end.
(** 319-331, 369-381: the projections of e and of h, and the sign of h, in 1D and 2D (xy and yx). *)
Definition imp_low (E : env) (o1 : ax) : mat * mat * bool :=
  match e_dim E, o1 with
  | D1, _ => (getP E G1e false, getP E G1h false, negb (Bool.eqb (ax_eqb o1 AX) (dir_xy E)))
  | _, AX => (getP E GEx false, getP E GCC true, false)
  | _, AY => (getP E GCC false, getP E GEx true, false)
  end.
Definition sgn (s : bool) (z : cx) : cx := if s then xopp z else z.
Definition is3 (E : env) : bool := match e_dim E with D3 => true | _ => false end.
(** 299-339 _eval_impedance *)
Definition eval_imp (E : env) (o1 o2 : ax) (F : flds) (i : nat) : cx :=
  if is3 E then imp3 o2 (Eat (imp_e E o1) F i) (Hat (getP E GFx true) F i) (Hat (getP E GFy true) F i)
  else if ax_eqb o1 o2 then x0
  else let '(PE, PH, s) := imp_low E o1 in
       ratio (at_ (pj PE (e0 F)) i) (sgn s (at_ (pj PH (h0 F)) i)).
(** 702-735 _eval_tipper; a 1D mesh goes the way of 3D and has no faces: not modelled further. *)
Definition eval_tip (E : env) (o1 : ax3) (o2 : ax) (F : flds) (i : nat) : cx :=
  match e_dim E with
  | D2 => ratio (at_ (pj (getP E GEy false) (h0 F)) i) (at_ (pj (getP E GEx true) (h0 F)) i)
  | _ => tip3 o2 (Hat (getP E (face o1) false) F i) (Hat (getP E GFx true) F i) (Hat (getP E GFy true) F i)
  end.
(** 983-992: (PE, PH) in 2D; other orientations leave PE and PH unbound. *)
Definition adm_low (E : env) (o1 : ax3) (o2 : ax) : result (mat * mat) :=
  match o1, o2 with
  | BY, AX => Ok (getP E GEx false, getP E GCC true)
  | BX, AY => Ok (getP E GCC false, getP E GEx true)
  | _, _ => Err GenericException
  end.
(** 974-1008 _eval_admittance *)
Definition eval_adm (E : env) (o1 : ax3) (o2 : ax) (F : flds) : result (nat -> cx) :=
  match e_dim E with
  | D1 => Err NotImplementedError
  | D2 => do PP <- adm_low E o1 o2;
          Ok (fun i => ratio (at_ (pj (snd PP) (h0 F)) i) (at_ (pj (fst PP) (e0 F)) i))
  | D3 => Ok (fun i => adm3 o2 (Hat (getP E (face o1) true) F i) (Eat (getP E GEx false) F i) (Eat (getP E GEy false) F i))
  end.
Definition app_w (E : env) : R := 2 * PI * freq E * mu0 E.
(** 1181-1199 _eval_apparent_conductivity *)
Definition eval_app (E : env) (F : flds) : result (nat -> R) :=
  match e_dim E with
  | D3 => Ok (fun i => app (app_w E) (Eat (getP E GEx false) F i) (Eat (getP E GEy false) F i)
                     (Hat (getP E GFx true) F i) (Hat (getP E GFy true) F i) (Hat (getP E GFz true) F i))
  | _ => Err NotImplementedError
  end.
(** 488-513, 842-847, 1117-1122, 1275-1292 eval *)
Definition eval (E : env) (r : rx) (F : flds) : result data :=
  match r with
  | RImp o1 o2 c => Ok (tabulate E c (eval_imp E o1 o2 F))
  | RTip o1 o2 c => Ok (tabulate E (ofT c) (eval_tip E o1 o2 F))
  | RAdm o1 o2 c => do Z <- eval_adm E o1 o2 F; Ok (tabulate E (ofT c) Z)
  | RApp => do a <- eval_app E F; Ok (RealData (map a (seq 0 (nD E))))
  end.

(** ** Derivatives *)
(** 341-390, 440-470 *)
Definition deriv_imp (E : env) (o1 o2 : ax) (F dF : flds) (i : nat) : cx :=
  if is3 E then
    let Pe := imp_e E o1 in
    imp3_deriv o2 (Eat Pe F i) (Hat (getP E GFx true) F i) (Hat (getP E GFy true) F i)
      (Eat Pe dF i) (Hat (getP E GFx true) dF i) (Hat (getP E GFy true) dF i)
  else let '(PE, PH, s) := imp_low E o1 in
       ratio_deriv (at_ (pj PE (e0 F)) i) (sgn s (at_ (pj PH (h0 F)) i))
         (at_ (pj PE (e0 dF)) i) (sgn s (at_ (pj PH (h0 dF)) i)).
(** 807-840 *)
Definition deriv_tip (E : env) (o1 : ax3) (o2 : ax) (F dF : flds) (i : nat) : cx :=
  match e_dim E with
  | D2 => let Phz := getP E GEy false in let Phx := getP E GEx true in
          ratio_deriv (at_ (pj Phz (h0 F)) i) (at_ (pj Phx (h0 F)) i) (at_ (pj Phz (h0 dF)) i) (at_ (pj Phx (h0 dF)) i)
  | _ => let Pho := getP E (face o1) false in
         tip3_deriv o2 (Hat Pho F i) (Hat (getP E GFx true) F i) (Hat (getP E GFy true) F i)
           (Hat Pho dF i) (Hat (getP E GFx true) dF i) (Hat (getP E GFy true) dF i)
  end.
(** 1085-1115 *)
Definition deriv_adm (E : env) (o1 : ax3) (o2 : ax) (F dF : flds) : result (nat -> cx) :=
  match e_dim E with
  | D1 => Err NotImplementedError
  | D2 => do PP <- adm_low E o1 o2;
          Ok (fun i => ratio_deriv (at_ (pj (snd PP) (h0 F)) i) (at_ (pj (fst PP) (e0 F)) i)
                         (at_ (pj (snd PP) (h0 dF)) i) (at_ (pj (fst PP) (e0 dF)) i))
  | D3 => let Ph := getP E (face o1) true in
          Ok (fun i => adm3_deriv o2 (Hat Ph F i) (Eat (getP E GEx false) F i) (Eat (getP E GEy false) F i)
                         (Hat Ph dF i) (Eat (getP E GEx false) dF i) (Eat (getP E GEy false) dF i))
  end.
(** 1252-1273 *)
Definition deriv_app (E : env) (F dF : flds) : result (nat -> R) :=
  match e_dim E with
  | D3 => Ok (fun i => app_deriv (app_w E) (Eat (getP E GEx false) F i) (Eat (getP E GEy false) F i)
                     (Hat (getP E GFx true) F i) (Hat (getP E GFy true) F i) (Hat (getP E GFz true) F i)
                     (Eat (getP E GEx false) dF i) (Eat (getP E GEy false) dF i)
                     (Hat (getP E GFx true) dF i) (Hat (getP E GFy true) dF i) (Hat (getP E GFz true) dF i))
  | _ => Err NotImplementedError
  end.
Definition is_complex (c : comp) : bool := match c with CComplex => true | _ => false end.
Definition tabulate_deriv (E : env) (c : comp) (Z dZ : nat -> cx) : vec :=
  map (fun i => comp_deriv (alpha E) c (Z i) (dZ i)) (seq 0 (nD E)).
(** 515-559, 849-863, 1124-1132, 1294-1334 evalDeriv, not adjoint.  For an xx or yy impedance in
    1D or 2D the result is [0 * du_dm_v] (342-346), as long as the solution, taken here to be e. *)
Definition evalDeriv (E : env) (r : rx) (F dF : flds) : result vec :=
  match r with
  | RImp o1 o2 c =>
    if is_complex c then Err NotImplementedError
    else if negb (is3 E) && ax_eqb o1 o2 then Ok (vzero (ne E))
    else Ok (tabulate_deriv E c (eval_imp E o1 o2 F) (deriv_imp E o1 o2 F dF))
  | RTip o1 o2 c =>
    if is_complex (ofT c) then Err NotImplementedError
    else Ok (tabulate_deriv E (ofT c) (eval_tip E o1 o2 F) (deriv_tip E o1 o2 F dF))
  | RAdm o1 o2 c =>
    if is_complex (ofT c) then Err NotImplementedError
    else do Z <- eval_adm E o1 o2 F; do dZ <- deriv_adm E o1 o2 F dF; Ok (tabulate_deriv E (ofT c) Z dZ)
  | RApp => do a <- deriv_app E F dF; Ok (map a (seq 0 (nD E)))
  end.

(** ** Adjoints *)
Definition g1 (a : pol * pol * pol) : pol := fst (fst a).
Definition g2 (a : pol * pol * pol) : pol := snd (fst a).
Definition g3 (a : pol * pol * pol) : pol := snd a.
(** P.T @ g for both polarisations *)
Definition backT (k n : nat) (P : mat) (g : nat -> pol) : cvec * cvec :=
  (pjT n P (collect k (fun i => fst (g i))), pjT n P (collect k (fun i => snd (g i)))).
Definition add2 (a b : cvec * cvec) : cvec * cvec := (cadd (fst a) (fst b), cadd (snd a) (snd b)).
Definition conj2 (a : cvec * cvec) : cvec * cvec :=
  let f := fun z : cvec => (vscale 2 (fst z), vscale (-2) (snd z)) in (f (fst a), f (snd a)).
Definition zero2 (n : nat) : cvec * cvec := (czero n, czero n).
Definition mkG (e h : cvec * cvec) : flds := mkF (fst e) (snd e) (fst h) (snd h).
(** 391-433 *)
Definition adj_imp (E : env) (o1 o2 : ax) (F : flds) (w : nat -> cx) : flds :=
  if is3 E then
    let Pe := imp_e E o1 in
    let g := fun i => imp3_adj o2 (Eat Pe F i) (Hat (getP E GFx true) F i) (Hat (getP E GFy true) F i) (w i) in
    mkG (backT (nD E) (ne E) Pe (fun i => g1 (g i)))
        (add2 (backT (nD E) (nh E) (getP E GFx true) (fun i => g2 (g i))) (backT (nD E) (nh E) (getP E GFy true) (fun i => g3 (g i))))
  else let '(PE, PH, s) := imp_low E o1 in
       let g := fun i => ratio_adj (at_ (pj PE (e0 F)) i) (sgn s (at_ (pj PH (h0 F)) i)) (w i) in
       mkF (pjT (ne E) PE (collect (nD E) (fun i => fst (g i)))) (czero (ne E))
           (pjT (nh E) PH (collect (nD E) (fun i => sgn s (snd (g i))))) (czero (nh E)).
(** 772-803 *)
Definition adj_tip (E : env) (o1 : ax3) (o2 : ax) (F : flds) (w : nat -> cx) : flds :=
  match e_dim E with
  | D2 => let Phz := getP E GEy false in let Phx := getP E GEx true in
          let g := fun i => ratio_adj (at_ (pj Phz (h0 F)) i) (at_ (pj Phx (h0 F)) i) (w i) in
          mkF (czero (ne E)) (czero (ne E))
              (cadd (pjT (nh E) Phx (collect (nD E) (fun i => snd (g i)))) (pjT (nh E) Phz (collect (nD E) (fun i => fst (g i)))))
              (czero (nh E))
  | _ => let Pho := getP E (face o1) false in
         let g := fun i => tip3_adj o2 (Hat Pho F i) (Hat (getP E GFx true) F i) (Hat (getP E GFy true) F i) (w i) in
         mkG (zero2 (ne E))
             (add2 (add2 (backT (nD E) (nh E) (getP E GFx true) (fun i => g2 (g i))) (backT (nD E) (nh E) (getP E GFy true) (fun i => g3 (g i))))
                   (backT (nD E) (nh E) Pho (fun i => g1 (g i))))
  end.
(** 1055-1083; the adjoint field derivatives of 1080-1081 are dropped *)
Definition adj_adm (E : env) (o1 : ax3) (o2 : ax) (F : flds) (w : nat -> cx) : result flds :=
  match e_dim E with
  | D1 => Err NotImplementedError
  | D2 => do PP <- adm_low E o1 o2;
          let g := fun i => ratio_adj (at_ (pj (snd PP) (h0 F)) i) (at_ (pj (fst PP) (e0 F)) i) (w i) in
          Ok (mkF (pjT (ne E) (fst PP) (collect (nD E) (fun i => snd (g i)))) (czero (ne E))
                  (pjT (nh E) (snd PP) (collect (nD E) (fun i => fst (g i)))) (czero (nh E)))
  | D3 => let Ph := getP E (face o1) true in
          let g := fun i => adm3_adj o2 (Hat Ph F i) (Eat (getP E GEx false) F i) (Eat (getP E GEy false) F i) (w i) in
          Ok (mkG (add2 (backT (nD E) (ne E) (getP E GEx false) (fun i => g2 (g i))) (backT (nD E) (ne E) (getP E GEy false) (fun i => g3 (g i))))
                  (backT (nD E) (nh E) Ph (fun i => g1 (g i))))
  end.
(** 1229-1250 *)
Definition adj_app (E : env) (F : flds) (v : vec) : result flds :=
  match e_dim E with
  | D3 =>
    let ex := Eat (getP E GEx false) F in let ey := Eat (getP E GEy false) F in
    let hx := Hat (getP E GFx true) F in let hy := Hat (getP E GFy true) F in let hz := Hat (getP E GFz true) F in
    let g := fun i => app_adj (app_w E) (ex i) (ey i) (hx i) (hy i) (hz i) (nth i v 0) in
    let a := fun (u : nat -> pol) i => pmul (u i) (xr (fst (g i))) in
    let b := fun (u : nat -> pol) i => pmul (u i) (xr (snd (g i))) in
    Ok (mkG (conj2 (add2 (backT (nD E) (ne E) (getP E GEx false) (b ex)) (backT (nD E) (ne E) (getP E GEy false) (b ey))))
            (conj2 (add2 (add2 (backT (nD E) (nh E) (getP E GFx true) (a hx)) (backT (nD E) (nh E) (getP E GFy true) (a hy)))
                                (backT (nD E) (nh E) (getP E GFz true) (a hz)))))
  | _ => Err NotImplementedError
  end.
Definition weights (E : env) (c : comp) (Z : nat -> cx) (v : vec) (i : nat) : cx := comp_adj (alpha E) c (Z i) (nth i v 0).
(** evalDeriv with adjoint=True, for one vector v: the adjoint fields, or for an xx or yy impedance
    in 1D and 2D the single array [0 * v] (343-344), which the simulation cannot unpack into the pair
    it expects (frequency_domain/simulation.py 308-310) unless it has two entries. *)
Definition evalDerivT (E : env) (r : rx) (F : flds) (v : vec) : result flds :=
  match r with
  | RImp o1 o2 c =>
    if is_complex c then Err NotImplementedError
    else if negb (is3 E) && ax_eqb o1 o2 then Err ValueError
    else Ok (adj_imp E o1 o2 F (weights E c (eval_imp E o1 o2 F) v))
  | RTip o1 o2 c =>
    if is_complex (ofT c) then Err NotImplementedError
    else Ok (adj_tip E o1 o2 F (weights E (ofT c) (eval_tip E o1 o2 F) v))
  | RAdm o1 o2 c =>
    if is_complex (ofT c) then Err NotImplementedError
    else do Z <- eval_adm E o1 o2 F; adj_adm E o1 o2 F (weights E (ofT c) Z v)
  | RApp => adj_app E F v
  end.
