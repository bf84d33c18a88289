(** Model of electromagnetics/natural_source/simulation_1d.py (Simulation1DRecursive,
    11-360): impedances of a layered earth, their derivatives, the data and the
    sensitivities.  Of the receivers (receivers.py 157-276) only the component and the
    number of locations matter; survey frequencies as in frequency_domain/survey.py 15-53. *)
From Verif Require Import Py Vec PropsM Cx.
Local Open Scope R_scope.

(** ** Impedances *)
(** 134-136: the quantities of one layer ([w] = 2 pi f, [mu] = mu_0). *)
Definition alpha (w mu sigma : R) : cx := csqrtI (w * mu * sigma).
Definition ratio (w mu sigma : R) : cx := xdivr (alpha w mu sigma) sigma.
Definition tnh (w mu sigma t : R) : cx := ctanh (xscale t (alpha w mu sigma)).

(** 138-144 and 183-188: the array Zs, top layer first; [ls] are the layers above the
    bottom one (conductivity and thickness), [sb] the bottom conductivity. *)
Definition top_ (w mu : R) (l : R * R) (Zn : cx) : cx :=
  Zn /x ratio w mu (fst l) -x tnh w mu (fst l) (snd l).
Definition bot_ (w mu : R) (l : R * R) (Zn : cx) : cx :=
  x1 -x Zn /x ratio w mu (fst l) *x tnh w mu (fst l) (snd l).
Fixpoint Zs (w mu : R) (ls : list (R * R)) (sb : R) : list cx :=
  match ls with
  | [] => [xopp (ratio w mu sb)]
  | l :: ls' => let zs := Zs w mu ls' sb in
                let Zn := hd x0 zs in
                ratio w mu (fst l) *x (top_ w mu l Zn /x bot_ w mu l Zn) :: zs
  end.
(** 108-144 once the arrays are reversed. *)
Definition Ztop (w mu : R) (ls : list (R * R)) (sb : R) : cx := hd x0 (Zs w mu ls sb).

(** 190-205: the reverse sweep; the pairs are gratios and gtanhs of the layers above the
    bottom, the last component is gratios[-1]. *)
Fixpoint sweep (w mu : R) (gZ : cx) (ls : list (R * R)) (zs : list cx) : list (cx * cx) * cx :=
  match ls with
  | [] => ([], xopp gZ)
  | l :: ls' =>
      let r := ratio w mu (fst l) in
      let T := tnh w mu (fst l) (snd l) in
      let Zi := hd x0 zs in
      let Zn := hd x0 (tl zs) in
      let top := top_ w mu l Zn in
      let bot := bot_ w mu l Zn in
      let gratio := top /x bot *x gZ in
      let gtop := r /x bot *x gZ in
      let gbot := xopp Zi /x bot *x gZ in
      let gZ' := xopp T /x r *x gbot in
      let gratio := gratio +x Zn *x T /x (r *x r) *x gbot in
      let gtanh := xopp Zn /x r *x gbot in
      let gZ' := gZ' +x gtop /x r in
      let gratio := gratio -x Zn /x (r *x r) *x gtop in
      let gtanh := gtanh -x gtop in
      let (rest, gb) := sweep w mu gZ' ls' (tl zs) in
      ((gratio, gtanh) :: rest, gb)
  end.
(** 206 *)
Definition d_thick (w mu : R) (l : R * R) (g : cx * cx) : cx :=
  let T := tnh w mu (fst l) (snd l) in
  (x1 -x T *x T) *x alpha w mu (fst l) *x snd g.
(** 208-212 for a layer above the bottom and for the bottom *)
Definition d_sigma (w mu : R) (l : R * R) (g : cx * cx) : cx :=
  let T := tnh w mu (fst l) (snd l) in
  let galpha := xdivr (fst g) (fst l) +x xscale (snd l) (x1 -x T *x T) *x snd g in
  xopp (xdivr (ratio w mu (fst l)) (fst l)) *x fst g
  +x (0, / 2 * w * mu) /x alpha w mu (fst l) *x galpha.
Definition d_sigma_b (w mu sb : R) (g : cx) : cx :=
  xopp (xdivr (ratio w mu sb) sb) *x g +x (0, / 2 * w * mu) /x alpha w mu sb *x xdivr g sb.

(** The reversed arrays ([::-1], 128-129): the layers from the top and the bottom one.
    Thicknesses: one less than conductivities; numpy would also broadcast a single
    thickness over the layers, which is not modelled. *)
Definition layers (sigmas thicks : vec) : result (list (R * R) * R) :=
  match sigmas with
  | [] => Err IndexError
  | sb :: above => if Nat.eqb (length above) (length thicks)
                   then Ok (combine (rev above) (rev thicks), sb) else Err ValueError
  end.
(** 108-144 _get_recursive_impedances, one frequency. *)
Definition impedance (mu f : R) (sigmas thicks : vec) : result cx :=
  do lb <- layers sigmas thicks; Ok (Ztop (2 * PI * f) mu (fst lb) (snd lb)).
(** 146-216 _get_recursive_impedances_deriv: Z and its derivatives, in the order of the
    arguments. *)
Definition impedance_deriv (mu f : R) (sigmas thicks : vec) : result (cx * list cx * list cx) :=
  do lb <- layers sigmas thicks;
  let w := 2 * PI * f in
  let (ls, sb) := lb in
  let zs := Zs w mu ls sb in
  let (gs, gb) := sweep w mu x1 ls zs in
  Ok (hd x0 zs,
      d_sigma_b w mu sb gb :: rev (map (fun lg => d_sigma w mu (fst lg) (snd lg)) (combine ls gs)),
      rev (map (fun lg => d_thick w mu (fst lg) (snd lg)) (combine ls gs))).

(** ** Data *)
Inductive comp := CReal | CImag | CAppRes | CPhase | CComplex.
Record rx := mkRx { r_comp : comp; r_nloc : nat }.
Record src := mkSrc { s_freq : R; s_rxs : list rx }.
(** frequency_domain/survey.py 18-25: the distinct frequencies, sorted. *)
Fixpoint insert_f (f : R) (l : list R) : list R :=
  match l with
  | [] => [f]
  | g :: l' => if Req_EM_T f g then l else if Rlt_dec f g then f :: l else g :: insert_f f l'
  end.
Definition frequencies (ss : list src) : list R := fold_left (fun acc s => insert_f (s_freq s) acc) ss [].
(** numpy.searchsorted (side left). *)
Fixpoint searchsorted (l : list R) (f : R) : nat :=
  match l with [] => 0 | g :: l' => if Rlt_dec g f then S (searchsorted l' f) else 0 end.
(** numpy.arctan2 *)
Definition arctan2 (y x : R) : R :=
  if Rlt_dec 0 x then atan (y / x)
  else if Rlt_dec x 0 then (if Rlt_dec y 0 then atan (y / x) - PI else atan (y / x) + PI)
  else if Rlt_dec 0 y then PI / 2 else if Rlt_dec y 0 then - (PI / 2) else 0.
(** 241-252: one number for each receiver; nothing for complex receivers. *)
Definition datum (mu f : R) (Z : cx) (c : comp) : list R :=
  match c with
  | CReal => [Re Z]
  | CImag => [Im Z]
  | CAppRes => [(sqrt (nrm2 Z)) ^ 2 / (2 * PI * f * mu)]
  | CPhase => [180 / PI * arctan2 (Im Z) (Re Z)]
  | CComplex => []
  end.
(** A property of the simulation: a value, or a mapping of the model with its derivative. *)
Inductive pspec := Fixed (v : vec) | Mapped (val : vec -> vec) (der : vec -> mat).
Definition pval (q : pspec) (m : vec) : vec := match q with Fixed v => v | Mapped f _ => f m end.
Record mt := mkMt { mt_mu : R; mt_srcs : list src; mt_sigma : pspec; mt_thick : pspec }.
Definition rx_pairs (s : mt) : list (R * rx) :=
  flat_map (fun c => map (fun r => (s_freq c, r)) (s_rxs c)) (mt_srcs s).
Definition nD (s : mt) : nat := list_sum (map (fun fr => r_nloc (snd fr)) (rx_pairs s)).
(** 222-254 dpred *)
Definition dpred (s : mt) (m : vec) : result vec :=
  let fs := frequencies (mt_srcs s) in
  do Z <- mapM (fun f => impedance (mt_mu s) f (pval (mt_sigma s) m) (pval (mt_thick s) m)) fs;
  Ok (flat_map (fun fr => datum (mt_mu s) (fst fr) (nth (searchsorted fs (fst fr)) Z x0) (r_comp (snd fr))) (rx_pairs s)).

(** ** Sensitivities *)
(** 286-302: the row of a receiver; complex receivers do not assign Jrows. *)
Definition jrow (mu f : R) (Z : cx) (row : list cx) (c : comp) : option vec :=
  match c with
  | CReal => Some (map Re row)
  | CImag => Some (map Im row)
  | CAppRes => Some (map (fun d => / (PI * f * mu) * (Re Z * Re d + Im Z * Im d)) row)
  | CPhase => let b := Re Z ^ 2 + Im Z ^ 2 in
              Some (map (fun d => 180 / PI * (- Im Z / b * Re d + Re Z / b * Im d)) row)
  | CComplex => None
  end.
(** 281-305: Jrows keeps its previous value when the component is not one of the four;
    before the first assignment that is an UnboundLocalError. *)
Fixpoint jrows (mu : R) (fs : list R) (zs : list (cx * list cx)) (last : option vec) (frs : list (R * rx)) : result mat :=
  match frs with
  | [] => Ok []
  | (f, r) :: frs' =>
      let zr := nth (searchsorted fs f) zs (x0, []) in
      match (match jrow mu f (fst zr) (snd zr) (r_comp r) with Some v => Some v | None => last end) with
      | None => Err GenericException
      | Some v => do rest <- jrows mu fs zs (Some v) frs'; Ok (repeat v (r_nloc r) ++ rest)
      end
  end.
(** 268-315 getJ (without the cache): the blocks "sigma" and "thick". *)
Definition is_mapped (q : pspec) : bool := match q with Mapped _ _ => true | Fixed _ => false end.
Definition getJ0 (s : mt) (m : vec) : result (option mat * option mat) :=
  let fs := frequencies (mt_srcs s) in
  do zds <- mapM (fun f => impedance_deriv (mt_mu s) f (pval (mt_sigma s) m) (pval (mt_thick s) m)) fs;
  let js := map (fun z => (fst (fst z), (if is_mapped (mt_sigma s) then snd (fst z) else [])
                                     ++ (if is_mapped (mt_thick s) then snd z else []))) zds in
  if is_mapped (mt_sigma s) || is_mapped (mt_thick s) then
    do J <- jrows (mt_mu s) fs js None (rx_pairs s);
    let ns := if is_mapped (mt_sigma s) then length (pval (mt_sigma s) m) else 0%nat in
    Ok (if is_mapped (mt_sigma s) then Some (map (firstn ns) J) else None,
        if is_mapped (mt_thick s) then Some (map (skipn ns) J) else None)
  else Err ValueError.
(** 335-342 Jvec and 344-351 Jtvec with the blocks; [p] is the length of the model. *)
Definition jv1 (q : pspec) (J : option mat) (m v : vec) : option vec :=
  match q, J with Mapped _ D, Some M => Some (mv M (mv (D m) v)) | _, _ => None end.
Definition jtv1 (q : pspec) (J : option mat) (m u : vec) : option vec :=
  match q, J with Mapped _ D, Some M => Some (mtv (length m) (D m) (mtv (length (D m)) M u)) | _, _ => None end.
Definition osum (a b : option vec) : result vec :=
  match a, b with
  | Some x, Some y => Ok (vadd x y) | Some x, None => Ok x | None, Some y => Ok y
  | None, None => Err ValueError end.
Definition jvec0 (s : mt) (J : option mat * option mat) (m v : vec) : result vec :=
  osum (jv1 (mt_sigma s) (fst J) m v) (jv1 (mt_thick s) (snd J) m v).
Definition jtvec0 (s : mt) (J : option mat * option mat) (m u : vec) : result vec :=
  osum (jtv1 (mt_sigma s) (fst J) m u) (jtv1 (mt_thick s) (snd J) m u).
(** 325-331 the diagonal: sum over the rows of W * (J D)^2, [W] the squared weights. *)
Definition diag1 (q : pspec) (J : option mat) (m W : vec) : option vec :=
  match q, J with
  | Mapped _ D, Some M =>
      Some (map (fun j => dot W (map (fun row => (nth j (mtv (length m) (D m) row) 0) ^ 2) M)) (seq 0 (length m)))
  | _, _ => None end.
Definition diag0 (s : mt) (J : option mat * option mat) (m W : vec) : result vec :=
  osum (diag1 (mt_sigma s) (fst J) m W) (diag1 (mt_thick s) (snd J) m W).

(** ** The object: the model and the two caches (256-266, 306-318, 332-333, 353-360,
    props.py 408-477).  The model setter is given arrays of the right length. *)
Record mtst := mkSt { st_fix : bool; st_model : option vec; st_J : option (option mat * option mat); st_g : option vec }.
Definition mt0 (fix_J : bool) : mtst := mkSt fix_J None None None.
Definition set_model (st : mtst) (m : vec) : mtst :=
  let same := match st_model st with
              | Some m' => match allclose m' m with Ok b => b | Err _ => false end
              | None => false end in
  if same || st_fix st then mkSt (st_fix st) (Some m) (st_J st) (st_g st)
  else mkSt (st_fix st) (Some m) None None.
Definition getJ (s : mt) (st : mtst) (m : vec) : mtst * result (option mat * option mat) :=
  let st1 := set_model st m in
  match st_J st1 with
  | Some J => (st1, Ok J)
  | None => match getJ0 s m with
            | Ok J => (mkSt (st_fix st1) (st_model st1) (Some J) (st_g st1), Ok J)
            | Err e => (st1, Err e)
            end
  end.
Inductive call := CallDpred (m : vec) | CallJvec (m v : vec) | CallJtvec (m u : vec) | CallDiag (m W : vec).
Definition do_call (s : mt) (st : mtst) (c : call) : mtst * result vec :=
  match c with
  | CallDpred m => (set_model st m, dpred s m)
  | CallJvec m v => let (st1, r) := getJ s st m in (st1, do J <- r; jvec0 s J m v)
  | CallJtvec m u => let (st1, r) := getJ s st m in (st1, do J <- r; jtvec0 s J m u)
  | CallDiag m W =>
      match st_g st with
      | Some g => (st, Ok g)
      | None => let (st1, r) := getJ s st m in
                match (do J <- r; diag0 s J m W) with
                | Ok g => (mkSt (st_fix st1) (st_model st1) (st_J st1) (Some g), Ok g)
                | Err e => (st1, Err e)
                end
      end
  end.
Fixpoint do_calls (s : mt) (st : mtst) (cs : list call) : mtst :=
  match cs with [] => st | c :: cs' => do_calls s (fst (do_call s st c)) cs' end.
