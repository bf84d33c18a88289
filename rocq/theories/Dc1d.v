(** Layered DC resistivity: electromagnetics/static/resistivity/simulation_1d.py 22-347 and
    electromagnetics/utils/em1d_utils.py 224-257.  Exact reals; surveys and geometric factors
    as in Geom.v, properties as in Mt1d.v (the resistivity is mapped whenever it or the
    conductivity is, props.py 45-58). *)
From Verif Require Export Py Vec PropsM Geom.
From Verif Require Mt1d Survey.
From Coq Require Import String.
Local Open Scope R_scope.

(** ** The kernel (22-102), for one wavenumber *)
(** 40-44; [ls] are the layers above the bottom one from the top (resistivity, thickness). *)
Definition top_ (lam : R) (l : R * R) (t : R) : R := t + fst l * tanh (lam * snd l).
Definition bot_ (lam : R) (l : R * R) (t : R) : R := 1 + t * tanh (lam * snd l) / fst l.
Fixpoint phi (lam : R) (ls : list (R * R)) (rb : R) : R :=
  match ls with [] => rb | l :: ls' => let t := phi lam ls' rb in top_ lam l t / bot_ lam l t end.
(** 82-100: the pairs are the entries of J_rho and J_h of the layers above the bottom, the
    last component is J_rho[-1]. *)
Fixpoint sweep (lam g : R) (ls : list (R * R)) (rb : R) : list (R * R) * R :=
  match ls with
  | [] => ([], g)
  | l :: ls' =>
      let (r, h) := l in
      let th := tanh (lam * h) in
      let tn := phi lam ls' rb in
      let ti := top_ lam l tn / bot_ lam l tn in
      let g_tops := g / bot_ lam l tn in
      let g_bots := - ti / bot_ lam l tn * g in
      let g_tip1 := th / r * g_bots + g_tops in
      let g_tanh := tn / r * g_bots + r * g_tops in
      let g_rho0 := - tn * th / r ^ 2 * g_bots + th * g_tops in
      let g_thick := (1 - th ^ 2) * lam * g_tanh in
      let (rest, gb) := sweep lam g_tip1 ls' rb in
      ((g_rho0, g_thick) :: rest, gb)
  end.
(** Resistivities from the top, and thicknesses: [rho[-1]] of nothing and missing thicknesses
    raise, further thicknesses are not looked at. *)
Definition layers (rhos thicks : vec) : result (list (R * R) * R) :=
  match rhos with
  | [] => Err IndexError
  | _ => if (List.length rhos - 1 <=? List.length thicks)%nat then Ok (combine (removelast rhos) thicks, last rhos 0) else Err IndexError
  end.
(** 22-44 *)
Definition phi_tilde (rhos thicks lams : vec) : result vec :=
  do lb <- layers rhos thicks; Ok (map (fun lam => phi lam (fst lb) (snd lb)) lams).
(** 47-102: the two matrices, one row per wavenumber. *)
Definition dphi_tilde (rhos thicks lams : vec) : result (mat * mat) :=
  do lb <- layers rhos thicks;
  let J := map (fun lam => sweep lam 1 (fst lb) (snd lb)) lams in
  Ok (map (fun g => map fst (fst g) ++ [snd g]) J, map (fun g => map snd (fst g)) J).

(** ** Points of the digital filter (em1d_utils.py 224-257) *)
(** [np.ceil] *)
Definition ceil (x : R) : Z := (- Int_part (- x))%Z.
Record filt := { f_base : vec; f_j0 : vec }.
Section Points.
(** [np.around(.., 15)] (245) *)
Variable rnd : R -> R.
Definition ppd (base : vec) : R := 1 / ln (rnd (nth 1 base 0 / nth 0 base 0)).
Definition n_out (base : vec) (v_min v_max : R) : nat :=
  let outmax := last base 0 / v_min in
  let outmin := nth 0 base 0 / v_max in
  let nout := (ceil (ln (outmax / outmin) * ppd base) + 1)%Z in
  let nb := Z.of_nat (List.length base) in
  Z.to_nat (if (nout - nb <? 3)%Z then nb + 3 else nout)%Z.
(** 252-257; [np.arange(start, start + nout * step, step)] has [nout] entries. *)
Definition dlf_points (base : vec) (v_min v_max : R) : vec * vec :=
  let outmin := nth 0 base 0 / v_max in
  let nout := n_out base v_min v_max in
  let p := ppd base in
  (map (fun k => exp (ln outmin + INR k / p)) (seq 0 nout),
   map (fun k => v_max * exp (- INR k / p)) (seq 0 (nout - List.length base + 1))).

(** ** The coefficients (218-286) *)
(** scipy's interpolating spline through a unit vector: [spline xs i x] is the basis
    function [i] on the points [xs]. *)
Variable spline : vec -> nat -> R -> R.
Definition elecs (s : gsrc) : list vec := match g_src s with SPole a => [a] | SDipole a b => [a; b] | SMulti l => l end.
Definition rx_tables (r : grx) : list (list vec) := match g_rx r with RPole ms => [ms] | RDipole ms ns => [ms; ns] end.
(** 223-236: all distances; a table without rows has no smallest distance. *)
Definition offsets (sv : list gsrc) : result vec :=
  do l <- mapM (fun p => do t <- mapM (fun locs => match locs with [] => Err ValueError | _ => Ok (flat_map (fun a => map (fun x => norm2 (vsub a x)) locs) (elecs (fst p))) end) (rx_tables (snd p)); Ok (List.concat t)) (g_pairs sv);
  Ok (List.concat l).
Definition lowest (l : vec) : R := fold_right Rmin (hd 0 l) l.
Definition highest (l : vec) : R := fold_right Rmax (hd 0 l) l.
(** 246-249 *)
Definition A_dht (n_r n_lam : nat) (j0 : vec) : result mat :=
  let nb := List.length j0 in
  if ((n_r =? 0) || (n_r - 1 + nb <=? n_lam))%nat
  then Ok (rev (map (fun i => vzero i ++ j0 ++ vzero (n_lam - i - nb)) (seq 0 n_r))) else Err ValueError.
(** 267-280: the matrix of a receiver; [cs] are the current electrodes with their currents.
    Python's zip stops at the shorter one. *)
Definition term (xs : vec) (i : nat) (off : R) : R := spline xs i (ln off) / off.
Definition a_entry (xs : vec) (cs : list (R * vec)) (m : vec) (n : option vec) (i : nat) : R :=
  fold_left (fun acc c => acc + fst c * term xs i (norm2 (vsub (snd c) m))
                          - match n with Some n => fst c * term xs i (norm2 (vsub (snd c) n)) | None => 0 end) cs 0.
Definition a_rows (xs : vec) (n_r : nat) (cs : list (R * vec)) (r : grx) : mat :=
  let row mn := map (a_entry xs cs (fst mn) (snd mn)) (seq 0 n_r) in
  match g_rx r with
  | RPole ms => map (fun m => row (m, None)) ms
  | RDipole ms ns => zipn (fun m n => row (m, Some n)) ms ns
  end.
(** 282: [A /= gf] with [gf] a row: it must have as many entries as A has columns, or one.
    Factors that are zero or not finite give entries that are not numbers: an error here. *)
Fixpoint finite (l : list num) : option vec :=
  match l with
  | [] => Some []
  | Fin r :: l => if Req_EM_T r 0 then None else option_map (cons r) (finite l)
  | _ => None
  end.
Definition over_factor (n_r : nat) (A : mat) (gf : list num) : result mat :=
  match finite gf with
  | None => Err OverflowError
  | Some [g] => Ok (map (vscale (/ g)) A)
  | Some g => if (List.length g =? n_r)%nat then Ok (map (fun row => vdiv row g) A) else Err ValueError
  end.
Definition mm (n : nat) (A B : mat) : mat := map (fun row => mtv n B row) A.
Definition rx_coef (xs : vec) (n_r n_lam : nat) (dht : mat) (gfs : store) (p : gsrc * grx) : result mat :=
  let A := a_rows xs n_r (combine (g_cur (fst p)) (elecs (fst p))) (snd p) in
  do A <- match g_type (snd p) with
          | AppRes => match dict_get Survey.pkey_eqb (g_sid (fst p), g_rid (snd p)) gfs with
                      | Some gf => over_factor n_r A gf | None => Err KeyError end
          | _ => Ok A end;
  Ok (map (vscale (/ (2 * PI))) (mm n_lam A dht)).
(** 218-286; the dictionaries of the receivers start with [gfs]. *)
Definition coefficients (f : filt) (gfs : store) (sv : list gsrc) : result (mat * vec) :=
  do offs <- offsets sv;
  do G <- set_geometric_factor sv "halfspace" gfs;
  let (lams, rs) := dlf_points (f_base f) (lowest offs) (highest offs) in
  let n_lam := List.length lams in
  let n_r := List.length rs in
  do dht <- A_dht n_r n_lam (f_j0 f);
  do As <- mapM (rx_coef (map ln (rev rs)) n_r n_lam dht (fst G)) (g_pairs sv);
  Ok (List.concat As, lams).

(** ** The simulation *)
Record dc1 := { dc_rho : Mt1d.pspec; dc_thick : Mt1d.pspec }.
(** 310-328: the matrix as a sum of products [As J D], none for the integer 0. *)
Definition jmat := list (mat * mat * mat).
Definition getJ0 (s : dc1) (co : mat * vec) (m : vec) : result jmat :=
  do J <- dphi_tilde (Mt1d.pval (dc_rho s) m) (Mt1d.pval (dc_thick s) m) (snd co);
  Ok (match dc_rho s with Mt1d.Mapped _ D => [(fst co, fst J, D m)] | _ => [] end ++
      match dc_thick s with Mt1d.Mapped _ D => [(fst co, snd J, D m)] | _ => [] end).
Definition dpred0 (s : dc1) (co : mat * vec) (m : vec) : result vec :=
  do t <- phi_tilde (Mt1d.pval (dc_rho s) m) (Mt1d.pval (dc_thick s) m) (snd co); Ok (mv (fst co) t).
(** 334 and 340; [p] is the length of the model. *)
Definition japply (v : vec) (x : mat * mat * mat) : vec := let '(A, J, D) := x in mv A (mv J (mv D v)).
Definition jtapply (p : nat) (u : vec) (x : mat * mat * mat) : vec :=
  let '(A, J, D) := x in mtv p D (mtv (List.length D) J (mtv (List.length J) A u)).
Definition jvec0 (J : jmat) (v : vec) : result vec :=
  match map (japply v) J with [] => Err ValueError | x :: l => Ok (fold_left vadd l x) end.
Definition jtvec0 (p : nat) (J : jmat) (u : vec) : result vec :=
  match map (jtapply p u) J with [] => Err AttributeError | x :: l => Ok (fold_left vadd l x) end.
(** The object: survey, filter, the coefficients once set (202, 219, 284), model and stored
    Jacobian (310-328, 342-347, model setter as in Mt1d.v). *)
Record st := mkSt { st_survey : list gsrc; st_filt : filt; st_fix : bool; st_co : option (mat * vec); st_model : option vec; st_J : option jmat }.
Definition st0 (sv : list gsrc) (f : filt) (fix_J : bool) : st := mkSt sv f fix_J None None None.
Definition set_model (x : st) (m : vec) : st :=
  let same := match st_model x with Some m' => match allclose m' m with Ok b => b | Err _ => false end | None => false end in
  mkSt (st_survey x) (st_filt x) (st_fix x) (st_co x) (Some m) (if same || st_fix x then st_J x else None).
Definition compute (x : st) : st * result (mat * vec) :=
  match st_co x with
  | Some co => (x, Ok co)
  | None => match coefficients (st_filt x) [] (st_survey x) with
            | Ok co => (mkSt (st_survey x) (st_filt x) (st_fix x) (Some co) (st_model x) (st_J x), Ok co)
            | Err e => (x, Err e) end
  end.
Definition getJ (s : dc1) (x : st) (m : vec) : st * result jmat :=
  let x1 := set_model x m in
  match st_J x1 with
  | Some J => (x1, Ok J)
  | None => let (x2, r) := compute x1 in
            match (do co <- r; getJ0 s co m) with
            | Ok J => (mkSt (st_survey x2) (st_filt x2) (st_fix x2) (st_co x2) (st_model x2) (Some J), Ok J)
            | Err e => (x2, Err e) end
  end.
Inductive call := CallDpred (m : vec) | CallJvec (m v : vec) | CallJtvec (m u : vec) | SetSurvey (sv : list gsrc) | SetFilter (f : filt).
Definition do_call (s : dc1) (x : st) (c : call) : st * result vec :=
  match c with
  | CallDpred m => let (x1, r) := compute x in
                   match r with Ok co => (set_model x1 m, dpred0 s co m) | Err e => (x1, Err e) end
  | CallJvec m v => let (x1, r) := getJ s x m in (x1, do J <- r; jvec0 J v)
  | CallJtvec m u => let (x1, r) := getJ s x m in (x1, do J <- r; jtvec0 (List.length m) J u)
  | SetSurvey sv => (mkSt sv (st_filt x) (st_fix x) (st_co x) (st_model x) (st_J x), Ok [])
  | SetFilter f => (mkSt (st_survey x) f (st_fix x) None (st_model x) (st_J x), Ok [])
  end.
Fixpoint do_calls (s : dc1) (x : st) (cs : list call) : st := match cs with [] => x | c :: cs' => do_calls s (fst (do_call s x c)) cs' end.
End Points.
