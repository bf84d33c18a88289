(** Model of simpeg/electromagnetics/frequency_domain: simulation.py (BaseFDEMSimulation
    141-506 and the four formulations 514-2187), fields.py (8-1819), receivers.py (136-258),
    sources.py (RawVec 205-305, MagDipole 308-672), survey.py (15-99), and the parts of
    fields.py, simulation.py and base/pde_simulation.py they use. Permittivity is None.
    The operators of the mesh, the interpolation matrices of the receivers, the primary
    fields of dipoles and the linear solver are arguments. Properties are isotropic or
    axis-aligned on tensor-product meshes, so that inner products are diagonal and linear in
    the property. The E-B formulations solve for e (Fe) or b (Fb), the H-J formulations for j
    (Fj) or h (Fh). In both pairs one property lives on faces (mui, or rho) and one on edges
    (sigma, or mu). *)
From Verif Require Import Py Vec Joint Cplx.
From Coq Require Import Reals.
Local Open Scope R_scope.

(** The solution a simulation solves for; receivers name a field *)
Inductive form := FormE | FormB | FormJ | FormH.
Inductive fname := Fe | Fb | Fh | Fj | FbSec | FhSec.
(** receivers.py 59-89 *)
Inductive component := Real | Imag | Both | Complex.
(** Number of locations and the matrices getP(mesh, "E") and getP(mesh, "F") (136-168) *)
Record receiver := mkRx { r_field : fname; r_comp : component; r_nloc : nat; r_PE : mat; r_PF : mat }.
(** sources.py: vectors given by the user, or a magnetic dipole (or loop) by its primary
    field: b on faces for E-B (485-522), h on edges for H-J (563-586), and its mu. *)
Inductive skind := Raw (sm se : cvec) | Dipole (prim : vec) (mu0 : R).
Record source := mkSrc { s_id : nat; s_freq : R; s_kind : skind; s_rx : list receiver }.
(** A physical property: its values, and the derivative if it has a map (props.py) *)
Record prop := mkProp { p_val : vec -> vec; p_deriv : option (vec -> mat) }.
Record fdem := mkFd {
  f_form : form; f_p : nat;        (* size of the model *)
  f_nE : nat; f_nF : nat; f_nc : nat;
  f_C : mat;                       (* edge_curl, faces by edges *)
  f_Bf : mat; f_Be : mat;          (* inner products diag(B @ property) on faces and edges *)
  f_face : prop;                   (* mui (E-B) or rho (H-J) *)
  f_edge : prop;                   (* sigma (E-B) or mu (H-J) *)
  f_MfI : vec; f_MeI : vec;        (* inverses of the inner products without property *)
  f_solve : cmx -> cvec -> cvec;
  f_fwd : bool;                    (* forward_only *)
  f_nan : R }.                     (* stands for not-a-number *)

(** utils/__init__.py: omega *)
Definition omega (freq : R) : R := 2 * PI * freq.

Section Fdem.
  Context (s : fdem).
  Let nE := f_nE s. Let nF := f_nF s.
  Definition isEB : bool := match f_form s with FormE | FormB => true | _ => false end.
  (** Length of the solution *)
  Definition dim : nat := match f_form s with FormE | FormH => nE | _ => nF end.
  (** The curl and its transpose *)
  Definition curl (v : vec) : vec := mv (f_C s) v.
  Definition curlT (v : vec) : vec := mtv nE (f_C s) v.
  (** pde_simulation.py 135-165, 195-225: diagonals of MfMui | MfRho, MeSigma | MeMu, and
      of MeSigmaI | MeMuI *)
  Definition Fm (m : vec) : vec := mv (f_Bf s) (p_val (f_face s) m).
  Definition Em (m : vec) : vec := mv (f_Be s) (p_val (f_edge s) m).
  Definition EI (m : vec) : vec := map Rinv (Em m).
  (** 16-53, 270-328, 380-410: M...Deriv(u, v) and its adjoint, for one real vector u; a
      property without map has derivative Zero *)
  Definition Fd (m u v : vec) : vec :=
    match p_deriv (f_face s) with None => vzero nF | Some D => vmul u (mv (f_Bf s) (mv (D m) v)) end.
  Definition FdT (m u w : vec) : vec :=
    match p_deriv (f_face s) with None => vzero (f_p s) | Some D => mtv (f_p s) (D m) (mtv (f_nc s) (f_Bf s) (vmul u w)) end.
  Definition Ed (m u v : vec) : vec :=
    match p_deriv (f_edge s) with None => vzero nE | Some D => vmul u (mv (f_Be s) (mv (D m) v)) end.
  Definition EdT (m u w : vec) : vec :=
    match p_deriv (f_edge s) with None => vzero (f_p s) | Some D => mtv (f_p s) (D m) (mtv (f_nc s) (f_Be s) (vmul u w)) end.
  Definition EId (m u v : vec) : vec := Ed m (vmul (EI m) (vmul (EI m) (vopp u))) v.
  (** The same for complex u (and w) *)
  Definition cFd (m : vec) (u : cvec) (v : vec) : cvec := cmap (fun x => Fd m x v) u.
  Definition cEd (m : vec) (u : cvec) (v : vec) : cvec := cmap (fun x => Ed m x v) u.
  Definition cEId (m : vec) (u : cvec) (v : vec) : cvec := cmap (fun x => EId m x v) u.
  Definition bil (T : vec -> vec -> vec) (u w : cvec) : cvec :=
    (vsub (T (fst u) (fst w)) (T (snd u) (snd w)), vadd (T (fst u) (snd w)) (T (snd u) (fst w))).
  Definition cFdT (m : vec) : cvec -> cvec -> cvec := bil (FdT m).
  Definition cEdT (m : vec) : cvec -> cvec -> cvec := bil (EdT m).
  Definition cEIdT (m : vec) (u w : cvec) : cvec := cEdT m (cmap (fun x => vmul (EI m) (vmul (EI m) (vopp x))) u) w.

  (** simulation.py 614-651, 1004-1048, 1456-1499, 1891-1929; _makeASymmetric is True *)
  Definition MxC : mx := Mx nE (f_C s).
  Definition getA (freq : R) (m : vec) : cmx :=
    let w := omega freq in
    match f_form s with
    | FormE | FormH => mkCmx (Mmul (MT MxC) (Mmul (Mdiag (Fm m)) MxC)) (Mscale w (Mdiag (Em m)))
    | FormB | FormJ =>
        mkCmx (Mmul (MT (Mdiag (Fm m))) (Mmul MxC (Mmul (Mdiag (EI m)) (Mmul (MT MxC) (Mdiag (Fm m))))))
              (Mmul (MT (Mdiag (Fm m))) (Mscale w (Mdiag (vconst nF 1))))
    end.
  (** 653-804, 1050-1223, 1501-1670, 1931-2080 *)
  Definition getADeriv (freq : R) (m : vec) (u : cvec) (v : vec) : cvec :=
    let w := omega freq in
    match f_form s with
    | FormE | FormH => cadd (cI w (cEd m u v)) (cmap curlT (cFd m (cmap curl u) v))
    | FormB | FormJ =>
        cmap (vmul (Fm m)) (cadd (cmap curl (cEId m (cmap curlT (cmap (vmul (Fm m)) u)) v))
                                 (cmap curl (cmap (vmul (EI m)) (cmap curlT (cFd m u v)))))
    end.
  Definition getADerivT (freq : R) (m : vec) (u x : cvec) : cvec :=
    let w := omega freq in
    match f_form s with
    | FormE | FormH => cadd (cI w (cEdT m u x)) (cFdT m (cmap curl u) (cmap curl x))
    | FormB | FormJ =>
        let x := cmap (vmul (Fm m)) x in
        cadd (cEIdT m (cmap curlT (cmap (vmul (Fm m)) u)) (cmap curlT x))
             (cFdT m u (cmap curl (cmap (vmul (EI m)) (cmap curlT x))))
    end.

  (** sources.py 226-241, 263-278 (integrate=False), 588-608: magnetic source terms. Their
      derivatives are Zero (base.py 172-191). *)
  Definition s_m (m : vec) (src : source) : cvec :=
    match s_kind src with
    | Raw sm _ => sm
    | Dipole p _ => cI (- omega (s_freq src)) (creal (if isEB then p else vmul (Em m) p))
    end.
  (** 610-640. For E-B the shortcut of line 624 returns what the formula gives. *)
  Definition s_e (m : vec) (src : source) : cvec :=
    match s_kind src with
    | Raw _ se => se
    | Dipole p mu0 =>
        if isEB then creal (vopp (curlT (vmul (mv (f_Bf s) (vsub (p_val (f_face s) m) (vconst (f_nc s) (/ mu0)))) p)))
        else if forallb (fun x => if Req_EM_T x mu0 then true else false) (p_val (f_edge s) m) then czero nF
             else creal (vopp (curl (vmul (map Rinv (mv (f_Be s) (vsub (p_val (f_edge s) m) (vconst (f_nc s) mu0)))) (vscale mu0 p))))
    end.
  (** 642-664 *)
  Definition s_eDeriv (m : vec) (src : source) (v : vec) : cvec :=
    match s_kind src with
    | Dipole p _ => if isEB then creal (vopp (curlT (Fd m p v))) else czero nF
    | _ => czero (if isEB then nE else nF)
    end.
  Definition s_eDerivT (m : vec) (src : source) (w : cvec) : cvec :=
    match s_kind src with
    | Dipole p _ => if isEB then cmap (fun x => vopp (FdT m p (curl x))) w else czero (f_p s)
    | _ => czero (f_p s)
    end.
  (** 61-183, 485-586: primary fields; those of e and j are Zero *)
  Definition bPrim (src : source) : cvec :=
    match s_kind src with
    | Dipole p mu0 => creal (if isEB then p else vscale mu0 p)
    | _ => czero (if isEB then nF else nE)
    end.
  Definition hPrim (src : source) : cvec :=
    match s_kind src with
    | Dipole p mu0 => creal (if isEB then vscale (/ mu0) p else p)
    | _ => czero (if isEB then nF else nE)
    end.

  (** simulation.py 806-839, 1225-1270, 1672-1710, 2082-2122: one column *)
  Definition getRHS (m : vec) (src : source) : cvec :=
    let w := omega (s_freq src) in
    match f_form s with
    | FormE => csub (cmap curlT (cmap (vmul (Fm m)) (s_m m src))) (cI w (s_e m src))
    | FormB => cmap (vmul (Fm m)) (cadd (s_m m src) (cmap curl (cmap (vmul (EI m)) (s_e m src))))
    | FormJ => cmap (vmul (Fm m)) (csub (cmap curl (cmap (vmul (EI m)) (s_m m src))) (cI w (s_e m src)))
    | FormH => cadd (s_m m src) (cmap curlT (cmap (vmul (Fm m)) (s_e m src)))
    end.
  (** 841-901, 1272-1340, 1712-1788, 2124-2187. FormE and FormJ differentiate the source terms
      of all the sources with the frequency together (889, 1767): with a map for the magnetic
      property and [k] sources, not one, the product with the stacked derivative fails. *)
  Definition stacked (k : nat) : bool :=
    match f_form s with
    | FormE => (match p_deriv (f_face s) with Some _ => true | None => false end && negb (Nat.eqb k 1))%bool
    | FormJ => (match p_deriv (f_edge s) with Some _ => true | None => false end && negb (Nat.eqb k 1))%bool
    | _ => false
    end.
  Definition getRHSDeriv (k : nat) (m : vec) (src : source) (v : vec) : result cvec :=
    let w := omega (s_freq src) in
    if stacked k then Err ValueError else Ok
    match f_form s with
    | FormE => csub (cmap curlT (cFd m (s_m m src) v)) (cI w (s_eDeriv m src v))
    | FormB => cmap (vmul (Fm m)) (cadd (cmap curl (cmap (vmul (EI m)) (s_eDeriv m src v))) (cmap curl (cEId m (s_e m src) v)))
    | FormJ => cmap (vmul (Fm m)) (csub (cmap curl (cEId m (s_m m src) v)) (cI w (s_eDeriv m src v)))
    | FormH => cadd (cmap curlT (cFd m (s_e m src) v)) (cmap curlT (cmap (vmul (Fm m)) (s_eDeriv m src v)))
    end.
  (** FormH applies C.T * MfRho to the adjoint of the derivative of s_e (2187), which is Zero
      for the sources above. *)
  Definition getRHSDerivT (k : nat) (m : vec) (src : source) (x : cvec) : result cvec :=
    let w := omega (s_freq src) in
    if stacked k then Err ValueError else Ok
    match f_form s with
    | FormE => csub (cFdT m (s_m m src) (cmap curl x)) (cI w (s_eDerivT m src x))
    | FormB => let x := cmap (vmul (Fm m)) x in
               cadd (cEIdT m (s_e m src) (cmap curlT x)) (s_eDerivT m src (cmap (vmul (EI m)) (cmap curlT x)))
    | FormJ => let x := cmap (vmul (Fm m)) x in
               csub (cEIdT m (s_m m src) (cmap curlT x)) (cI w (s_eDerivT m src x))
    | FormH => cFdT m (s_e m src) (cmap curl x)
    end.

  (** ** Fields. [mf] is the model when the fields were made, whose inner products they keep
      (382-393, 749-765, 1116-1131, 1545-1560), and [mc] the current model of the simulation,
      which sources and derivatives use. [u] is the solution for the source. *)
  Definition bSecondary (mf mc : vec) (src : source) (u : cvec) : cvec :=
    let w := omega (s_freq src) in
    match f_form s with
    | FormE => cadd (copp (cdivI w (cmap curl u))) (cdivI w (s_m mc src)) (* 493-515, one source *)
    | _ => u                                                              (* 791-801 *)
    end.
  Definition hSecondary (mf mc : vec) (src : source) (u : cvec) : cvec :=
    let w := omega (s_freq src) in
    match f_form s with
    | FormJ => cmap (vmul (EI mf)) (cadd (copp (cdivI w (cmap curlT (cmap (vmul (Fm mf)) u)))) (cdivI w (s_m mc src))) (* 1233-1260 *)
    | _ => u                                                                                                          (* 1586-1596 *)
    end.
  Definition getfield (mf mc : vec) (src : source) (x : fname) (u : cvec) : cvec :=
    let b := cadd (bPrim src) (bSecondary mf mc src u) in
    let h := cadd (hPrim src) (hSecondary mf mc src u) in
    let cr := csub (cmap curlT (cmap (vmul (Fm mf)) u)) (s_e mc src) in
    let j := csub (cmap curl u) (s_e mc src) in
    match f_form s, x with
    | FormE, Fe => u
    | FormB, Fe => cmap (vmul (EI mf)) cr                                  (* 854-878 *)
    | FormJ, Fe => cmap (vmul (f_MfI s)) (cmap (vmul (Fm mf)) u)           (* 1347-1357 *)
    | FormH, Fe => cmap (vmul (f_MfI s)) (cmap (vmul (Fm mf)) j)           (* 1698-1708 *)
    | (FormE | FormB), Fb => b
    | (FormJ | FormH), Fb => cmap (vmul (f_MeI s)) (cmap (vmul (Em mf)) h) (* 1403-1413, 1751-1761 *)
    | (FormE | FormB), Fh => cmap (vmul (f_MfI s)) (cmap (vmul (Fm mf)) b) (* 613-623, 992-1001 *)
    | (FormJ | FormH), Fh => h
    | FormE, Fj => cmap (vmul (f_MeI s)) (cmap (vmul (Em mf)) u)           (* 556-565 *)
    | FormB, Fj => cmap (vmul (f_MeI s)) cr                                (* 932-951 *)
    | FormJ, Fj => u
    | FormH, Fj => j                                                       (* 1648-1662 *)
    | _, FbSec => bSecondary mf mc src u
    | _, FhSec => hSecondary mf mc src u
    end.
  (** _GLoc (395-401, 767-773, 1133-1139, 1562-1568): true for edges *)
  Definition gloc (x : fname) : result bool :=
    match isEB, x with
    | true, (Fe | Fj) => Ok true
    | true, (Fb | Fh | FbSec) => Ok false
    | true, FhSec => Err GenericException
    | false, (Fh | Fb | FhSec) => Ok true
    | false, (Fj | Fe) => Ok false
    | false, FbSec => Err GenericException
    end.
  (** _xDeriv_u(src, z): 437-450, 517-533, 567-585, 625-640, 803-816, 880-895, 953-967,
      1003-1017, 1183-1196, 1262-1287, 1367-1381, 1415-1439, 1598-1611, 1664-1680, 1710-1724,
      1763-1777. FbSec is differentiated as Fb (239-256). *)
  Definition field_du (mf : vec) (src : source) (x : fname) (z : cvec) : cvec :=
    let w := omega (s_freq src) in
    let F := cmap (vmul (Fm mf)) in let E := cmap (vmul (Em mf)) in let EI := cmap (vmul (EI mf)) in
    let MfI := cmap (vmul (f_MfI s)) in let MeI := cmap (vmul (f_MeI s)) in
    match f_form s, x with
    | FormE, Fe => z
    | FormE, (Fb | FbSec) => copp (cdivI w (cmap curl z))
    | FormE, Fj => MeI (E z)
    | FormE, Fh => MfI (F (copp (cdivI w (cmap curl z))))
    | FormB, (Fb | FbSec) => z
    | FormB, Fe => EI (cmap curlT (F z))
    | FormB, Fj => MeI (cmap curlT (F z))
    | FormB, Fh => MfI (F z)
    | FormJ, Fj => z
    | FormJ, Fh => copp (cdivI w (EI (cmap curlT (F z))))
    | FormJ, Fe => MfI (F z)
    | FormJ, Fb => copp (cdivI w (MeI (cmap curlT (F z))))
    | FormH, Fh => z
    | FormH, Fj => cmap curl z
    | FormH, Fe => MfI (F (cmap curl z))
    | FormH, Fb => MeI (E z)
    | _, _ => z
    end.
  Definition field_duT (mf : vec) (src : source) (x : fname) (z : cvec) : cvec :=
    let w := omega (s_freq src) in
    let F := cmap (vmul (Fm mf)) in let E := cmap (vmul (Em mf)) in let EI := cmap (vmul (EI mf)) in
    let MfI := cmap (vmul (f_MfI s)) in let MeI := cmap (vmul (f_MeI s)) in
    match f_form s, x with
    | FormE, Fe => z
    | FormE, (Fb | FbSec) => copp (cdivI w (cmap curlT z))
    | FormE, Fj => E (MeI z)
    | FormE, Fh => copp (cdivI w (cmap curlT (F (MfI z))))
    | FormB, (Fb | FbSec) => z
    | FormB, Fe => F (cmap curl (EI z))
    | FormB, Fj => F (cmap curl (MeI z))
    | FormB, Fh => F (MfI z)
    | FormJ, Fj => z
    | FormJ, Fh => copp (cdivI w (F (cmap curl (EI z))))
    | FormJ, Fe => F (MfI z)
    | FormJ, Fb => copp (cdivI w (F (cmap curl (MeI z))))
    | FormH, Fh => z
    | FormH, Fj => cmap curlT z
    | FormH, Fe => cmap curlT (F (MfI z))
    | FormH, Fb => E (MeI z)
    | _, _ => z
    end.
  (** _xDeriv_m(src, v): 452-467, 535-554, 587-611, 642-670, 818-834, 897-930, 970-990,
      1019-1038, 1198-1213, 1289-1345, 1383-1401, 1441-1465, 1613-1628, 1682-1696, 1726-1749,
      1779-1800 *)
  Definition field_dm (mf mc : vec) (src : source) (x : fname) (u : cvec) (v : vec) : cvec :=
    let w := omega (s_freq src) in
    let F := cmap (vmul (Fm mf)) in let EI := cmap (vmul (EI mf)) in
    let MfI := cmap (vmul (f_MfI s)) in let MeI := cmap (vmul (f_MeI s)) in
    match f_form s, x with
    | FormE, Fe => czero nE
    | FormE, (Fb | FbSec) => czero nF
    | FormE, Fj => MeI (cEd mc u v)
    | FormE, Fh => MfI (cFd mc (getfield mf mc src Fb u) v)
    | FormB, (Fb | FbSec) => czero nF
    | FormB, Fe =>
        let cr := cadd (copp (s_e mc src)) (cmap curlT (F u)) in
        csub (cadd (cEId mc cr v) (EI (cmap curlT (cFd mc u v)))) (EI (s_eDeriv mc src v))
    | FormB, Fj => MeI (cmap curlT (cFd mc (getfield mf mc src Fb u) v))
    | FormB, Fh => MfI (cFd mc (getfield mf mc src Fb u) v)
    | FormJ, Fj => czero nF
    | FormJ, Fh => cdivI w (cadd (copp (cadd (EI (cmap curlT (cFd mc u v))) (cEId mc (cmap curlT (F u)) v))) (cEId mc (s_m mc src) v))
    | FormJ, Fe => MfI (cFd mc u v)
    | FormJ, Fb => cdivI w (MeI (copp (cmap curlT (cFd mc u v))))
    | FormH, Fh => czero nE
    | FormH, Fj => copp (s_eDeriv mc src v)
    | FormH, Fe => MfI (csub (cFd mc (cmap curl u) v) (cFd mc (s_e mc src) v))
    | FormH, Fb => MeI (cEd mc (getfield mf mc src Fh u) v)
    | _, _ => czero 0
    end.
  Definition field_dmT (mf mc : vec) (src : source) (x : fname) (u z : cvec) : cvec :=
    let w := omega (s_freq src) in
    let F := cmap (vmul (Fm mf)) in let EI := cmap (vmul (EI mf)) in
    let MfI := cmap (vmul (f_MfI s)) in let MeI := cmap (vmul (f_MeI s)) in
    match f_form s, x with
    | FormE, (Fe | Fb | FbSec) => czero (f_p s)
    | FormE, Fj => cEdT mc u (MeI z)
    | FormE, Fh => cFdT mc (getfield mf mc src Fb u) (MfI z)
    | FormB, (Fb | FbSec) => czero (f_p s)
    | FormB, Fe =>
        let cr := cadd (copp (s_e mc src)) (cmap curlT (F u)) in
        csub (cadd (cEIdT mc cr z) (cFdT mc u (cmap curl (EI z)))) (s_eDerivT mc src (EI z))
    | FormB, Fj => cFdT mc (getfield mf mc src Fb u) (cmap curl (MeI z))
    | FormB, Fh => cFdT mc (getfield mf mc src Fb u) (MfI z)
    | FormJ, Fj => czero (f_p s)
    | FormJ, Fh => cdivI w (cadd (copp (cadd (cFdT mc u (cmap curl (EI z))) (cEIdT mc (cmap curlT (F u)) z))) (cEIdT mc (s_m mc src) z))
    | FormJ, Fe => cFdT mc u (MfI z)
    | FormJ, Fb => cdivI w (copp (cFdT mc u (cmap curl (MeI z))))
    | FormH, Fh => czero (f_p s)
    | FormH, Fj => copp (s_eDerivT mc src z)
    | FormH, Fe => csub (cFdT mc (cmap curl u) (MfI z)) (cFdT mc (s_e mc src) (MfI z))
    | FormH, Fb => cEdT mc (getfield mf mc src Fh u) (MeI z)
    | _, _ => czero (f_p s)
    end.
  (** fields.py 493-515 for several sources at once, f[[...], "bSecondary"] of FormE: the
      column index stays at 0, so every source works on the first column. *)
  Definition e_bSecondary_cols (mc : vec) (srcs : list source) (us : list cvec) : list cvec :=
    fold_left (fun b src =>
      match b with
      | b0 :: b => let w := omega (s_freq src) in cadd (copp (cdivI w b0)) (cdivI w (s_m mc src)) :: b
      | [] => []
      end) srcs (map (cmap curl) us).
  (** fields.py (simpeg) 322-342, 84-150: f[[...], x] *)
  Definition field_cols (mf mc : vec) (srcs : list source) (x : fname) (us : list cvec) : list cvec :=
    match f_form s, x with
    | FormE, FbSec => e_bSecondary_cols mc srcs us
    | FormE, Fb => map (fun sb => cadd (bPrim (fst sb)) (snd sb)) (combine srcs (e_bSecondary_cols mc srcs us))
    | FormE, Fh => map (fun sb => cmap (vmul (f_MfI s)) (cmap (vmul (Fm mf)) (cadd (bPrim (fst sb)) (snd sb)))) (combine srcs (e_bSecondary_cols mc srcs us))
    | _, _ => map (fun su => getfield mf mc (fst su) x (snd su)) (combine srcs us)
    end.

  (** ** Receivers (170-258) *)
  Definition rx_nD (r : receiver) : nat := match r_comp r with Both => (2 * r_nloc r)%nat | _ => r_nloc r end.
  Definition getP (r : receiver) (e : bool) : mat := if e then r_PE r else r_PF r.
  (** getattr(z, component): complex arrays have real and imag *)
  Definition part (c : component) (z : cvec) : result vec :=
    match c with Real => Ok (fst z) | Imag => Ok (snd z) | _ => Err AttributeError end.
  Definition rx_eval (mf mc : vec) (src : source) (r : receiver) (u : cvec) : result vec :=
    do e <- gloc (r_field r); do z <- part (r_comp r) (getfield mf mc src (r_field r) u); Ok (mv (getP r e) z).
  (** 219, 230, 246: there is no _hSecondaryDeriv *)
  Definition callable (x : fname) : result unit := match x with FhSec => Err TypeError | _ => Ok tt end.
  Definition rx_deriv (mf mc : vec) (src : source) (r : receiver) (u du : cvec) (v : vec) : result vec :=
    do e <- gloc (r_field r); do _ <- callable (r_field r);
    part (r_comp r) (cmap (mv (getP r e)) (cadd (field_du mf src (r_field r) du) (field_dm mf mc src (r_field r) u v))).
  Definition rx_derivT (mf mc : vec) (src : source) (r : receiver) (u : cvec) (w : vec) : result (cvec * cvec) :=
    do e <- gloc (r_field r);
    let n := if e then nE else nF in
    let pw := mtv n (getP r e) w in
    do z <- match r_comp r with Real => Ok (pw, vzero n) | Imag => Ok (vzero n, vopp pw) | _ => Err NotImplementedError end;
    do _ <- callable (r_field r);
    Ok (field_duT mf src (r_field r) z, field_dmT mf mc src (r_field r) u z).

  (** ** Survey (survey.py 15-25, 83-99): the list of sources, and the sources of each frequency,
      in increasing order, as they were when the survey was made. *)
  Record survey := mkSv { sv_list : list source; sv_groups : list (R * list source) }.
  Fixpoint insert_freq (f : R) (l : list R) : list R :=
    match l with
    | [] => [f]
    | g :: l' => if Req_EM_T f g then l else if Rlt_dec f g then f :: l else g :: insert_freq f l'
    end.
  Definition freqs (srcs : list source) : list R := fold_right insert_freq [] (map s_freq srcs).
  Definition with_freq (f : R) (srcs : list source) : list source := filter (fun src => if Req_EM_T (s_freq src) f then true else false) srcs.
  Definition make_survey (srcs : list source) : survey := mkSv srcs (map (fun f => (f, with_freq f srcs)) (freqs srcs)).
  (** 38-42: source_list setter *)
  Definition set_source_list (sv : survey) (srcs : list source) : survey := mkSv srcs (sv_groups sv).
  Definition src_nD (src : source) : nat := list_sum (map rx_nD (s_rx src)).
  Definition nD (sv : survey) : nat := list_sum (map src_nD (sv_list sv)).

  (** ** The simulation object: survey, model, the factorisations (self.Ainv: the model and
      frequency of each), _Jmatrix and _gtgdiag *)
  Record state := mkSt { st_sv : survey; st_model : option vec; st_A : option (list (option (vec * R))); st_J : option mat; st_gtg : option vec }.
  Definition init (srcs : list source) : state := mkSt (make_survey srcs) None None None None.
  Definition set_survey (st : state) (sv : survey) : state := mkSt sv (st_model st) (st_A st) (st_J st) (st_gtg st).
  (** props.py 408-476; np.allclose is equality here, and the inner products are those of the
      stored model (both treated in C61). *)
  Definition set_model (st : state) (m : vec) : state * result unit :=
    if Nat.eqb (length m) (f_p s) then
      (match st_model st with
       | Some m' => if list_eq_dec Req_EM_T m' m then st else mkSt (st_sv st) (Some m) (st_A st) None None
       | None => mkSt (st_sv st) (Some m) (st_A st) None None
       end, Ok tt)
    else (st, Err ValueError).
  (** A fields object: the model it was made with and the solutions by source *)
  Definition fobj := (vec * list (nat * cvec))%type.
  Definition listed (sv : survey) (src : source) : bool := existsb (fun x => Nat.eqb (s_id x) (s_id src)) (sv_list sv).
  (** f[src, solution]: sources of the survey without a stored solution have zeros *)
  Definition lookup (sv : survey) (f : fobj) (src : source) : result cvec :=
    if listed sv src then Ok (match dict_get Nat.eqb (s_id src) (snd f) with Some u => u | None => czero dim end) else Err KeyError.
  Fixpoint set_nth {A} (i : nat) (x : A) (l : list A) : list A :=
    match l, i with [], _ => [] | _ :: l, O => x :: l | y :: l, S i => y :: set_nth i x l end.
  (** simulation.py 194-203 *)
  Fixpoint solve_loop (sv : survey) (m : vec) (i : nat) (gs : list (R * list source)) (A : list (option (vec * R))) (acc : list (nat * cvec)) : list (option (vec * R)) * result (list (nat * cvec)) :=
    match gs with
    | [] => (A, Ok acc)
    | (fr, srcs) :: gs =>
        let us := map (fun src => (s_id src, f_solve s (getA fr m) (getRHS m src))) srcs in
        if f_fwd s then if forallb (listed sv) srcs then solve_loop sv m (S i) gs A (acc ++ us) else (A, Err KeyError)
        else if (i <? length A)%nat then
               let A := set_nth i (Some (m, fr)) A in
               if forallb (listed sv) srcs then solve_loop sv m (S i) gs A (acc ++ us) else (A, Err KeyError)
             else (A, Err IndexError)
    end.
  (** 170-204, with a model; the list of factorisations is made by the first call *)
  Definition fields (st : state) (m : vec) : state * result fobj :=
    match set_model st m with
    | (st, Err e) => (st, Err e)
    | (st, Ok _) =>
        let A := match st_A st with Some A => A | None => map (fun _ => None) (sv_groups (st_sv st)) end in
        let '(A, r) := solve_loop (st_sv st) m 0 (sv_groups (st_sv st)) A [] in
        (mkSt (st_sv st) (st_model st) (Some A) (st_J st) (st_gtg st), do us <- r; Ok (m, us))
    end.
  Definition given (st : state) (m : vec) (f : option fobj) : state * result fobj :=
    match f with Some f => (st, Ok f) | None => fields st m end.
  (** simpeg/simulation.py 155-196: without fields to use, they are computed, which sets the
      model; otherwise the model stays what it is. *)
  Definition dpred (st : state) (m : vec) (f : option fobj) : state * result vec :=
    match given st m f with
    | (st, Err e) => (st, Err e)
    | (st, Ok f) =>
        let mc := match st_model st with Some mc => mc | None => [] end in
        (st, do parts <- mapM (fun src => do u <- lookup (st_sv st) f src; do l <- mapM (fun r => rx_eval (fst f) mc src r u) (s_rx src); Ok (concat l)) (sv_list (st_sv st));
             Ok (concat parts))
    end.
  (** 251: self.Ainv[nf] * b *)
  Definition Ainv (st : state) (i : nat) (b : cvec) : result cvec :=
    match st_A st with
    | None => Err AttributeError
    | Some A => match nth_error A i with
                | None => Err IndexError
                | Some None => Err TypeError
                | Some (Some (m, fr)) => Ok (f_solve s (getA fr m) b)
                end
    end.
  (** The loops over frequencies and sources: what each source contributes *)
  Definition over {A} (g : nat -> nat -> R -> source -> result A) (gs : list (R * list source)) : result (list (nat * A)) :=
    do parts <- mapM (fun ig => let '(i, (fr, srcs)) := ig in mapM (fun src => do a <- g i (length srcs) fr src; Ok (s_id src, a)) srcs) (combine (seq 0 (length gs)) gs);
    Ok (concat parts).
  (** The slices of the survey (simpeg/survey.py 592-632) filled with the contributions *)
  Definition assemble {A} (dflt : A) (sv : survey) (d : list (nat * list A)) : list A :=
    concat (map (fun src => match dict_get Nat.eqb (s_id src) d with Some x => x | None => map (fun _ => dflt) (seq 0 (src_nD src)) end) (sv_list sv)).
  Definition in_slices (sv : survey) (src : source) : result unit := if listed sv src then Ok tt else Err KeyError.
  (** 207-258 *)
  Definition Jvec (st : state) (m v : vec) (f : option fobj) : state * result vec :=
    match given st m f with
    | (st, Err e) => (st, Err e)
    | (st, Ok f) =>
        match set_model st m with
        | (st, Err e) => (st, Err e)
        | (st, Ok _) =>
            (st, do d <- over (fun i k fr src =>
                   do u <- lookup (st_sv st) f src;
                   do q <- getRHSDeriv k m src v;
                   do du <- Ainv st i (cadd (copp (getADeriv fr m u v)) q);
                   do l <- mapM (fun r => do _ <- in_slices (st_sv st) src; rx_deriv (fst f) m src r u du v) (s_rx src);
                   Ok (concat l)) (sv_groups (st_sv st));
                 Ok (assemble (f_nan s) (st_sv st) d))
        end
    end.
  (** v[src_rx_slice] for the receivers of one source, whose part of the data is [w] *)
  Fixpoint rx_parts (rs : list receiver) (w : vec) : list (receiver * vec) :=
    match rs with [] => [] | r :: rs => (r, firstn (rx_nD r) w) :: rx_parts rs (skipn (rx_nD r) w) end.
  Fixpoint src_parts (srcs : list source) (w : vec) : list (nat * vec) :=
    match srcs with [] => [] | src :: srcs => (s_id src, firstn (src_nD src) w) :: src_parts srcs (skipn (src_nD src) w) end.
  (** 301-323: one source. A source without receivers contributes nothing here. *)
  Definition jt_src (st : state) (m : vec) (f : fobj) (i k : nat) (fr : R) (src : source) (w : vec) : result vec :=
    do u <- lookup (st_sv st) f src;
    do l <- mapM (fun rw => rx_derivT (fst f) m src (fst rw) u (snd rw)) (rx_parts (s_rx src) w);
    let du := fold_left cadd (map fst l) (czero dim) in
    let dm := fold_left cadd (map snd l) (czero (f_p s)) in
    do x <- Ainv st i du;
    do q <- getRHSDerivT k m src x;
    Ok (fst (cadd dm (cadd (copp (getADerivT fr m u x)) q))).
  Definition Jtvec (st : state) (m w : vec) (f : option fobj) : state * result vec :=
    match given st m f with
    | (st, Err e) => (st, Err e)
    | (st, Ok f) =>
        match set_model st m with
        | (st, Err e) => (st, Err e)
        | (st, Ok _) =>
            (st, do d <- over (fun i k fr src =>
                   match dict_get Nat.eqb (s_id src) (src_parts (sv_list (st_sv st)) w) with
                   | None => Err KeyError
                   | Some w => jt_src st m f i k fr src w
                   end) (sv_groups (st_sv st));
                 Ok (fold_left vadd (map snd d) (vzero (length m))))
        end
    end.
  (** 356-391: the rows of each source; column [i] of np.eye(rx.nD) for each datum. The
      factorisations are taken along with the frequencies, and stop with the shorter list. *)
  Definition unit_at (n i : nat) : vec := map (fun j => if Nat.eqb j i then 1 else 0) (seq 0 n).
  Definition j_rows (st : state) (m : vec) (f : fobj) (i k : nat) (fr : R) (src : source) : result mat :=
    do u <- lookup (st_sv st) f src;
    do l <- mapM (fun r => mapM (fun c =>
        do z <- rx_derivT (fst f) m src r u (unit_at (rx_nD r) c);
        do x <- Ainv st i (fst z);
        do q <- getRHSDerivT k m src x;
        Ok (fst (cadd (cadd (copp (getADerivT fr m u x)) q) (snd z)))) (seq 0 (rx_nD r))) (s_rx src);
    Ok (concat l).
  Definition getJ (st : state) (m : vec) (f : option fobj) : state * result mat :=
    match set_model st m with
    | (st, Err e) => (st, Err e)
    | (st, Ok _) =>
        match st_J st with
        | Some J => (st, Ok J)
        | None =>
            match given st m f with
            | (st, Err e) => (st, Err e)
            | (st, Ok f) =>
                match st_A st with
                | None => (st, Err AttributeError)
                | Some A =>
                    match over (j_rows st m f) (firstn (length A) (sv_groups (st_sv st))) with
                    | Err e => (st, Err e)
                    | Ok d => let J := assemble (vzero (f_p s)) (st_sv st) d in
                              (mkSt (st_sv st) (st_model st) (st_A st) (Some J) (st_gtg st), Ok J)
                    end
                end
            end
        end
    end.
  (** 397-439; [W] is the diagonal of the weights *)
  Definition getJtJdiag (st : state) (m : vec) (W : option vec) (f : option fobj) : state * result vec :=
    match set_model st m with
    | (st, Err e) => (st, Err e)
    | (st, Ok _) =>
        match st_gtg st with
        | Some g => (st, Ok g)
        | None =>
            match getJ st m f with
            | (st, Err e) => (st, Err e)
            | (st, Ok J) =>
                let w := match W with None => map (fun _ => 1) J | Some W => map (fun x => x ^ 2) W end in
                let g := fold_left vadd (map (fun wr => vscale (fst wr) (vmul (snd wr) (snd wr))) (combine w J)) (vzero (f_p s)) in
                (mkSt (st_sv st) (st_model st) (st_A st) (st_J st) (Some g), Ok g)
            end
        end
    end.
End Fdem.
