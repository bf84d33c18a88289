(** Model of simpeg/electromagnetics/time_domain: simulation.py (BaseTDEMSimulation 18-632 and
    the formulations 644-2695), fields.py (8-878), receivers.py, sources.py (MagDipole
    1227-1554, CircularLoop, LineCurrent 1703-2207), and the parts of simulation.py
    (BaseTimeSimulation 440-607), fields.py and base/pde_simulation.py they use.
    The operators of the mesh, the projection matrices of the receivers, the fields of dipoles
    and the linear solver are arguments. Properties are isotropic or axis-aligned on
    tensor-product meshes, so that inner products are diagonal and linear in the property. The
    conductivity (E-B) or resistivity (H-J) comes from a mapping of the model; magnetic
    permeability is constant (57-61) and, for dipoles, that of the simulation. Sources have no
    magnetic term: s_m is Zero for all of them (1497-1514, 2185-2187). The factorisation Adcinv
    is kept until the model changes (575-632), which does not show in results. *)
From Verif Require Import Py Vec Joint.
From Coq Require Import Reals.
Local Open Scope R_scope.

(** The solution a simulation solves for; receivers name a field *)
Inductive form := FormB | FormE | FormH | FormJ.
Inductive fname := Fe | Fb | Fh | Fj | Fdb | Fdh.
(** receivers.py: number of data, and the matrices getP (time by space interpolation) for
    fields on edges and on faces at all times *)
Record receiver := mkRx { r_field : fname; r_nD : nat; r_PE : mat; r_PF : mat }.
(** sources.py: a dipole (or loop) by its field, b on faces (E-B) or h on edges (H-J), and the
    inner product with 1 / mu (E-B, 1535); a line current by its term on edges or faces
    (1796-1832) and, for a closed loop, its initial b or h (2027-2039, 2089-2104). *)
Inductive skind := Dip (p k : vec) | Line (q a : vec) (galvanic : bool).
(** waveform: has_initial_fields and eval *)
Record source := mkSrc { s_kind : skind; s_init : bool; s_wave : R -> R; s_rx : list receiver }.
Record td := mkTd {
  t_form : form; t_p : nat;        (* size of the model *)
  t_nE : nat; t_nF : nat; t_nc : nat; t_nn : nat;
  t_C : mat;                       (* edge_curl, faces by edges *)
  t_B : mat;                       (* inner product diag(B @ property): sigma on edges | rho on faces *)
  t_val : vec -> vec; t_deriv : vec -> mat;
  t_Mu : vec;                      (* MfMui | MeMu *)
  t_MfI : vec; t_MeI : vec;        (* inverses of the inner products without property *)
  t_G : mat;                       (* nodal_gradient | (diag(vol) face_divergence).T *)
  t_mmr : mx;                      (* _getAmmr, H-J (2012-2025) *)
  t_t0 : R; t_steps : list R; t_thr : R; (* t0, time_steps, dt_threshold *)
  t_solve : mx -> vec -> vec }.

Section Tdem.
  Context (s : td).
  Let nE := t_nE s. Let nF := t_nF s.
  Definition isEB : bool := match t_form s with FormB | FormE => true | _ => false end.
  (** Length of the solution, and number of locations of the mapped property *)
  Definition dim : nat := match t_form s with FormE | FormH => nE | _ => nF end.
  Definition nS : nat := if isEB then nE else nF.
  Definition curl (v : vec) : vec := mv (t_C s) v.
  Definition curlT (v : vec) : vec := mtv nE (t_C s) v.
  Definition grad (v : vec) : vec := mv (t_G s) v.
  Definition gradT (v : vec) : vec := mtv (t_nn s) (t_G s) v.
  (** pde_simulation.py 135-225: diagonals of MeSigma | MfRho and its inverse, of MfMuiI | MeMuI *)
  Definition Sg (m : vec) : vec := mv (t_B s) (t_val s m).
  Definition SI (m : vec) : vec := map Rinv (Sg m).
  Definition MuI : vec := map Rinv (t_Mu s).
  (** 16-53, 270-328, 380-410: the derivatives of MeSigma | MfRho and of the inverse times u,
      along v, and their adjoints *)
  Definition Sd (m u v : vec) : vec := vmul u (mv (t_B s) (mv (t_deriv s m) v)).
  Definition SdT (m u w : vec) : vec := mtv (t_p s) (t_deriv s m) (mtv (t_nc s) (t_B s) (vmul u w)).
  Definition SId (m u v : vec) : vec := Sd m (vmul (SI m) (vmul (SI m) (vopp u))) v.
  Definition SIdT (m u w : vec) : vec := SdT m (vmul (SI m) (vmul (SI m) (vopp u))) w.

  (** BaseTimeSimulation 509-587: number of steps, step and time of a node *)
  Definition nT : nat := length (t_steps s).
  Definition step (k : nat) : R := nth k (t_steps s) 0.
  Definition time (k : nat) : R := t_t0 s + vsum (firstn k (t_steps s)).

  (** simulation.py 771-812, 1371-1406, 1860-1895, 2332-2374; _makeASymmetric is True *)
  Definition MxC : mx := Mx nE (t_C s).
  Definition getA (dt : R) (m : vec) : mx :=
    match t_form s with
    | FormB => Mmul (MT (Mdiag (t_Mu s))) (Madd (Mscale (1 / dt) (Mdiag (vconst nF 1))) (Mmul MxC (Mmul (Mdiag (SI m)) (Mmul (MT MxC) (Mdiag (t_Mu s))))))
    | FormE => Madd (Mmul (MT MxC) (Mmul (Mdiag (t_Mu s)) MxC)) (Mscale (1 / dt) (Mdiag (Sg m)))
    | FormH => Madd (Mmul (MT MxC) (Mmul (Mdiag (Sg m)) MxC)) (Mscale (1 / dt) (Mdiag (t_Mu s)))
    | FormJ => Mmul (MT (Mdiag (Sg m))) (Madd (Mmul MxC (Mmul (Mdiag MuI) (Mmul (MT MxC) (Mdiag (Sg m))))) (Mscale (1 / dt) (Mdiag (vconst nF 1))))
    end.
  (** 814-878, 1408-1464, 1897-1951, 2376-2438 *)
  Definition getADeriv (dt : R) (m u v : vec) : vec :=
    match t_form s with
    | FormB => vmul (t_Mu s) (curl (SId m (curlT (vmul (t_Mu s) u)) v))
    | FormE => vscale (1 / dt) (Sd m u v)
    | FormH => curlT (Sd m (curl u) v)
    | FormJ => vmul (Sg m) (curl (vmul MuI (curlT (Sd m u v))))
    end.
  Definition getADerivT (dt : R) (m u w : vec) : vec :=
    match t_form s with
    | FormB => SIdT m (curlT (vmul (t_Mu s) u)) (curlT (vmul (t_Mu s) w))
    | FormE => vscale (1 / dt) (SdT m u w)
    | FormH => SdT m (curl u) (curl w)
    | FormJ => SdT m u (curl (vmul MuI (curlT (vmul (Sg m) w))))
    end.
  (** 880-959, 1466-1545, 1953-2027, 2440-2517 *)
  Definition getAsub (dt : R) (m : vec) : mx :=
    match t_form s with
    | FormB => Mmul (MT (Mdiag (t_Mu s))) (Mscale (-1 / dt) (Mdiag (vconst nF 1)))
    | FormE => Mscale (-1 / dt) (Mdiag (Sg m))
    | FormH => Mscale (-1 / dt) (Mdiag (t_Mu s))
    | FormJ => Mmul (MT (Mdiag (Sg m))) (Mscale (-1 / dt) (Mdiag (vconst nF 1)))
    end.
  Definition getAsubDeriv (dt : R) (m u v : vec) : vec :=
    match t_form s with FormE => vscale (-1 / dt) (Sd m u v) | _ => vzero dim end.
  Definition getAsubDerivT (dt : R) (m u w : vec) : vec :=
    match t_form s with FormE => vscale (-1 / dt) (SdT m u w) | _ => vzero (t_p s) end.

  (** sources.py 1516-1554, 2189-2207: the electric source term. A dipole with initial fields
      is at full strength while the time is below the second time step (1539, 1550). *)
  Definition s_vec (src : source) : vec :=
    match s_kind src with
    | Dip p k => if isEB then curlT (vmul k p) else curl p
    | Line q _ _ => q
    end.
  Definition strength (src : source) (t : R) : R :=
    match s_kind src with
    | Dip _ _ => if s_init src && (if Rlt_dec t (step 1) then true else false) then 1 else s_wave src t
    | Line _ _ _ => s_wave src t
    end.
  Definition s_e (src : source) (t : R) : vec := vscale (strength src t) (s_vec src).

  (** simulation.py 961-1000, 1547-1587, 2029-2063, 2519-2561: the right-hand side for node [k].
      FormJ takes the length of the next step, and shifts the last node by one (2549-2550);
      times[-1] is the last time. *)
  Definition getRHS (k : nat) (m : vec) (src : source) : vec :=
    match t_form s with
    | FormB => vmul (t_Mu s) (curl (vmul (SI m) (s_e src (time k))))
    | FormE => vscale (-1 / step (k - 1)) (vsub (s_e src (time k)) (s_e src (time (k - 1))))
    | FormH => curlT (vmul (Sg m) (s_e src (time k)))
    | FormJ => let k := if Nat.eqb k nT then (k - 1)%nat else k in
               let prev := if Nat.eqb k 0 then nT else (k - 1)%nat in
               vmul (Sg m) (vscale (-1 / step k) (vsub (s_e src (time k)) (s_e src (time prev))))
    end.
  (** 1002-1077, 1589-1639, 2065-2118, 2563-2610 *)
  Definition getRHSDeriv (k : nat) (m : vec) (src : source) (v : vec) : vec :=
    match t_form s with
    | FormB => vmul (t_Mu s) (curl (SId m (s_e src (time k)) v))
    | FormH => curlT (Sd m (s_e src (time k)) v)
    | _ => vzero dim
    end.
  Definition getRHSDerivT (k : nat) (m : vec) (src : source) (w : vec) : vec :=
    match t_form s with
    | FormB => SIdT m (s_e src (time k)) (curlT (vmul (t_Mu s) w))
    | FormH => SdT m (s_e src (time k)) (curl w)
    | _ => vzero (t_p s)
    end.

  (** 1641-1723, 2121-2200, 2612-2695: the DC problem for the initial fields; E-B adds one to
      the first entry *)
  Definition getAdc (m : vec) : mx :=
    let G := Mx (t_nn s) (t_G s) in
    if isEB then Madd (Mmul (MT G) (Mmul (Mdiag (Sg m)) G)) (Mdiag (1 :: vzero (t_nn s - 1)))
    else Mmul (MT G) (Mmul (Mdiag (SI m)) G).
  (** sources.py 1834-1893: potential; the derivative for H-J *)
  Definition phi (m : vec) (q : vec) : vec := t_solve s (getAdc m) (gradT q).
  Definition phi_d (m : vec) (q v : vec) : vec := vopp (t_solve s (getAdc m) (gradT (SId m (grad (phi m q)) v))).
  (** 1895-1946, 1948-2010: initial e (E-B) and j (H-J) of a line current *)
  Definition e0 (m q : vec) : vec := vopp (grad (phi m q)).
  Definition e0_d (m e v : vec) : vec := grad (t_solve s (getAdc m) (gradT (Sd m (vopp e) v))).
  Definition j0 (m q : vec) : vec := vopp (vmul (SI m) (grad (phi m q))).
  Definition j0_d (m q v : vec) : vec := vopp (vadd (SId m (grad (phi m q)) v) (vmul (SI m) (grad (phi_d m q v)))).
  (** simulation.py 489-513 and bInitial, eInitial, hInitial, jInitial of sources.py 1114-1155,
      1445-1495, 1895-2157 *)
  Definition initial (m : vec) (src : source) : vec :=
    if s_init src then
      match t_form s, s_kind src with
      | (FormB | FormH), Dip p _ => p
      | (FormE | FormJ), Dip _ _ => vzero dim
      | FormB, Line _ a _ => a
      | FormE, Line q _ _ => e0 m q
      | FormJ, Line q _ _ => j0 m q
      | FormH, Line q a g => if g then vmul MuI (curlT (t_solve s (t_mmr s) (vadd (s_e src 0) (j0 m q)))) else a
      end
    else vzero dim.
  (** 515-571; [u0] is the initial solution in the fields given to Jvec *)
  Definition initial_d (m : vec) (src : source) (u0 v : vec) : vec :=
    if s_init src then
      match t_form s, s_kind src with
      | FormE, Line _ _ _ => e0_d m u0 v
      | FormJ, Line q _ _ => j0_d m q v
      | FormH, Line q _ true => vmul MuI (curlT (t_solve s (t_mmr s) (j0_d m q v)))
      | _, _ => vzero dim
      end
    else vzero dim.

  (** 128-159: time stepping from node [k]. The factored matrix is kept if the step differs from
      the previous one by at most dt_threshold. *)
  Fixpoint march (m : vec) (src : source) (k : nat) (prev : option (R * mx)) (u : vec) (dts : list R) : list vec :=
    match dts with
    | [] => []
    | dt :: dts' =>
        let A := match prev with
                 | Some (d, A) => if Rlt_dec (t_thr s) (Rabs (dt - d)) then getA dt m else A
                 | None => getA dt m
                 end in
        let u' := t_solve s A (vsub (getRHS (S k) m src) (act false (getAsub dt m) u)) in
        u' :: march m src (S k) (Some (dt, A)) u' dts'
    end.
  Definition solution (m : vec) (src : source) : list vec :=
    let u0 := initial m src in u0 :: march m src 0 None u0 (t_steps s).
  (** A fields object: the model it was made with, whose inner products it keeps, and the
      solution of each source at all times *)
  Definition fobj := (vec * list (list vec))%type.
  (** 102-166. Grounded sources fail for FormB (sources.py 2013-2014), dipoles with initial
      fields need a second time step (1539), and without steps there is nothing to clean (165). *)
  Definition grounded (src : source) : bool := s_init src && match s_kind src with Line _ _ g => g | _ => false end.
  Definition short_dipole (src : source) : bool := s_init src && match s_kind src with Dip _ _ => (nT <? 2)%nat | _ => false end.
  Definition fields (srcs : list source) (m : vec) : result fobj :=
    if match t_form s with FormB => existsb grounded srcs | _ => false end then Err NotImplementedError
    else if Nat.eqb nT 0 then Err AttributeError
    else if existsb short_dipole srcs then Err IndexError
    else Ok (m, map (solution m) srcs).

  (** ** Fields at node [k], from the solution [u]. [mf] is the model of the fields; sources do
      not depend on the model. *)
  Definition getfield (mf : vec) (src : source) (k : nat) (x : fname) (u : vec) : vec :=
    let se := s_e src (time k) in
    match t_form s, x with
    | FormB, Fb => u
    | FormB, Fe => vsub (vmul (SI mf) (curlT (vmul (t_Mu s) u))) (vmul (SI mf) se)                               (* 246-251 *)
    | FormB, Fdb => vopp (curl (vsub (vmul (SI mf) (curlT (vmul (t_Mu s) u))) (vmul (SI mf) se)))                (* 226-232 *)
    | FormB, Fj => vmul (t_MeI s) (vmul (Sg mf) (vsub (vmul (SI mf) (curlT (vmul (t_Mu s) u))) (vmul (SI mf) se))) (* 273-276 *)
    | FormB, Fh => vmul (t_MfI s) (vmul (t_Mu s) u)                                                              (* 301-304 *)
    | FormB, Fdh => vmul (t_MfI s) (vmul (t_Mu s) (vopp (curl (vsub (vmul (SI mf) (curlT (vmul (t_Mu s) u))) (vmul (SI mf) se))))) (* 323-326 *)
    | FormE, Fe => u
    | FormE, Fdb => vopp (curl u)                                                                                (* 424-429 *)
    | FormE, Fj => vmul (t_MeI s) (vmul (Sg mf) u)                                                               (* 456-459 *)
    | FormE, Fdh => vmul (t_MfI s) (vmul (t_Mu s) (vopp (curl u)))                                               (* 484-487 *)
    | FormH, Fh => u
    | FormH, Fdh => vadd (vmul MuI (curlT (vmul (Sg mf) se))) (vopp (vmul MuI (curlT (vmul (Sg mf) (curl u)))))  (* 589-599 *)
    | FormH, Fj => vsub (curl u) se                                                                              (* 622-628 *)
    | FormH, Fb => vmul (t_MeI s) (vmul (t_Mu s) u)                                                              (* 638-640 *)
    | FormH, Fdb => vmul (t_MeI s) (vmul (t_Mu s) (vadd (vmul MuI (curlT (vmul (Sg mf) se))) (vopp (vmul MuI (curlT (vmul (Sg mf) (curl u))))))) (* 659-661 *)
    | FormH, Fe => vmul (t_MfI s) (vmul (Sg mf) (vsub (curl u) se))                                              (* 682-685 *)
    | FormJ, Fj => u
    | FormJ, Fdh => vopp (vmul MuI (curlT (vmul (Sg mf) u)))                                                     (* 800-809 *)
    | FormJ, Fe => vmul (t_MfI s) (vmul (Sg mf) u)                                                               (* 829-832 *)
    | FormJ, Fdb => vmul (t_MeI s) (vmul (t_Mu s) (vopp (vmul MuI (curlT (vmul (Sg mf) u)))))                    (* 854-856, one source *)
    | _, _ => []
    end.
  (** aliasFields (193-201, 392-400, 554-563, 764-772): true for edges *)
  Definition gloc (x : fname) : result bool :=
    match t_form s, x with
    | FormE, Fh | FormJ, (Fb | Fh) => Err KeyError
    | (FormB | FormE), (Fe | Fj) => Ok true
    | (FormB | FormE), _ => Ok false
    | (FormH | FormJ), (Fe | Fj) => Ok false
    | (FormH | FormJ), _ => Ok true
    end.
  (** The field b of FormE (442-448); derivatives of fields that a class does not define *)
  Definition no_field (x : fname) : option exn :=
    match gloc x with Err e => Some e | Ok _ => match t_form s, x with FormE, Fb => Some NotImplementedError | _, _ => None end end.
  Definition no_deriv (x : fname) : option exn := match no_field x with Some _ => Some AttributeError | None => None end.
  Definition on_edges (x : fname) : bool := match gloc x with Ok b => b | Err _ => false end.
  Definition rxP (r : receiver) : mat := if on_edges (r_field r) then r_PE r else r_PF r.
  Definition locs (x : fname) : nat := if on_edges x then nE else nF.

  (** _xDeriv_u: 220-221, 234-237, 253-256, 278-288, 306-314, 328-338, 418-419, 431-434, 461-471,
      489-499, 583-584, 601-608, 630-633, 642-650, 663-673, 687-695, 789-790, 811-818, 834-837,
      858-869 *)
  Definition field_du (mf : vec) (x : fname) (z : vec) : vec :=
    match t_form s, x with
    | FormB, Fb => z
    | FormB, Fe => vmul (SI mf) (curlT (vmul (t_Mu s) z))
    | FormB, Fdb => vopp (curl (vmul (SI mf) (curlT (vmul (t_Mu s) z))))
    | FormB, Fj => vmul (t_MeI s) (vmul (Sg mf) (vmul (SI mf) (curlT (vmul (t_Mu s) z))))
    | FormB, Fh => vmul (t_MfI s) (vmul (t_Mu s) z)
    | FormB, Fdh => vmul (t_MfI s) (vmul (t_Mu s) (vopp (curl (vmul (SI mf) (curlT (vmul (t_Mu s) z))))))
    | FormE, Fe => z
    | FormE, Fdb => vopp (curl z)
    | FormE, Fj => vmul (t_MeI s) (vmul (Sg mf) z)
    | FormE, Fdh => vmul (t_MfI s) (vmul (t_Mu s) (vopp (curl z)))
    | FormH, Fh => z
    | FormH, Fdh => vopp (vmul MuI (curlT (vmul (Sg mf) (curl z))))
    | FormH, Fj => curl z
    | FormH, Fb => vmul (t_MeI s) (vmul (t_Mu s) z)
    | FormH, Fdb => vmul (t_MeI s) (vmul (t_Mu s) (vopp (vmul MuI (curlT (vmul (Sg mf) (curl z))))))
    | FormH, Fe => vmul (t_MfI s) (vmul (Sg mf) (curl z))
    | FormJ, Fj => z
    | FormJ, Fdh => vopp (vmul MuI (curlT (vmul (Sg mf) z)))
    | FormJ, Fe => vmul (t_MfI s) (vmul (Sg mf) z)
    | FormJ, Fdb => vmul (t_MeI s) (vmul (t_Mu s) (vopp (vmul MuI (curlT (vmul (Sg mf) z)))))
    | _, _ => []
    end.
  Definition field_duT (mf : vec) (x : fname) (w : vec) : vec :=
    match t_form s, x with
    | FormB, Fb => w
    | FormB, Fe => vmul (t_Mu s) (curl (vmul (SI mf) w))
    | FormB, Fdb => vopp (vmul (t_Mu s) (curl (vmul (SI mf) (curlT w))))
    | FormB, Fj => vmul (t_Mu s) (curl (vmul (SI mf) (vmul (Sg mf) (vmul (t_MeI s) w))))
    | FormB, Fh => vmul (t_Mu s) (vmul (t_MfI s) w)
    | FormB, Fdh => vopp (vmul (t_Mu s) (curl (vmul (SI mf) (curlT (vmul (t_Mu s) (vmul (t_MfI s) w))))))
    | FormE, Fe => w
    | FormE, Fdb => vopp (curlT w)
    | FormE, Fj => vmul (Sg mf) (vmul (t_MeI s) w)
    | FormE, Fdh => vopp (curlT (vmul (t_Mu s) (vmul (t_MfI s) w)))
    | FormH, Fh => w
    | FormH, Fdh => vopp (curlT (vmul (Sg mf) (curl (vmul MuI w))))
    | FormH, Fj => curlT w
    | FormH, Fb => vmul (t_Mu s) (vmul (t_MeI s) w)
    | FormH, Fdb => vopp (curlT (vmul (Sg mf) (curl (vmul MuI (vmul (t_Mu s) (vmul (t_MeI s) w))))))
    | FormH, Fe => curlT (vmul (Sg mf) (vmul (t_MfI s) w))
    | FormJ, Fj => w
    | FormJ, Fdh => vopp (vmul (Sg mf) (curl (vmul MuI w)))
    | FormJ, Fe => vmul (Sg mf) (vmul (t_MfI s) w)
    | FormJ, Fdb => vopp (vmul (Sg mf) (curl (vmul MuI (vmul (t_Mu s) (vmul (t_MeI s) w)))))
    | _, _ => []
    end.
  (** _xDeriv_m: 223-224, 239-244, 258-271, 290-299, 316-321, 340-345, 421-422, 436-440, 473-482,
      501-506, 586-587, 610-620, 635-636, 652-657, 675-680, 697-705, 792-793, 820-827, 839-843,
      871-878. [m] is the current model, which the derivatives of the inner products use. *)
  Definition eB_dm (mf m : vec) (src : source) (k : nat) (u v : vec) : vec :=
    SId m (vadd (vopp (s_e src (time k))) (curlT (vmul (t_Mu s) u))) v.
  Definition eB_dmT (mf m : vec) (src : source) (k : nat) (u w : vec) : vec :=
    SIdT m (vadd (vopp (s_e src (time k))) (curlT (vmul (t_Mu s) u))) w.
  Definition field_dm (mf m : vec) (src : source) (k : nat) (x : fname) (u v : vec) : vec :=
    let se := s_e src (time k) in
    match t_form s, x with
    | FormB, Fb | FormB, Fh => vzero nF
    | FormB, Fe => eB_dm mf m src k u v
    | FormB, Fdb => vopp (curl (eB_dm mf m src k u v))
    | FormB, Fj => vmul (t_MeI s) (vadd (Sd m (getfield mf src k Fe u) v) (vmul (Sg mf) (eB_dm mf m src k u v)))
    | FormB, Fdh => vmul (t_MfI s) (vmul (t_Mu s) (vopp (curl (eB_dm mf m src k u v))))
    | FormE, Fe => vzero nE
    | FormE, Fdb | FormE, Fdh => vzero nF
    | FormE, Fj => vmul (t_MeI s) (Sd m u v)
    | FormH, Fh | FormH, Fb => vzero nE
    | FormH, Fj => vzero nF
    | FormH, Fdh => vopp (vmul MuI (curlT (Sd m (vsub (curl u) se) v)))
    | FormH, Fdb => vmul (t_MeI s) (vmul (t_Mu s) (vopp (vmul MuI (curlT (Sd m (vsub (curl u) se) v)))))
    | FormH, Fe => vmul (t_MfI s) (Sd m (getfield mf src k Fj u) v)
    | FormJ, Fj => vzero nF
    | FormJ, Fdh => vopp (vmul MuI (curlT (Sd m u v)))
    | FormJ, Fe => vmul (t_MfI s) (Sd m u v)
    | FormJ, Fdb => vmul (t_MeI s) (vmul (t_Mu s) (vopp (vmul MuI (curlT (Sd m u v)))))
    | _, _ => []
    end.
  Definition field_dmT (mf m : vec) (src : source) (k : nat) (x : fname) (u w : vec) : vec :=
    let se := s_e src (time k) in
    match t_form s, x with
    | FormB, Fe => eB_dmT mf m src k u w
    | FormB, Fdb => vopp (eB_dmT mf m src k u (curlT w))
    | FormB, Fj => vadd (SdT m (getfield mf src k Fe u) (vmul (t_MeI s) w)) (eB_dmT mf m src k u (vmul (Sg mf) (vmul (t_MeI s) w)))
    | FormB, Fdh => vopp (eB_dmT mf m src k u (curlT (vmul (t_Mu s) (vmul (t_MfI s) w))))
    | FormE, Fj => SdT m u (vmul (t_MeI s) w)
    | FormH, Fdh => vopp (SdT m (vsub (curl u) se) (curl (vmul MuI w)))
    | FormH, Fdb => vopp (SdT m (vsub (curl u) se) (curl (vmul MuI (vmul (t_Mu s) (vmul (t_MeI s) w)))))
    | FormH, Fe => SdT m (getfield mf src k Fj u) (vmul (t_MfI s) w)
    | FormJ, Fdh => vopp (SdT m u (curl (vmul MuI w)))
    | FormJ, Fe => SdT m u (vmul (t_MfI s) w)
    | FormJ, Fdb => vopp (SdT m u (curl (vmul MuI (vmul (t_Mu s) (vmul (t_MeI s) w)))))
    | _, _ => vzero (t_p s)
    end.

  (** Lists over the time nodes *)
  Fixpoint over {A} (f : nat -> vec -> A) (k : nat) (us : list vec) : list A :=
    match us with [] => [] | u :: us' => f k u :: over f (S k) us' end.
  Fixpoint over2 {A} (f : nat -> vec -> vec -> A) (k : nat) (us ws : list vec) : list A :=
    match us, ws with u :: us', w :: ws' => f k u w :: over2 f (S k) us' ws' | _, _ => [] end.

  (** receivers.py: eval; simulation.py (top level) 589-607: dpred *)
  Definition rx_eval (mf : vec) (src : source) (us : list vec) (r : receiver) : result vec :=
    match no_field (r_field r) with
    | Some e => Err e
    | None => Ok (mv (rxP r) (concat (over (fun k u => getfield mf src k (r_field r) u) 0 us)))
    end.
  Fixpoint each_source {A} (f : source -> list vec -> result A) (srcs : list source) (uss : list (list vec)) : result (list A) :=
    match srcs, uss with
    | src :: srcs', us :: uss' => do x <- f src us; do r <- each_source f srcs' uss'; Ok (x :: r)
    | _, _ => Ok []
    end.
  Definition given (srcs : list source) (m : vec) (f : option fobj) : result fobj :=
    match f with Some f => Ok f | None => fields srcs m end.
  Definition dpred (srcs : list source) (m : vec) (f : option fobj) : result vec :=
    do f <- given srcs m f;
    do d <- each_source (fun src us => do l <- mapM (rx_eval (fst f) src us) (s_rx src); Ok (concat l)) srcs (snd f);
    Ok (concat d).

  (** 227-267: the derivative of the solution, from node [k]. The factored matrix is renewed when
      the step changes. *)
  Fixpoint sens (m v : vec) (src : source) (k : nat) (prev : option (R * mx)) (us : list vec) (du : vec) (dts : list R) : list vec :=
    match dts, us with
    | dt :: dts', u :: us' =>
        let A := match prev with Some (d, A) => if Req_EM_T dt d then A else getA dt m | None => getA dt m end in
        let jrhs := vsub (vsub (getRHSDeriv (S k) m src v) (getAsubDeriv dt m u v)) (getADeriv dt m (hd [] us') v) in
        let du' := t_solve s A (vsub jrhs (act false (getAsub dt m) du)) in
        du' :: sens m v src (S k) (Some (dt, A)) us' du' dts'
    | _, _ => []
    end.
  Definition dsolution (m v : vec) (src : source) (us : list vec) : list vec :=
    let du := initial_d m src (hd [] us) v in du :: sens m v src 0 None us du (t_steps s).
  (** 242-252: the derivative of a field is stored for the nodes before the last one; the values
      for the last one stay zero *)
  Definition dfield (mf m v : vec) (src : source) (us dus : list vec) (x : fname) : list vec :=
    over2 (fun k u du => vadd (field_du mf x du) (field_dm mf m src k x u v)) 0 (firstn nT us) (firstn nT dus) ++ [vzero (locs x)].
  Definition rx_deriv (mf m v : vec) (src : source) (us : list vec) (r : receiver) : result vec :=
    match no_deriv (r_field r) with
    | Some e => Err e
    | None => Ok (mv (rxP r) (concat (dfield mf m v src us (dsolution m v src us) (r_field r))))
    end.
  (** 168-284 *)
  Definition Jvec (srcs : list source) (m v : vec) (f : option fobj) : result vec :=
    do f <- given srcs m f;
    do d <- each_source (fun src us => do l <- mapM (rx_deriv (fst f) m v src us) (s_rx src); Ok (concat l)) srcs (snd f);
    Ok (concat d).

  (** 341-373: right-hand sides of the adjoint problem at all nodes, and the direct dependence on
      the model *)
  Fixpoint rx_adjoint (mf m : vec) (src : source) (us : list vec) (rs : list receiver) (w : vec) : result (list vec * vec) :=
    match rs with
    | [] => Ok (repeat (vzero dim) (S nT), vzero (t_p s))
    | r :: rs' =>
        match gloc (r_field r), no_deriv (r_field r) with
        | Err e, _ => Err e
        | _, Some e => Err e
        | _, None =>
            do x <- rx_adjoint mf m src us rs' (skipn (r_nD r) w);
            let n := locs (r_field r) in
            let ys := chunks n (S nT) (mtv (S nT * n) (rxP r) (firstn (r_nD r) w)) in
            Ok (zip2 vadd (fst x) (map (field_duT mf (r_field r)) ys),
                fold_left vadd (over2 (fun k u y => field_dmT mf m src k (r_field r) u y) 0 us ys) (snd x))
        end
    end.
  (** 383-434: backwards in time; [ds] are the right-hand sides after node [k]. Returns the last
      adjoint solution with the step and the matrix it was solved with, and the sum. *)
  Fixpoint back (m : vec) (src : source) (k : nat) (us ds : list vec) (dts : list R) : option (vec * R * mx) * vec :=
    match dts, us, ds with
    | dt :: dts', u :: us', d :: ds' =>
        let '(nx, acc) := back m src (S k) us' ds' dts' in
        let A := match nx with Some (_, d', A) => if Req_EM_T dt d' then A else getA dt m | None => getA dt m end in
        let b := match nx with Some (z, d', _) => vsub d (act true (getAsub d' m) z) | None => d end in
        let z := t_solve s (MT A) b in
        (Some (z, dt, A),
         vadd acc (vadd (vsub (vopp (getADerivT dt m (hd [] us') z)) (getAsubDerivT dt m u z)) (getRHSDerivT (S k) m src z)))
    | _, _, _ => (None, vzero (t_p s))
    end.
  (** 1332-1363: FormE treats the initial condition of grounded sources, with the matrix left over
      from the loop: that of the second step (1293); with one step it is unbound *)
  Definition adjoint0 (m : vec) (src : source) (u0 d0 : vec) (z : option (vec * R * mx)) : result vec :=
    match t_form s, s_kind src with
    | FormE, Line _ _ true =>
        if (nT <? 2)%nat then Err GenericException
        else match z with
             | Some (z, _, _) => Ok (vopp (SdT m u0 (grad (t_solve s (getAdc m) (gradT (vsub d0 (act true (getAsub (step 1) m) z)))))))
             | None => Err GenericException
             end
    | _, _ => Ok (vzero (t_p s))
    end.
  Definition src_adjoint (mf m : vec) (src : source) (us : list vec) (w : vec) : result vec :=
    do x <- rx_adjoint mf m src us (s_rx src) w;
    let '(z, acc) := back m src 0 us (tl (fst x)) (t_steps s) in
    do a <- adjoint0 m src (hd [] us) (hd [] (fst x)) z;
    Ok (vadd (snd x) (vadd acc a)).
  Definition src_nD (src : source) : nat := list_sum (map r_nD (s_rx src)).
  Fixpoint all_adjoint (mf m : vec) (srcs : list source) (uss : list (list vec)) (w : vec) : result vec :=
    match srcs, uss with
    | src :: srcs', us :: uss' =>
        do a <- src_adjoint mf m src us (firstn (src_nD src) w);
        do b <- all_adjoint mf m srcs' uss' (skipn (src_nD src) w);
        Ok (vadd a b)
    | _, _ => Ok (vzero (t_p s))
    end.
  (** 286-442, 1209-1369 *)
  Definition Jtvec (srcs : list source) (m w : vec) (f : option fobj) : result vec :=
    do f <- given srcs m f; all_adjoint (fst f) m srcs (snd f) w.
End Tdem.
