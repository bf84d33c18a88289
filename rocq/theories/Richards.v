(** Model of simpeg/flow/richards/simulation.py (SimulationNDCellCentered 23-436),
    receivers.py (7-100) and survey.py (8-91): implicit time stepping of Richards' equation,
    its data, and the products with the sensitivity matrix.
    The operators of the mesh (discretize), the projections of the receivers (BaseTimeRx.getP)
    and the linear solver are arguments. Lengths are assumed to fit. *)
From Verif Require Import Py Vec Joint Gncg.
Local Open Scope R_scope.

(** empirical.py 20-85: a relation of the model and the head; its derivatives with respect to
    the head (a diagonal) and to the model (None: utils.Zero); needs_model. *)
Record relation := mkRel {
  r_call : vec -> vec -> vec; r_dU : vec -> vec -> vec; r_dM : vec -> vec -> option mat; r_needs : bool }.
(** receivers.py: Pressure (7-49) or Saturation (52-100) with the projection matrix P = getP(...). *)
Inductive rkind := Pressure | Saturation.
Record receiver := mkRx { x_kind : rkind; x_P : mat }.
(** simulation.py 239-279, 317-329: [g_n] cells, [g_nf] faces; face_divergence, cell_gradient,
    cell_gradient_BC, aveF2CC.T and Dz. *)
Record grid := mkGrid { g_n : nat; g_nf : nat; DIV : mat; GRAD : mat; BCm : mat; AV : mat; Dz : mat }.
Inductive method := Mixed | Head.
Record sim := mkSim {
  q_grid : grid; q_theta : relation; q_k : relation; q_bc : vec; q_init : vec; q_steps : list R;
  q_method : method; q_newton : bool; q_tol : R; q_maxIter : nat;
  q_solve : mx -> vec -> vec;            (* self.solver(A) * b *)
  q_rx : list receiver }.

Definition sq (x : R) : R := x ^ 2.
(** A derivative with respect to a model of [p] entries, utils.Zero acting as a matrix of zeros. *)
Definition zmx (p k : nat) (d : option mat) : mx := match d with Some M => Mx p M | None => Mx p (repeat (vzero p) k) end.
(** 337: [1.0 / (AV * (1.0 / K))] *)
Definition face_k (g : grid) (K : vec) : vec := map Rinv (mv (AV g) (map Rinv K)).
(** 339, the total head gradient [GRAD * h + BC * bc] *)
Definition dhead (g : grid) (h bc : vec) : vec := vadd (mv (GRAD g) h) (mv (BCm g) bc).

Section Sim.
  Context (s : sim).
  Let g := q_grid s.
  Let n := g_n g.
  (** 325-343: the residual *)
  Definition rhs (x h : vec) : vec :=
    let a := face_k g (r_call (q_k s) x h) in
    vadd (mv (DIV g) (vmul a (dhead g h (q_bc s)))) (mv (Dz g) a).
  Definition residual (x hn h : vec) (dt : R) : vec :=
    match q_method s with
    | Mixed => vsub (vscale (/ dt) (vsub (r_call (q_theta s) x h) (r_call (q_theta s) x hn))) (rhs x h)
    | Head => vsub (vscale (/ dt) (vmul (r_dU (q_theta s) x h) (vsub h hn))) (rhs x h)
    end.
  (** 348-351: the matrix returned with the residual *)
  Definition step_matrix (x h : vec) (dt : R) : mx :=
    let K := r_call (q_k s) x h in
    let a := face_k g K in
    let J := Msub (Mscale (/ dt) (Mdiag (r_dU (q_theta s) x h))) (Mmul (Mx (g_nf g) (DIV g)) (Mmul (Mdiag a) (Mx n (GRAD g)))) in
    if q_newton s then
      let DD := Mmul (Mdiag (map sq a)) (Mmul (Mx n (AV g)) (Mmul (Mdiag (map (fun k => / sq k) K)) (Mdiag (r_dU (q_k s) x h)))) in
      Msub (Msub J (Mmul (Mx (g_nf g) (DIV g)) (Mmul (Mdiag (dhead g h (q_bc s))) DD))) (Mmul (Mx (g_nf g) (Dz g)) DD)
    else J.
  (** 257-314: diagsJacobian *)
  Definition harm (K : vec) : mx :=
    Mmul (Mdiag (map (fun y => / sq y) (mv (AV g) (map Rinv K)))) (Mmul (Mx n (AV g)) (Mdiag (map (fun k => / sq k) K))).
  Definition Asub (x hn : vec) (dt : R) : mx := Mscale (-1 / dt) (Mdiag (r_dU (q_theta s) x hn)).
  Definition Adiag (x h : vec) (dt : R) : mx :=
    let K := r_call (q_k s) x h in
    let dK := Mdiag (r_dU (q_k s) x h) in
    let DG := Mmul (Mx (g_nf g) (DIV g)) (Mdiag (dhead g h (q_bc s))) in
    Msub (Msub (Msub (Mscale (1 / dt) (Mdiag (r_dU (q_theta s) x h))) (Mmul DG (Mmul (harm K) dK)))
               (Mmul (Mx (g_nf g) (DIV g)) (Mmul (Mdiag (face_k g K)) (Mx n (GRAD g)))))
         (Mmul (Mx (g_nf g) (Dz g)) (Mmul (harm K) dK)).
  Definition Bmat (x hn h : vec) (dt : R) : mx :=
    let p := length x in
    let K := r_call (q_k s) x h in
    let dKm := zmx p n (r_dM (q_k s) x h) in
    let DG := Mmul (Mx (g_nf g) (DIV g)) (Mdiag (dhead g h (q_bc s))) in
    Madd (Madd (Mmul DG (Mmul (harm K) dKm)) (Mmul (Mx (g_nf g) (Dz g)) (Mmul (harm K) dKm)))
         (Mscale (1 / dt) (Msub (zmx p n (r_dM (q_theta s) x hn)) (zmx p n (r_dM (q_theta s) x h)))).

  (** 173-183: the root finder (optimization.py, NewtonRoot) of one time step *)
  Definition nropt : nropts := mkNr (q_tol s) (q_maxIter s) (/ 2) 30 (q_newton s).
  Definition newton_step (x hn : vec) (dt : R) (h : vec) : vec := vopp (q_solve s (step_matrix x h dt) (residual x hn h dt)).
  Definition step_root (x hn : vec) (dt : R) : option vec :=
    match nr_root (fun h => residual x hn h dt) (newton_step x hn dt) nropt hn with
    | Some (_, Converged h) | Some (_, IterLimit h) => Some h
    | _ => None (* root returns None *)
    end.
  (** 192-214: a step that starts from None fails in the relations (TypeError). *)
  Fixpoint steps (x : vec) (u : option vec) (dts : list R) : result (list (option vec)) :=
    match dts with
    | [] => Ok []
    | dt :: dts =>
        match u with
        | None => Err TypeError
        | Some hn => let u' := step_root x hn dt in do r <- steps x u' dts; Ok (u' :: r)
        end
    end.
  Definition needs_model : bool := r_needs (q_theta s) || r_needs (q_k s).
  Definition arg_model (m : option vec) : vec := match m with Some x => x | None => [] end.
  Definition fields_of (m : option vec) : result (list (option vec)) :=
    if Bool.eqb needs_model (match m with Some _ => true | None => false end) then
      do r <- steps (arg_model m) (Some (q_init s)) (q_steps s); Ok (Some (q_init s) :: r)
    else Err AssertionError.

  (** receivers.py 10-17, 55-59: P applied to the heads or water contents of all times *)
  Definition rx_call (x : vec) (fs : list vec) (r : receiver) : vec :=
    match x_kind r with
    | Pressure => mv (x_P r) (concat fs)
    | Saturation => mv (x_P r) (concat (map (r_call (q_theta s) x) fs))
    end.
  (** 234-237 *)
  Definition data_of (x : vec) (fs : list vec) : vec := concat (map (rx_call x fs) (q_rx s)).
  (** receivers.py 82-88: sp.block_diag of the derivU, sp.vstack of the derivM *)
  Definition sat_du (x : vec) (fs : list vec) : mx := Mdiag (concat (map (r_dU (q_theta s) x) fs)).
  Definition sat_dm (x : vec) (fs : list vec) : option mx :=
    if r_needs (q_theta s) then
      Some (Mx (length x) (concat (map (fun u => match r_dM (q_theta s) x u with Some M => M | None => [] end) fs)))
    else None.
  (** receivers.py 45-46, 90-94 *)
  Definition rx_deriv (x : vec) (fs : list vec) (du v : vec) (r : receiver) : vec :=
    match x_kind r with
    | Pressure => mv (x_P r) du
    | Saturation =>
        let d := mv (x_P r) (act false (sat_du x fs) du) in
        match sat_dm x fs with Some M => vadd d (mv (x_P r) (act false M v)) | None => d end
    end.
  (** receivers.py 47-49, 96-100; survey.py 83-91 slices the data; None: utils.Zero *)
  Definition rx_adjoint (x : vec) (fs : list vec) (N : nat) (w : vec) (r : receiver) : vec * option vec :=
    let Pw := mtv N (x_P r) w in
    match x_kind r with
    | Pressure => (Pw, None)
    | Saturation => (act true (sat_du x fs) Pw, option_map (fun M => act true M Pw) (sat_dm x fs))
    end.
  Definition zplus (a b : option vec) : option vec :=
    match a, b with Some a, Some b => Some (vadd a b) | Some a, None => Some a | None, b => b end.
  Fixpoint survey_adjoint (x : vec) (fs : list vec) (N : nat) (w : vec) (rs : list receiver) : vec * option vec :=
    match rs with
    | [] => (vzero N, None)
    | r :: rs =>
        let d := length (x_P r) in
        let '(du, dm) := rx_adjoint x fs N (firstn d w) r in
        let '(du', dm') := survey_adjoint x fs N (skipn d w) rs in
        (vadd du du', zplus dm dm')
    end.

  (** 394-408: forward substitution; [prev] is JvC[ii - 1] (None for the first step) *)
  Fixpoint forward (x v : vec) (prev : option vec) (fs : list vec) (dts : list R) : list vec :=
    match fs, dts with
    | hn :: ((h :: _) as fs'), dt :: dts' =>
        let b := act false (Bmat x hn h dt) v in
        let b := match prev with None => b | Some p => vsub b (act false (Asub x hn dt) p) end in
        let j := q_solve s (Adiag x h dt) b in
        j :: forward x v (Some j) fs' dts'
    | _, _ => []
    end.
  (** 421-436: backward substitution, from the last step to the first, over the parts [ps] of
      the receivers' vector; returns [minus] and [BJtv]. *)
  Fixpoint backward (x : vec) (fs : list vec) (dts : list R) (ps : list vec) : vec * vec :=
    match fs, dts, ps with
    | hn :: ((h :: _) as fs'), dt :: dts', p :: ps' =>
        let '(minus, acc) := backward x fs' dts' ps' in
        let z := q_solve s (MT (Adiag x h dt)) (vsub p minus) in
        (act true (Asub x hn dt) z, vadd acc (act true (Bmat x hn h dt) z))
    | _, _, _ => (vzero n, vzero (length x))
    end.
  (** [PTv[ii * nC : (ii + 1) * nC]] *)
  Fixpoint parts (k : nat) (w : vec) : list vec :=
    match k with O => [] | S k' => firstn n w :: parts k' (skipn n w) end.

  (** The model stored in the simulation; the calls return it as well. *)
  Definition assigned (st : option vec) (m : option vec) : option vec := match m with Some x => Some x | None => st end.
  Definition all_some (l : list (option vec)) : option (list vec) :=
    fold_right (fun o r => match o, r with Some h, Some t => Some (h :: t) | _, _ => None end) (Some []) l.
  (** 185-214; the model is stored by getResidual (322-323), so by the first step. *)
  Definition fields (st : option vec) (m : option vec) : option vec * result (list (option vec)) :=
    let r := fields_of m in
    (match r with Err AssertionError => st | _ => match q_steps s with [] => st | _ => assigned st m end end, r).
  (** props.py 125-161: a mapped parameter cannot be read without a model *)
  Definition unread (needs : bool) (st : option vec) : bool := needs && match st with None => true | Some _ => false end.
  Definition rx_unread (st : option vec) : bool :=
    unread (r_needs (q_theta s)) st && existsb (fun r => match x_kind r with Saturation => true | Pressure => false end) (q_rx s).
  (** A missing last head makes np.concatenate fail. *)
  Definition given (st : option vec) (m : option vec) (f : option (list vec)) : option vec * result (list vec) :=
    match f with
    | Some fs => (st, Ok fs)
    | None => let '(st, r) := fields st m in
              (st, do l <- r; match all_some l with Some fs => Ok fs | None => Err ValueError end)
    end.
  (** 216-237 *)
  Definition dpred (st : option vec) (m : option vec) (f : option (list vec)) : option vec * result vec :=
    let '(st, r) := given st m f in
    (st, do fs <- r; if rx_unread st then Err AttributeError else Ok (data_of (arg_model st) fs)).
  (** 389-412 *)
  Definition jvec (st : option vec) (m : option vec) (v : vec) (f : option (list vec)) : option vec * result vec :=
    let '(st, r) := given st m f in
    match r with
    | Err e => (st, Err e)
    | Ok fs =>
        match fs with
        | _ :: _ :: _ =>
            let st := assigned st m in let x := arg_model st in
            if unread needs_model st then (st, Err AttributeError) else
            let du := concat (vzero n :: forward x v None fs (q_steps s)) in
            (st, Ok (concat (map (rx_deriv x fs du v) (q_rx s))))
        | _ => (st, Err IndexError)
        end
    end.
  (** 414-436: without fields [self.field] fails; the receivers are used (419) before the
      model is stored by diagsJacobian (272-273). *)
  Definition jtvec (st : option vec) (m : option vec) (w : vec) (f : option (list vec)) : option vec * result vec :=
    match f with
    | None => (st, Err AttributeError)
    | Some fs =>
        if rx_unread st then (st, Err AttributeError) else
        let '(PTv, PTdv) := survey_adjoint (arg_model st) fs (length fs * n) w (q_rx s) in
        let st := match fs with _ :: _ :: _ => assigned st m | _ => st end in
        if unread needs_model st then (st, Err AttributeError) else
        let '(_, acc) := backward (arg_model st) fs (q_steps s) (tl (parts (length fs) PTv)) in
        (st, Ok (match PTdv with Some d => vadd acc d | None => acc end))
    end.
  (** 361-373: the blocks of the big system, with the columns of B combined by [v] *)
  Fixpoint block_rows (x v : vec) (fs : list vec) (dts : list R) : list (mx * mx * vec) :=
    match fs, dts with
    | hn :: ((h :: _) as fs'), dt :: dts' => (Asub x hn dt, Adiag x h dt, act false (Bmat x hn h dt) v) :: block_rows x v fs' dts'
    | _, _ => []
    end.
  (** 355-387: Jfull times [v]; [solve_all] is the solver of the big system, which the code
      applies to all columns of B. *)
  Definition jfull (solve_all : list (mx * mx) -> list vec -> list vec) (st : option vec) (m : option vec) (v : vec) (f : option (list vec)) : option vec * result vec :=
    let '(st, r) := given st m f in
    match r with
    | Err e => (st, Err e)
    | Ok fs =>
        match fs with
        | _ :: _ :: _ =>
            let st := assigned st m in let x := arg_model st in
            if unread needs_model st then (st, Err AttributeError) else
            let rows := block_rows x v fs (q_steps s) in
            let du := concat (vzero n :: solve_all (map fst rows) (map snd rows)) in
            (st, Ok (concat (map (rx_deriv x fs du v) (q_rx s))))
        | _ => (st, Err IndexError)
        end
    end.
End Sim.
(** [(As + Ad)] applied to the parts of a long vector: the sub-diagonal blocks are Asubs[1:]. *)
Fixpoint block_act (prev : option vec) (rows : list (mx * mx)) (ys : list vec) : list vec :=
  match rows, ys with
  | (As, Ad) :: rows, y :: ys =>
      (match prev with None => act false Ad y | Some p => vadd (act false As p) (act false Ad y) end) :: block_act (Some y) rows ys
  | _, _ => []
  end.
