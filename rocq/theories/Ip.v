(** Model of simpeg/electromagnetics/static/induced_polarization/simulation.py (BaseIPSimulation
    15-139 with the three-dimensional simulations 154-163), on top of the DC simulations of
    Dc.v. [ip_base] supplies the mesh operators, the solver and the survey; its property
    mapping is not used. The fields are those of the background property, sigma (nodal) or rho
    (cell centred). The two-dimensional simulations (142-151) and eta without a mapping are not
    modelled. *)
From Verif Require Import Py Vec Joint Dc.
From Coq Require Import Reals.
Local Open Scope R_scope.

(** [ip_deta] is etaDeriv, a matrix of as many rows as the property has values;
    [ip_charge] tells the receivers of data_type "apparent_chargeability". *)
Record ip := mkIp { ip_base : dc; ip_p : nat; ip_deta : vec -> mat; ip_charge : receiver -> bool }.

(** The DC simulation with the property [prop] *)
Definition background (b : dc) (prop : vec) : dc :=
  mkDc (d_form b) (d_neumann b) (d_p b) (d_n b) (d_nf b) (d_D b) (d_G b) (d_nc b) (d_M b) (d_bc b) (fun _ => prop) (d_dprop b)
    (d_solve b) (d_interp b) (d_closest b) (d_storeJ b) (d_mini b).
(** 36-42: sigmaDeriv and rhoDeriv *)
Definition deta_scaled (form : formulation) (prop : vec) (E : mat) : mat :=
  map (fun ce => vscale (match form with Nodal => - fst ce | Cell => fst ce end) (snd ce)) (combine prop E).
(** The DC simulation the IP simulation inherits from, with the property [prop] and with the
    matrix of the property [fact] factored in self.Ainv *)
Definition inherited (s : ip) (prop fact : vec) : dc :=
  let b := ip_base s in
  mkDc (d_form b) (d_neumann b) (ip_p s) (d_n b) (d_nf b) (d_D b) (d_G b) (d_nc b) (d_M b) (d_bc b) (fun _ => prop)
    (fun m => deta_scaled (d_form b) prop (ip_deta s m)) (fun _ => d_solve b (getA (background b fact) []))
    (d_interp b) (d_closest b) (d_storeJ b) (d_mini b).

(** The simulation object: survey, property, the property factored last, _q, the model,
    _Jmatrix, _gtgdiag, _f, _pred and the cached _scale *)
Record istate := mkIst { t_srcs : list source; t_prop : vec; t_A : option vec; t_q : option (list vec); t_model : option vec;
  t_J : option mat; t_gtg : option vec; t_f : option dfields; t_pred : option vec; t_scale : option vec }.
(** 65-87 without Ainv and _f *)
Definition iinit (srcs : list source) (prop : vec) : istate := mkIst srcs prop None None None None None None None None.

Section Ip.
  Context (s : ip).
  Definition view (st : istate) : dc := inherited s (t_prop st) (match t_A st with Some a => a | None => [] end).
  (** what the DC methods see of the object *)
  Definition dcst (st : istate) : state :=
    mkSt (t_srcs st) (t_model st) (match t_A st with Some _ => Some [] | None => None end) (t_q st) (t_J st) (t_gtg st).
  (** assigning sigma or rho: the setters of props.py clear the mass matrices only *)
  Definition set_prop (st : istate) (prop : vec) : istate :=
    mkIst (t_srcs st) prop (t_A st) (t_q st) (t_model st) (t_J st) (t_gtg st) (t_f st) (t_pred st) (t_scale st).
  (** 136-139: nothing is deleted when the model changes *)
  Definition iset_model (st : istate) (m : vec) : istate * result unit :=
    if Nat.eqb (length m) (ip_p s) then
      (mkIst (t_srcs st) (t_prop st) (t_A st) (t_q st) (Some m) (t_J st) (t_gtg st) (t_f st) (t_pred st) (t_scale st), Ok tt)
    else (st, Err ValueError).
  Definition iused (st : istate) : list source := used (ip_base s) (dcst st).
  (** resistivity/simulation.py 100-113 with m = None, and 265-289 *)
  Definition dc_fields (st : istate) : istate * result dfields :=
    let q := match t_q st with Some q => q | None => map (src_eval (ip_base s)) (iused st) end in
    let st := mkIst (t_srcs st) (t_prop st) (Some (t_prop st)) (Some q) (t_model st) (t_J st) (t_gtg st) (t_f st) (t_pred st) (t_scale st) in
    if Nat.eqb (length q) (length (iused st))
    then (st, Ok (combine (map s_id (iused st)) (map (d_solve (ip_base s) (getA (background (ip_base s) (t_prop st)) [])) q)))
    else (st, Err ValueError).
  (** 48-50, 92-94 *)
  Definition dc_fields_once (st : istate) : istate * result dfields :=
    match t_f st with
    | Some f => (st, Ok f)
    | None =>
        match dc_fields st with
        | (st, Err e) => (st, Err e)
        | (st, Ok f) => (mkIst (t_srcs st) (t_prop st) (t_A st) (t_q st) (t_model st) (t_J st) (t_gtg st) (Some f) (t_pred st) (t_scale st), Ok f)
        end
    end.
  (** 55-60, for the sources of self.survey *)
  Definition scale_rx (f : dfields) (src : source) (r : receiver) : result vec :=
    if ip_charge s r then do u <- lookup f src; do v <- rx_eval (ip_base s) src r u; Ok (map Rinv v) else Ok (vconst (nD r) 1).
  Definition scale_of (f : dfields) (srcs : list source) : result vec :=
    do parts <- mapM (fun src => do l <- mapM (scale_rx f src) (s_rx src); Ok (concat l)) srcs; Ok (concat parts).
  (** 44-61 *)
  Definition get_scale (st : istate) : istate * result vec :=
    match t_scale st with
    | Some c => (st, Ok c)
    | None =>
        match dc_fields_once st with
        | (st, Err e) => (st, Err e)
        | (st, Ok f) =>
            match scale_of f (t_srcs st) with
            | Err e => (st, Err e)
            | Ok c => (mkIst (t_srcs st) (t_prop st) (t_A st) (t_q st) (t_model st) (t_J st) (t_gtg st) (t_f st) (t_pred st) (Some c), Ok c)
            end
        end
    end.
  (** resistivity/simulation.py 115-121, with fields *)
  Definition getJ_with (st : istate) (m : vec) (f : dfields) : istate * result mat :=
    match iset_model st m with
    | (st, Err e) => (st, Err e)
    | (st, Ok _) =>
        match t_J st with
        | Some J => (st, Ok J)
        | None =>
            match Jrows (view st) (dcst st) m f with
            | Err e => (st, Err e)
            | Ok J => (mkIst (t_srcs st) (t_prop st) (t_A st) (t_q st) (t_model st) (Some J) (t_gtg st) (t_f st) (t_pred st) (t_scale st), Ok J)
            end
        end
    end.
  (** resistivity/simulation.py 156-187, with fields *)
  Definition super_Jvec (st : istate) (m v : vec) (f : dfields) : istate * result vec :=
    match iset_model st m with
    | (st, Err e) => (st, Err e)
    | (st, Ok _) =>
        if d_storeJ (ip_base s) then
          let '(st, J) := getJ_with st m f in (st, do J <- J; Ok (mv J v))
        else
          (st, do d <- over (fun src u r => do du <- Ainv (view st) (dcst st) (vopp (getADeriv (view st) m u v)); rx_deriv (view st) src r du) f (iused st);
               Ok (mini_data (ip_base s) 0 Rminus Rplus d))
    end.
  (** 127-128, with fields *)
  Definition iJvec_with (st : istate) (m v : vec) (f : dfields) : istate * result vec :=
    match get_scale st with
    | (st, Err e) => (st, Err e)
    | (st, Ok c) => let '(st, j) := super_Jvec st m v f in (st, do j <- j; Ok (vmul c j))
    end.
  (** 89-98, 130-131 *)
  Definition ifields (st : istate) (m : vec) : istate * result dfields :=
    match dc_fields_once st with
    | (st, Err e) => (st, Err e)
    | (st, Ok f) =>
        match iJvec_with st m m f with
        | (st, Err e) => (st, Err e)
        | (st, Ok d) =>
            (mkIst (t_srcs st) (t_prop st) (t_A st) (t_q st) (t_model st) (t_J st) (t_gtg st) (t_f st) (Some d) (t_scale st), Ok f)
        end
    end.
  Definition igiven (st : istate) (m : vec) (f : option dfields) : istate * result dfields :=
    match f with Some f => (st, Ok f) | None => ifields st m end.
  (** 100-113: None is returned if nothing was predicted before *)
  Definition idpred (st : istate) (m : vec) (f : option dfields) : istate * result (option vec) :=
    match igiven st m f with
    | (st, Err e) => (st, Err e)
    | (st, Ok _) => (st, Ok (t_pred st))
    end.
  (** 127-128: self._scale first *)
  Definition iJvec (st : istate) (m v : vec) (f : option dfields) : istate * result vec :=
    match get_scale st with
    | (st, Err e) => (st, Err e)
    | (st, Ok c) =>
        match igiven st m f with
        | (st, Err e) => (st, Err e)
        | (st, Ok f) => let '(st, j) := super_Jvec st m v f in (st, do j <- j; Ok (vmul c j))
        end
    end.
  (** 133-134 and resistivity/simulation.py 189-203 *)
  Definition iJtvec (st : istate) (m w : vec) (f : option dfields) : istate * result vec :=
    match get_scale st with
    | (st, Err e) => (st, Err e)
    | (st, Ok c) =>
        match igiven st m f with
        | (st, Err e) => (st, Err e)
        | (st, Ok f) =>
            match iset_model st m with
            | (st, Err e) => (st, Err e)
            | (st, Ok _) =>
                if d_storeJ (ip_base s) then
                  let '(st, J) := getJ_with st m f in (st, do J <- J; Ok (mtv (ip_p s) J (vmul w c)))
                else (st, jt_src (view st) (dcst st) m f (iused st) (mini_dataT (ip_base s) (vmul w c)) (vzero (length m)))
            end
        end
    end.
  (** resistivity/simulation.py 115-121 *)
  Definition igetJ (st : istate) (m : vec) (f : option dfields) : istate * result mat :=
    match iset_model st m with
    | (st, Err e) => (st, Err e)
    | (st, Ok _) =>
        match t_J st with
        | Some J => (st, Ok J)
        | None => match igiven st m f with (st, Err e) => (st, Err e) | (st, Ok f) => getJ_with st m f end
        end
    end.
  (** 115-125; [W] is the diagonal of the weights *)
  Definition igetJtJdiag (st : istate) (m : vec) (W : option vec) (f : option dfields) : istate * result vec :=
    match t_gtg st with
    | Some g => (st, Ok g)
    | None =>
        match igetJ st m f with
        | (st, Err e) => (st, Err e)
        | (st, Ok J) =>
            match get_scale st with
            | (st, Err e) => (st, Err e)
            | (st, Ok c) =>
                let w := map (fun x => x ^ 2) (match W with None => c | Some W => vmul c W end) in
                let g := fold_left vadd (map (fun wr => vscale (fst wr) (vmul (snd wr) (snd wr))) (combine w J)) (vzero (ip_p s)) in
                (mkIst (t_srcs st) (t_prop st) (t_A st) (t_q st) (t_model st) (t_J st) (Some g) (t_f st) (t_pred st) (t_scale st), Ok g)
            end
        end
    end.
End Ip.
