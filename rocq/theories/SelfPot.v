(** Model of simpeg/electromagnetics/static/self_potential: simulation.py (the simulation 10-87,
    CurrentDensityMap 90-129, HydraulicHeadMap 132-161) and sources.py, with the parts of
    resistivity/simulation.py they inherit (BaseDCSimulation 100-263).  The matrix and the
    receivers are those of the cell-centred DC simulation (Dc.v), with the resistivity in place
    of the model.  Meshes with more than one cell; receivers measure potentials. *)
From Coq Require Import Reals.
From Verif Require Import Py Vec Joint Dc.
Local Open Scope R_scope.

(** A mapping to the rates q: the size of its models, value, derivative, and whether it calls
    itself linear. *)
Record qmap := mkQ { q_p : nat; q_val : vec -> vec; q_der : vec -> mat; q_linear : bool }.
(** [z_srcs]: the receivers of each StreamingCurrents source. *)
Record spot := mkSpot { z_dc : dc; z_vol : vec; z_storeJ : bool; z_srcs : list (list receiver) }.

(** 48-70: what was given for conductivity and resistivity *)
Definition construct {A} (sigma rho : option A) : result A :=
  match sigma, rho with
  | None, None => Err ValueError
  | Some _, Some _ => Err ValueError
  | None, Some r => Ok r
  | Some s, None => Ok s
  end.

Section Spot.
  Context (s : spot).
  Let d := z_dc s.
  (** resistivity, qMap, model, the resistivity whose matrix was factored last (Ainv), _Jmatrix
      and _gtgdiag *)
  Record zstate := mkZ { w_rho : vec; w_map : qmap; w_model : option vec; w_A : option vec; w_J : option mat; w_gtg : option vec }.
  Definition zinit (rho : vec) (q : qmap) : zstate := mkZ rho q None None None None.
  (** props.py 408-476 with 80-87; np.allclose is equality here (C18) *)
  Definition zset_model (st : zstate) (m : vec) : zstate * result unit :=
    if Nat.eqb (length m) (q_p (w_map st)) then
      let new := if (z_storeJ s && negb (q_linear (w_map st)))%bool
                 then mkZ (w_rho st) (w_map st) (Some m) (w_A st) None None
                 else mkZ (w_rho st) (w_map st) (Some m) (w_A st) (w_J st) (w_gtg st) in
      (match w_model st with
       | Some m' => if list_eq_dec Req_EM_T m' m then st else new
       | None => new
       end, Ok tt)
    else (st, Err ValueError).
  (** 72-73: the same right-hand side for any number of sources; fields.py refuses one column for
      several sources. *)
  Definition zrhs (st : zstate) (m : vec) : vec := vmul (z_vol s) (q_val (w_map st) m).
  (** resistivity 100-113 *)
  Definition zfields (st : zstate) (m : vec) : zstate * result vec :=
    match zset_model st m with
    | (st, Err e) => (st, Err e)
    | (st, Ok _) =>
        let st := mkZ (w_rho st) (w_map st) (w_model st) (Some (w_rho st)) (w_J st) (w_gtg st) in
        if Nat.eqb (length (z_srcs s)) 1 then (st, Ok (d_solve d (getA d (w_rho st)) (zrhs st m))) else (st, Err ValueError)
    end.
  Definition zgiven (st : zstate) (m : vec) (f : option vec) : zstate * result vec :=
    match f with Some f => (st, Ok f) | None => zfields st m end.
  Definition zP : mat := concat (map (getP d) (concat (z_srcs s))).
  (** simulation.py (simpeg) 161-196: all receivers in order *)
  Definition zdpred (st : zstate) (m : vec) (f : option vec) : zstate * result vec :=
    match zgiven st m f with
    | (st, Err e) => (st, Err e)
    | (st, Ok u) => (st, Ok (concat (map (fun r => mv (getP d r) u) (concat (z_srcs s)))))
    end.
  Definition zAinv (st : zstate) (b : vec) : result vec :=
    match w_A st with Some r => Ok (d_solve d (getA d r) b) | None => Err TypeError end.
  (** 75-78; getADeriv is a Zero object without a mapping for the resistivity (resistivity 382, 391) *)
  Definition zrhs_deriv (st : zstate) (m v : vec) : vec := vmul (z_vol s) (mv (q_der (w_map st) m) v).
  Definition zrhs_derivT (st : zstate) (m w : vec) : vec := mtv (q_p (w_map st)) (q_der (w_map st) m) (vmul (z_vol s) w).
  (** resistivity 205-263 without a vector *)
  Definition zrows (st : zstate) (m : vec) : result mat :=
    do l <- mapM (fun r => mapM (fun row => do a <- zAinv st row; Ok (zrhs_derivT st m a)) (getP d r)) (concat (z_srcs s)); Ok (concat l).
  (** resistivity 115-121 *)
  Definition zgetJ (st : zstate) (m : vec) (f : option vec) : zstate * result mat :=
    match zset_model st m with
    | (st, Err e) => (st, Err e)
    | (st, Ok _) =>
        match w_J st with
        | Some J => (st, Ok J)
        | None =>
            match zgiven st m f with
            | (st, Err e) => (st, Err e)
            | (st, Ok _) =>
                match zrows st m with
                | Err e => (st, Err e)
                | Ok J => (mkZ (w_rho st) (w_map st) (w_model st) (w_A st) (Some J) (w_gtg st), Ok J)
                end
            end
        end
    end.
  (** resistivity 156-187 *)
  Definition zJvec (st : zstate) (m v : vec) (f : option vec) : zstate * result vec :=
    match zgiven st m f with
    | (st, Err e) => (st, Err e)
    | (st, Ok u) =>
        match zset_model st m with
        | (st, Err e) => (st, Err e)
        | (st, Ok _) =>
            if z_storeJ s then
              let '(st, J) := zgetJ st m (Some u) in (st, do J <- J; Ok (mv J v))
            else
              (st, do l <- mapM (fun rs => do du <- zAinv st (zrhs_deriv st m v); Ok (concat (map (fun r => mv (getP d r) du) rs))) (z_srcs s);
                   Ok (concat l))
        end
    end.
  (** resistivity 230-251 *)
  Fixpoint zjt (st : zstate) (m : vec) (rs : list receiver) (w acc : vec) : result vec :=
    match rs with
    | [] => Ok acc
    | r :: rs => do a <- zAinv st (mtv (d_n d) (getP d r) (firstn (nD r) w));
                 zjt st m rs (skipn (nD r) w) (vadd acc (zrhs_derivT st m a))
    end.
  Definition zJtvec (st : zstate) (m w : vec) (f : option vec) : zstate * result vec :=
    match zgiven st m f with
    | (st, Err e) => (st, Err e)
    | (st, Ok u) =>
        match zset_model st m with
        | (st, Err e) => (st, Err e)
        | (st, Ok _) =>
            if z_storeJ s then
              let '(st, J) := zgetJ st m (Some u) in (st, do J <- J; Ok (mtv (q_p (w_map st)) J w))
            else (st, zjt st m (concat (z_srcs s)) w (vzero (length m)))
        end
    end.
  (** resistivity 137-154; [W] is the diagonal of the weights *)
  Definition zJtJ (st : zstate) (m : vec) (W : option vec) (f : option vec) : zstate * result vec :=
    match w_gtg st with
    | Some g => (st, Ok g)
    | None =>
        match zgetJ st m f with
        | (st, Err e) => (st, Err e)
        | (st, Ok J) =>
            let w := match W with None => map (fun _ => 1) J | Some W => map (fun x => x ^ 2) W end in
            let g := fold_left vadd (map (fun wr => vscale (fst wr) (vmul (snd wr) (snd wr))) (combine w J)) (vzero (q_p (w_map st))) in
            (mkZ (w_rho st) (w_map st) (w_model st) (w_A st) (w_J st) (Some g), Ok g)
        end
    end.
  (** Assigning another resistivity (pde_simulation.py 638-643: only the inner products are
      deleted) or another mapping (props.py 58-62). *)
  Definition set_rho (st : zstate) (r : vec) : zstate := mkZ r (w_map st) (w_model st) (w_A st) (w_J st) (w_gtg st).
  Definition set_qmap (st : zstate) (q : qmap) : zstate := mkZ (w_rho st) q (w_model st) (w_A st) (w_J st) (w_gtg st).
End Spot.

(** ** The mappings *)
(** What the mappings use of a tensor mesh (discretize): cells with their volumes, faces with
    their area, direction, and the cells before and behind them, if there are. *)
Record face := mkFace { f_area : R; f_dir : nat; f_lo : option nat; f_hi : option nat }.
Record fvmesh := mkMesh { v_dim : nat; v_vol : vec; v_faces : list face }.
Definition is_cell (o : option nat) (c : nat) : R := match o with Some k => if Nat.eqb k c then 1 else 0 | None => 0 end.
Section Mesh.
  Context (M : fvmesh).
  Definition nC : nat := length (v_vol M).
  Definition vol (c : nat) : R := nth c (v_vol M) 0.
  (** face_divergence: outflow per volume, and its transpose *)
  Definition div (x : vec) : vec :=
    map (fun c => vsum (map (fun fx => f_area (fst fx) * (is_cell (f_lo (fst fx)) c - is_cell (f_hi (fst fx)) c) * snd fx) (combine (v_faces M) x)) / vol c) (seq 0 nC).
  Definition side (x : vec) (o : option nat) : R := match o with Some c => nth c x 0 / vol c | None => 0 end.
  Definition divT (x : vec) : vec := map (fun f => f_area f * (side x (f_lo f) - side x (f_hi f))) (v_faces M).
  (** average_cell_vector_to_face: the component normal to the face, from one or both cells *)
  Definition comp (j : vec) (f : face) (c : nat) : R := nth (f_dir f * nC + c) j 0.
  Definition cell_to_face (j : vec) : vec :=
    map (fun f => match f_lo f, f_hi f with
                  | Some a, Some b => / 2 * comp j f a + / 2 * comp j f b
                  | Some a, None | None, Some a => comp j f a
                  | None, None => 0 end) (v_faces M).
  (** [cv_to_f[:, active_cell_comps] @ j]: the values of the active cells, zero elsewhere *)
  Fixpoint spread (act : list bool) (j : vec) : vec :=
    match act with
    | [] => []
    | true :: act => match j with x :: j => x :: spread act j | [] => 0 :: spread act [] end
    | false :: act => 0 :: spread act j
    end.
  Definition comps (act : list bool) : list bool := concat (repeat act (v_dim M)).
  (** 117-127: faces where the divergence of the active cells' indicator is not zero are closed *)
  Definition closed (act : list bool) : list bool :=
    map (fun x => if Req_EM_T x 0 then false else true) (divT (map (fun b => if b : bool then 1 else 0) act)).
  Definition current_map (act : option (list bool)) (j : vec) : vec :=
    match act with
    | None => vopp (div (cell_to_face j))
    | Some a => vopp (div (vmul (map (fun b => if b : bool then 0 else 1) (closed a)) (cell_to_face (spread (comps a) j))))
    end.
  (** get_face_inner_product(L, invert_model=True, invert_matrix=True): half of each cell counts
      for its face *)
  Definition half (L : vec) (o : option nat) : R := match o with Some c => vol c / 2 * / nth c L 0 | None => 0 end.
  Definition mf_inv (L : vec) : vec := map (fun f => / (half L (f_lo f) + half L (f_hi f))) (v_faces M).
  (** 157-161 *)
  Definition head_map (L h : vec) : vec := div (vmul (mf_inv L) (divT (vmul (v_vol M) h))).
End Mesh.
