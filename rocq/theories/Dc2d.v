(** Model of simpeg/electromagnetics/static/resistivity/simulation_2d.py: 2.5D DC resistivity
    (BaseDCSimulation2D 28-479, Simulation2DCellCentered 482-626, Simulation2DNodal 629-802).
    Mesh operators, boundary matrices and the solver are arguments, wavenumbers are numbered;
    properties are isotropic so that inner products are diagonal and linear in the property.
    Receivers measure potentials (projField "phi") and every source has receivers; the pole-pole
    survey (miniaturize) is the same code as in 3D (Dc.v) and left out. *)
From Coq Require Import Reals.
From Verif Require Import Py Vec Joint Dc.
Local Open Scope R_scope.

Inductive bct := Neumann | Dirichlet | Robin.
(** receivers.py 156-244: projection matrix and, for apparent resistivities, the geometric factors *)
Record rx2 := mkRx2 { x_P : mat; x_g : option vec }.
Record src2 := mkSrc2 { c_q : vec; c_rx : list rx2 }.
Record dc2 := mkDc2 {
  e_form : formulation;
  e_p : nat; e_n : nat; e_nf : nat; e_nc : nat; (* model; nodes or cells; edges or faces; cells *)
  e_D : mat; e_G : mat;           (* Cell: self.Div, self.Grad; Nodal: nodal_gradient in e_G *)
  e_M : mat; e_Mk : mat;          (* MeSigma or MfRho, and MnSigma or MccSigma, as diag(M @ property) *)
  e_bcm : bct -> nat -> mat;      (* Cell: 573-626, the matrix B; Nodal: 749-802, AvgN2Fb.T @ AvgCC2Fb *)
  e_sig : vec -> vec; e_dsig : vec -> mat; e_rho : vec -> vec; e_drho : vec -> mat;
  e_ks : vec; e_ws : vec;         (* _quad_points and _quad_weights *)
  e_solve : mx -> vec -> vec;
  e_storeJ : bool; e_fixJ : bool; e_srcs : list src2 }.

Definition e0 (n : nat) : vec := match n with O => [] | S k => 1 :: vzero k end.

Section Dc2d.
  Context (s : dc2).
  Let n := e_n s.
  Definition ky (i : nat) : R := nth i (e_ks s) 0.
  (** 515-531, 666-693: the matrix of a wavenumber, given the boundary matrix in the store *)
  Definition A_mat (bc : bct) (B : mat) (i : nat) (m : vec) : mx :=
    match e_form s with
    | Cell =>
        let G := match bc with Dirichlet => Mx n (e_G s) | _ => Msub (Mx n (e_G s)) (Mx n B) end in
        let A := Madd (Mmul (Mx (e_nf s) (e_D s)) (Mmul (Mdiag (map Rinv (mv (e_M s) (e_rho s m)))) G))
                      (Mscale (ky i ^ 2) (Mdiag (mv (e_Mk s) (e_sig s m)))) in
        match bc with Neumann => Madd A (Mdiag (e0 n)) | _ => A end
    | Nodal =>
        let A := Madd (Mmul (MT (Mx n (e_G s))) (Mmul (Mdiag (mv (e_M s) (e_sig s m))) (Mx n (e_G s))))
                      (Mscale (ky i ^ 2) (Mdiag (mv (e_Mk s) (e_sig s m)))) in
        match bc with Neumann => A | _ => Madd A (Mdiag (mv B (e_sig s m))) end
    end.
  Definition gradu (bc : bct) (B : mat) (u : vec) : vec :=
    match bc with Dirichlet => mv (e_G s) u | _ => vsub (mv (e_G s) u) (mv B u) end.
  (** 533-545, 695-712: [Bs] is the matrix and the derivative whose product is in _MBC_sigma *)
  Definition A_deriv (bc : bct) (B : mat) (Bs : mat * mat) (i : nat) (m u v : vec) : vec :=
    let mk := vscale (ky i ^ 2) (vmul u (mv (e_Mk s) (mv (e_dsig s m) v))) in
    match e_form s with
    | Cell => let I := map Rinv (mv (e_M s) (e_rho s m)) in
              vadd (mv (e_D s) (vmul (vmul I (vmul I (vopp (gradu bc B u)))) (mv (e_M s) (mv (e_drho s m) v)))) mk
    | Nodal => let out := vadd (mtv n (e_G s) (vmul (mv (e_G s) u) (mv (e_M s) (mv (e_dsig s m) v)))) mk in
               match bc with Neumann => out | _ => vadd out (vmul u (mv (fst Bs) (mv (snd Bs) v))) end
    end.
  Definition A_derivT (bc : bct) (B : mat) (Bs : mat * mat) (i : nat) (m u w : vec) : vec :=
    let mk := vscale (ky i ^ 2) (mtv (e_p s) (e_dsig s m) (mtv (e_nc s) (e_Mk s) (vmul u w))) in
    match e_form s with
    | Cell => let I := map Rinv (mv (e_M s) (e_rho s m)) in
              vadd (mtv (e_p s) (e_drho s m) (mtv (e_nc s) (e_M s) (vmul (vmul I (vmul I (vopp (gradu bc B u)))) (mtv (e_nf s) (e_D s) w)))) mk
    | Nodal => let out := vadd (mtv (e_p s) (e_dsig s m) (mtv (e_nc s) (e_M s) (vmul (mv (e_G s) u) (mv (e_G s) w)))) mk in
               match bc with Neumann => out | _ => vadd out (mtv (e_p s) (snd Bs) (mtv (e_nc s) (fst Bs) (vmul u w))) end
    end.

  (** receivers.py 156-244 *)
  Definition rx2_eval (r : rx2) (u : vec) : vec := match x_g r with None => mv (x_P r) u | Some g => vdiv (mv (x_P r) u) g end.
  Definition rx2_deriv (r : rx2) (v : vec) : vec := match x_g r with None => mv (x_P r) v | Some g => vmul (map Rinv g) (mv (x_P r) v) end.
  Definition rx2_derivT (r : rx2) (w : vec) : vec := match x_g r with None => mtv n (x_P r) w | Some g => mtv n (x_P r) (vmul (map Rinv g) w) end.
  Definition rx2_rows (r : rx2) : mat := match x_g r with None => x_P r | Some g => map (fun gr => vscale (/ fst gr) (snd gr)) (combine g (x_P r)) end.
  Definition rx2_nD (r : rx2) : nat := length (x_P r).
  Definition src2_nD (c : src2) : nat := list_sum (map rx2_nD (c_rx c)).
  Definition nD2 : nat := list_sum (map src2_nD (e_srcs s)).

  (** The object: bc_type, model, the factored matrices (Ainv), the boundary matrices by wavenumber
      (_MBC or _AvgBC), the products _MBC_sigma by wavenumber, and _Jmatrix. *)
  Record state2 := mkSt2 { u_bc : bct; u_model : option vec; u_A : option (list mx); u_B : list (nat * mat); u_Bs : list (nat * (mat * mat)); u_J : option mat }.
  Definition init2 (bc : bct) : state2 := mkSt2 bc None None [] [] None.
  Definition bc_needed (bc : bct) : bool := match e_form s, bc with Cell, Dirichlet | Nodal, Neumann => false | _, _ => true end.
  (** 508-513, 660-664 *)
  Definition set_bc (st : state2) (bc : bct) : state2 * result unit :=
    match e_form s, bc with
    | Nodal, Dirichlet => (st, Err ValueError)
    | _, _ => (mkSt2 bc (u_model st) (u_A st) (u_B st) (u_Bs st) (u_J st), Ok tt)
    end.
  (** 450-455; props.py 408-476 (np.allclose is equality here, see C18). The inner products are those
      of the model (C61). *)
  Definition set_model2 (st : state2) (m : vec) : state2 * result unit :=
    if Nat.eqb (length m) (e_p s) then
      let new := mkSt2 (u_bc st) (Some m) (u_A st) (u_B st) (u_Bs st) (if e_fixJ s then u_J st else None) in
      (match u_model st with
       | Some m' => if list_eq_dec Req_EM_T m' m then st else new
       | None => new
       end, Ok tt)
    else (st, Err ValueError).
  (** 565-572, 732-748 *)
  Definition setBC (st : state2) (i : nat) : state2 :=
    if bc_needed (u_bc st) then
      match dict_get Nat.eqb i (u_B st) with
      | Some _ => st
      | None => mkSt2 (u_bc st) (u_model st) (u_A st) (u_B st ++ [(i, e_bcm s (u_bc st) i)]) (u_Bs st) (u_J st)
      end
    else st.
  Definition getB (st : state2) (i : nat) : result mat :=
    if bc_needed (u_bc st) then
      match dict_get Nat.eqb i (u_B st) with Some B => Ok B | None => Err (match u_B st with [] => AttributeError | _ => KeyError end) end
    else Ok [].
  (** 706-711 *)
  Definition getBs (st : state2) (i : nat) (m : vec) : state2 * result (mat * mat) :=
    match e_form s with
    | Cell => (st, Ok ([], []))
    | Nodal =>
        if bc_needed (u_bc st) then
          match dict_get Nat.eqb i (u_Bs st) with
          | Some x => (st, Ok x)
          | None =>
              match getB st i with
              | Ok B => (mkSt2 (u_bc st) (u_model st) (u_A st) (u_B st) (u_Bs st ++ [(i, (B, e_dsig s m))]) (u_J st), Ok (B, e_dsig s m))
              | Err e => (st, Err e)
              end
          end
        else (st, Ok ([], []))
    end.
  Definition ks_idx : list nat := seq 0 (length (e_ks s)).

  (** Fields: the solution of every source, by wavenumber *)
  Definition fields2T := list (list vec).
  Fixpoint field_loop (st : state2) (m : vec) (l : list nat) (As : list mx) (acc : fields2T) : state2 * result (list mx * fields2T) :=
    match l with
    | [] => (st, Ok (rev As, rev acc))
    | i :: l =>
        let st := setBC st i in
        match getB st i with
        | Err e => (st, Err e)
        | Ok B => let A := A_mat (u_bc st) B i m in
                  field_loop st m l (A :: As) (map (fun c => e_solve s A (c_q c)) (e_srcs s) :: acc)
        end
    end.
  (** 223-242 *)
  Definition fields2 (st : state2) (m : vec) : state2 * result fields2T :=
    match set_model2 st m with
    | (st, Err e) => (st, Err e)
    | (st, Ok _) =>
        match field_loop st m ks_idx [] [] with
        | (st, Err e) => (st, Err e)
        | (st, Ok (As, f)) => (mkSt2 (u_bc st) (u_model st) (Some As) (u_B st) (u_Bs st) (u_J st), Ok f)
        end
    end.
  Definition given2 (st : state2) (m : vec) (f : option fields2T) : state2 * result fields2T :=
    match f with Some f => (st, Ok f) | None => fields2 st m end.
  (** 250-276: rx.eval gives a column for each wavenumber, [.dot(weights)] adds them *)
  Definition wsum (k : nat) (cols : list vec) : vec :=
    fold_right (fun wc acc => vadd (vscale (fst wc) (snd wc)) acc) (vzero k) (combine (e_ws s) cols).
  Definition column (f : fields2T) (j : nat) : list vec := map (fun us => nth j us []) f.
  Definition predict2 (f : fields2T) : vec :=
    concat (map (fun jc => concat (map (fun r => wsum (rx2_nD r) (map (rx2_eval r) (column f (fst jc)))) (c_rx (snd jc))))
      (combine (seq 0 (length (e_srcs s))) (e_srcs s))).
  Definition dpred2 (st : state2) (m : vec) (f : option fields2T) : state2 * result vec :=
    match given2 st m f with
    | (st, Err e) => (st, Err e)
    | (st, Ok f) => (st, Ok (predict2 f))
    end.

  Definition Ainv2 (st : state2) (i : nat) (b : vec) : result vec :=
    match u_A st with Some As => match nth_error As i with Some A => Ok (e_solve s A b) | None => Err IndexError end | None => Err TypeError end.
  (** 318-332, one wavenumber: all sources and receivers *)
  Definition jv_src (st : state2) (B : mat) (Bs : mat * mat) (i : nat) (m v u : vec) (c : src2) : result vec :=
    do du <- Ainv2 st i (vopp (A_deriv (u_bc st) B Bs i m u v));
    Ok (concat (map (fun r => rx2_deriv r du) (c_rx c))).
  Fixpoint jv_loop (st : state2) (m v : vec) (f : fields2T) (l : list nat) (acc : vec) : state2 * result vec :=
    match l with
    | [] => (st, Ok acc)
    | i :: l =>
        match getBs st i m with
        | (st, Err e) => (st, Err e)
        | (st, Ok Bs) =>
            match (do B <- getB st i; mapM (fun uc => jv_src st B Bs i m v (fst uc) (snd uc)) (combine (nth i f []) (e_srcs s))) with
            | Err e => (st, Err e)
            | Ok parts => jv_loop st m v f l (vadd acc (vscale (nth i (e_ws s) 0) (concat parts)))
            end
        end
    end.
  (** 371-396, one wavenumber *)
  Fixpoint cut (ls : list nat) (w : vec) : list vec := match ls with [] => [] | k :: ls => firstn k w :: cut ls (skipn k w) end.
  Definition jt_src2 (st : state2) (B : mat) (Bs : mat * mat) (i : nat) (m u w : vec) (c : src2) : result vec :=
    let sum := fold_right (fun rw acc => vadd (rx2_derivT (fst rw) (snd rw)) acc) (vzero n) (combine (c_rx c) (cut (map rx2_nD (c_rx c)) w)) in
    do a <- Ainv2 st i sum; Ok (vopp (A_derivT (u_bc st) B Bs i m u a)).
  Fixpoint jt_loop (st : state2) (m w : vec) (f : fields2T) (l : list nat) (acc : vec) : state2 * result vec :=
    match l with
    | [] => (st, Ok acc)
    | i :: l =>
        match getBs st i m with
        | (st, Err e) => (st, Err e)
        | (st, Ok Bs) =>
            match (do B <- getB st i; mapM (fun uwc => jt_src2 st B Bs i m (fst uwc) (fst (snd uwc)) (snd (snd uwc)))
                (combine (nth i f []) (combine (cut (map src2_nD (e_srcs s)) w) (e_srcs s)))) with
            | Err e => (st, Err e)
            | Ok parts => jt_loop st m w f l (fold_left (fun acc x => vadd acc (vscale (nth i (e_ws s) 0) x)) parts acc)
            end
        end
    end.
  (** 399-420: the rows of the sensitivity matrix, one wavenumber after the other *)
  Definition j_src (st : state2) (B : mat) (Bs : mat * mat) (i : nat) (m u : vec) (c : src2) : result mat :=
    do parts <- mapM (fun r => mapM (fun row => do a <- Ainv2 st i row; Ok (vscale (- nth i (e_ws s) 0) (A_derivT (u_bc st) B Bs i m u a))) (rx2_rows r)) (c_rx c);
    Ok (concat parts).
  Definition madd (a b : mat) : mat := map (fun xy => vadd (fst xy) (snd xy)) (combine a b).
  Fixpoint j_loop (st : state2) (m : vec) (f : fields2T) (l : list nat) (acc : mat) : state2 * result mat :=
    match l with
    | [] => (st, Ok acc)
    | i :: l =>
        match getBs st i m with
        | (st, Err e) => (st, Err e)
        | (st, Ok Bs) =>
            match (do B <- getB st i; mapM (fun uc => j_src st B Bs i m (fst uc) (snd uc)) (combine (nth i f []) (e_srcs s))) with
            | Err e => (st, Err e)
            | Ok parts => j_loop st m f l (madd acc (concat parts))
            end
        end
    end.
  (** 278-289 *)
  Definition getJ2 (st : state2) (m : vec) (f : option fields2T) : state2 * result mat :=
    match set_model2 st m with
    | (st, Err e) => (st, Err e)
    | (st, Ok _) =>
        match u_J st with
        | Some J => (st, Ok J)
        | None =>
            match given2 st m f with
            | (st, Err e) => (st, Err e)
            | (st, Ok f) =>
                match j_loop st m f ks_idx (repeat (vzero (e_p s)) nD2) with
                | (st, Err e) => (st, Err e)
                | (st, Ok J) => (mkSt2 (u_bc st) (u_model st) (u_A st) (u_B st) (u_Bs st) (Some J), Ok J)
                end
            end
        end
    end.
  (** 291-334 and 336-350 *)
  Definition Jvec2 (st : state2) (m v : vec) (f : option fields2T) : state2 * result vec :=
    if e_storeJ s then let '(st, J) := getJ2 st m f in (st, do J <- J; Ok (mv J v))
    else match set_model2 st m with
         | (st, Err e) => (st, Err e)
         | (st, Ok _) => match given2 st m f with
                         | (st, Err e) => (st, Err e)
                         | (st, Ok f) => jv_loop st m v f ks_idx (vzero nD2)
                         end
         end.
  Definition Jtvec2 (st : state2) (m w : vec) (f : option fields2T) : state2 * result vec :=
    if e_storeJ s then let '(st, J) := getJ2 st m f in (st, do J <- J; Ok (mtv (e_p s) J w))
    else match set_model2 st m with
         | (st, Err e) => (st, Err e)
         | (st, Ok _) => match given2 st m f with
                         | (st, Err e) => (st, Err e)
                         | (st, Ok f) => jt_loop st m w f ks_idx (vzero (length m))
                         end
         end.
End Dc2d.

(** 108-119 with do_trap: the trapezoidal rule from the wavenumber 0 on, at y = 0 *)
Definition diffs (l : vec) : vec := match l with [] => [] | x :: l' => map (fun ab => snd ab - fst ab) (combine l l') end.
Definition trap_weights (points : vec) : vec :=
  let dky := map (fun d => d / 2) (diffs points) in
  let w := vadd (dky ++ [0]) (0 :: dky) in
  let w := vmul w (map (fun k => cos (k * 0)) points) in
  let w := match w with [] => [] | x :: w' => x + nth 0 points 0 / 2 * (1 + cos (nth 0 points 0 * 0)) :: w' end in
  map (fun x => x / PI) w.
