(** Model of simpeg/electromagnetics/static/resistivity: simulation.py (BaseDCSimulation
    20-318, Simulation3DCellCentered 321-480, Simulation3DNodal 483-670), receivers.py
    (156-244, 379-424, 461-498), sources.py (64-88), survey.py (196-237), utils.py
    (_mini_pole_pole 74-128) and the parts of fields.py and base/pde_simulation.py they use.
    Electrode locations are numbers in lexicographic order of their coordinates. The operators
    of the mesh and the linear solver are arguments; the property is isotropic or
    axis-aligned on a tensor-product mesh, so that inner products are diagonal and linear in
    the property. Receivers measure potentials (projField "phi"). *)
From Verif Require Import Py Vec Joint.
From Coq Require Import Reals.
Local Open Scope R_scope.

(** receivers.py: electrodes M and, for a dipole, N; whether data_type is apparent
    resistivity, and the geometric factors by source. *)
Record receiver := mkRx { r_m : list nat; r_n : option (list nat); r_app : bool; r_gf : list (nat * vec) }.
(** sources.py: a pole has one location, a dipole two and the currents [c; -c]. *)
Record source := mkSrc { s_id : nat; s_locs : list nat; s_cur : vec; s_rx : list receiver }.
(** utils.py 124-128: the masks of dipole receivers and sources, the positions of the
    pole-pole data, and the pole-pole survey. *)
Record mini := mkMini { mi_rx : list bool; mi_tx : list bool; mi_am : list nat; mi_an : list nat; mi_bm : list nat; mi_bn : list nat; mi_srcs : list source }.
Inductive formulation := Nodal | Cell.
Record dc := mkDc {
  d_form : formulation; d_neumann : bool;
  d_p : nat;                       (* size of the model *)
  d_n : nat; d_nf : nat;           (* nodes and edges, or cells and faces *)
  d_D : mat; d_G : mat;            (* Cell: self.Div and self.Grad; Nodal: nodal_gradient in d_G *)
  d_nc : nat; d_M : mat;           (* inner product diag(M @ property) *)
  d_bc : mat;                      (* Nodal: self._AvgBC *)
  d_prop : vec -> vec; d_dprop : vec -> mat; (* sigma (Nodal) or rho (Cell) and its derivative *)
  d_solve : mx -> vec -> vec;
  d_interp : nat -> vec;           (* row of the interpolation matrix to nodes or cell centres *)
  d_closest : nat -> nat;          (* closest cell *)
  d_storeJ : bool; d_mini : option mini }.

(** 374-377, 537-540: the first row replaced by that of the identity *)
Definition first_row (n : nat) (A : mx) : mx :=
  match n with
  | O => A
  | S k => Madd (Mmul (Mdiag (0 :: vconst k 1)) A) (Mdiag (1 :: vzero k))
  end.

Section Dc.
  Context (s : dc).
  Let n := d_n s.
  (** 355-379, 523-555 *)
  Definition getA (m : vec) : mx :=
    match d_form s with
    | Nodal =>
        let A := Mmul (MT (Mx n (d_G s))) (Mmul (Mdiag (mv (d_M s) (d_prop s m))) (Mx n (d_G s))) in
        if d_neumann s then first_row n A else Madd A (Mdiag (mv (d_bc s) (d_prop s m)))
    | Cell =>
        let A := Mmul (Mx (d_nf s) (d_D s)) (Mmul (Mdiag (map Rinv (mv (d_M s) (d_prop s m)))) (Mx n (d_G s))) in
        if d_neumann s then first_row n A else A
    end.
  (** pde_simulation.py 16-53, 248-268, 336-350: MeSigmaDeriv(u, v, adjoint) and
      MfRhoIDeriv(u, v, adjoint) *)
  Definition mass_deriv (m u v : vec) : vec :=
    match d_form s with
    | Nodal => vmul u (mv (d_M s) (mv (d_dprop s m) v))
    | Cell => let i := map Rinv (mv (d_M s) (d_prop s m)) in
              vmul (vmul i (vmul i (vopp u))) (mv (d_M s) (mv (d_dprop s m) v))
    end.
  Definition mass_derivT (m u w : vec) : vec :=
    match d_form s with
    | Nodal => mtv (d_p s) (d_dprop s m) (mtv (d_nc s) (d_M s) (vmul u w))
    | Cell => let i := map Rinv (mv (d_M s) (d_prop s m)) in
              mtv (d_p s) (d_dprop s m) (mtv (d_nc s) (d_M s) (vmul (vmul i (vmul i (vopp u))) w))
    end.
  (** 381-391, 557-571 *)
  Definition getADeriv (m u v : vec) : vec :=
    match d_form s with
    | Nodal =>
        let out := mtv n (d_G s) (mass_deriv m (mv (d_G s) u) v) in
        if d_neumann s then out else vadd out (vmul u (mv (d_bc s) (mv (d_dprop s m) v)))
    | Cell => mv (d_D s) (mass_deriv m (mv (d_G s) u) v)
    end.
  Definition getADerivT (m u w : vec) : vec :=
    match d_form s with
    | Nodal =>
        let out := mass_derivT m (mv (d_G s) u) (mv (d_G s) w) in
        if d_neumann s then out else vadd out (mtv (d_p s) (d_dprop s m) (mtv (d_nc s) (d_bc s) (vmul u w)))
    | Cell => mass_derivT m (mv (d_G s) u) (mtv (d_nf s) (d_D s) w)
    end.

  (** sources.py 64-88; [q[inds] = current] writes one after the other *)
  Fixpoint put (q : vec) (i : nat) (x : R) : vec :=
    match q, i with [], _ => [] | _ :: q, O => x :: q | y :: q, S i => y :: put q i x end.
  Definition currents (src : source) : vec :=
    match s_cur src with [c] => map (fun _ => c) (s_locs src) | l => l end.
  Definition src_eval (src : source) : vec :=
    match d_form s with
    | Nodal => fold_right (fun lc q => vadd (vscale (snd lc) (d_interp s (fst lc))) q) (vzero n) (combine (s_locs src) (currents src))
    | Cell => fold_left (fun q lc => put q (d_closest s (fst lc)) (snd lc)) (combine (s_locs src) (currents src)) (vzero n)
    end.
  (** receivers.py 379-424, 461-498 *)
  Definition getP (r : receiver) : mat :=
    match r_n r with
    | None => map (d_interp s) (r_m r)
    | Some ns => map (fun mn => vsub (d_interp s (fst mn)) (d_interp s (snd mn))) (combine (r_m r) ns)
    end.
  Definition nD (r : receiver) : nat := length (r_m r).
  Definition gfactor (src : source) (r : receiver) : result (option vec) :=
    if r_app r then match dict_get Nat.eqb (s_id src) (r_gf r) with Some g => Ok (Some g) | None => Err KeyError end else Ok None.
  (** receivers.py 156-192 *)
  Definition rx_eval (src : source) (r : receiver) (u : vec) : result vec :=
    do g <- gfactor src r; Ok (match g with None => mv (getP r) u | Some g => vdiv (mv (getP r) u) g end).
  (** receivers.py 194-244: product with v, with the transpose, and the matrix itself *)
  Definition rx_deriv (src : source) (r : receiver) (v : vec) : result vec :=
    do g <- gfactor src r; Ok (match g with None => mv (getP r) v | Some g => vmul (map Rinv g) (mv (getP r) v) end).
  Definition rx_derivT (src : source) (r : receiver) (w : vec) : result vec :=
    do g <- gfactor src r; Ok (match g with None => mtv n (getP r) w | Some g => mtv n (getP r) (vmul (map Rinv g) w) end).
  Definition rx_rows (src : source) (r : receiver) : result mat :=
    do g <- gfactor src r; Ok (match g with None => getP r | Some g => map (fun gr => vscale (/ fst gr) (snd gr)) (combine g (getP r)) end).

  (** 296-318: from and to the data of the pole-pole survey *)
  Fixpoint masked {A} (op : A -> A -> A) (mask : list bool) (out vals : list A) : list A :=
    match mask, out with
    | true :: mask, o :: out => match vals with v :: vals => op o v :: masked op mask out vals | [] => o :: masked op mask out [] end
    | false :: mask, o :: out => o :: masked op mask out vals
    | _, _ => out
    end.
  Definition both (mi : mini) : list bool := map (fun ab => fst ab && snd ab)%bool (combine (mi_rx mi) (mi_tx mi)).
  Definition take {A} (dflt : A) (d : list A) (is : list nat) : list A := map (fun i => nth i d dflt) is.
  Definition mini_data {A} (dflt : A) (sub add : A -> A -> A) (d : list A) : list A :=
    match d_mini s with
    | None => d
    | Some mi =>
        let out := take dflt d (mi_am mi) in
        let out := masked sub (mi_rx mi) out (take dflt d (mi_an mi)) in
        let out := masked sub (mi_tx mi) out (take dflt d (mi_bm mi)) in
        masked add (both mi) out (take dflt d (mi_bn mi))
    end.
  Fixpoint upd (out : vec) (i : nat) (f : R -> R) : vec :=
    match out, i with [], _ => [] | x :: out, O => f x :: out | x :: out, S i => x :: upd out i f end.
  (** np.add.at, np.subtract.at *)
  Definition at_op (op : R -> R -> R) (out : vec) (is : list nat) (v : vec) : vec :=
    fold_left (fun o ix => upd o (fst ix) (fun y => op y (snd ix))) (combine is v) out.
  Fixpoint compress (mask : list bool) (v : vec) : vec :=
    match mask, v with true :: mask, x :: v => x :: compress mask v | false :: mask, _ :: v => compress mask v | _, _ => [] end.
  Definition survey_nD (srcs : list source) : nat := list_sum (map (fun src => list_sum (map nD (s_rx src))) srcs).
  Definition mini_dataT (v : vec) : vec :=
    match d_mini s with
    | None => v
    | Some mi =>
        let out := at_op Rplus (vzero (survey_nD (mi_srcs mi))) (mi_am mi) v in
        let out := at_op Rminus out (mi_an mi) (compress (mi_rx mi) v) in
        let out := at_op Rminus out (mi_bm mi) (compress (mi_tx mi) v) in
        at_op Rplus out (mi_bn mi) (compress (both mi) v)
    end.

  (** The simulation object: survey, model, the model whose matrix was factored last
      (self.Ainv), and the stores _q, _Jmatrix and _gtgdiag. *)
  Record state := mkSt { st_srcs : list source; st_model : option vec; st_A : option vec; st_q : option (list vec); st_J : option mat; st_gtg : option vec }.
  Definition init (srcs : list source) : state := mkSt srcs None None None None None.
  (** props.py 408-476; _delete_on_model_update (291-294). np.allclose is equality here, and
      the inner products are those of the stored model (both treated in C61). *)
  Definition set_model (st : state) (m : vec) : state * result unit :=
    if Nat.eqb (length m) (d_p s) then
      (match st_model st with
       | Some m' => if list_eq_dec Req_EM_T m' m then st else mkSt (st_srcs st) (Some m) (st_A st) (st_q st) None None
       | None => mkSt (st_srcs st) (Some m) (st_A st) (st_q st) None None
       end, Ok tt)
    else (st, Err ValueError).
  Definition used (st : state) : list source := match d_mini s with Some mi => mi_srcs mi | None => st_srcs st end.
  (** 265-289 *)
  Definition get_q (st : state) : state * list vec :=
    match st_q st with
    | Some q => (st, q)
    | None => let q := map src_eval (used st) in (mkSt (st_srcs st) (st_model st) (st_A st) (Some q) (st_J st) (st_gtg st), q)
    end.
  (** Fields: the solutions by source (fields.py of simpeg; refuses another number of columns). *)
  Definition dfields := list (nat * vec).
  (** 100-113, with a model *)
  Definition fields (st : state) (m : vec) : state * result dfields :=
    match set_model st m with
    | (st, Err e) => (st, Err e)
    | (st, Ok _) =>
        let A := getA m in
        let st := mkSt (st_srcs st) (st_model st) (Some m) (st_q st) (st_J st) (st_gtg st) in
        let '(st, q) := get_q st in
        if Nat.eqb (length q) (length (used st)) then (st, Ok (combine (map s_id (used st)) (map (d_solve s A) q)))
        else (st, Err ValueError)
    end.
  Definition given (st : state) (m : vec) (f : option dfields) : state * result dfields :=
    match f with Some f => (st, Ok f) | None => fields st m end.
  Definition lookup (f : dfields) (src : source) : result vec :=
    match dict_get Nat.eqb (s_id src) f with Some u => Ok u | None => Err KeyError end.

  (** The loops over sources and receivers; the data of each pair are appended. *)
  Definition over {A} (g : source -> vec -> receiver -> result (list A)) (f : dfields) (srcs : list source) : result (list A) :=
    do parts <- mapM (fun src => do u <- lookup f src; do l <- mapM (g src u) (s_rx src); Ok (concat l)) srcs; Ok (concat parts).
  (** simulation.py (simpeg) 161-196 on the sources [srcs] *)
  Definition predict (f : dfields) (srcs : list source) : result vec := over (fun src u r => rx_eval src r u) f srcs.
  (** 123-135: on the pole-pole survey if there is one, which stays in place after an error. *)
  Definition dpred (st : state) (m : vec) (f : option dfields) : state * result vec :=
    let srcs := st_srcs st in
    let st1 := mkSt (used st) (st_model st) (st_A st) (st_q st) (st_J st) (st_gtg st) in
    match given st1 m f with
    | (st, Err e) => (st, Err e)
    | (st, Ok f) =>
        match predict f (st_srcs st) with
        | Err e => (st, Err e)
        | Ok d => (mkSt srcs (st_model st) (st_A st) (st_q st) (st_J st) (st_gtg st), Ok (mini_data 0 Rminus Rplus d))
        end
    end.
  (** 245: a missing factorisation cannot multiply *)
  Definition Ainv (st : state) (b : vec) : result vec :=
    match st_A st with Some m => Ok (d_solve s (getA m) b) | None => Err TypeError end.
  (** 205-263 without a vector: the rows of the sensitivity matrix *)
  Definition Jrows (st : state) (m : vec) (f : dfields) : result mat :=
    do rows <- over (fun src u r => do P <- rx_rows src r; mapM (fun row => do a <- Ainv st row; Ok (vopp (getADerivT m u a))) P) f (used st);
    Ok (mini_data (vzero (d_p s)) vsub vadd rows).
  (** 115-121 *)
  Definition getJ (st : state) (m : vec) (f : option dfields) : state * result mat :=
    match set_model st m with
    | (st, Err e) => (st, Err e)
    | (st, Ok _) =>
        match st_J st with
        | Some J => (st, Ok J)
        | None =>
            match given st m f with
            | (st, Err e) => (st, Err e)
            | (st, Ok f) =>
                match Jrows st m f with
                | Err e => (st, Err e)
                | Ok J => (mkSt (st_srcs st) (st_model st) (st_A st) (st_q st) (Some J) (st_gtg st), Ok J)
                end
            end
        end
    end.
  (** 156-187 *)
  Definition Jvec (st : state) (m v : vec) (f : option dfields) : state * result vec :=
    match given st m f with
    | (st, Err e) => (st, Err e)
    | (st, Ok f) =>
        match set_model st m with
        | (st, Err e) => (st, Err e)
        | (st, Ok _) =>
            if d_storeJ s then
              let '(st, J) := getJ st m (Some f) in (st, do J <- J; Ok (mv J v))
            else
              (st, do d <- over (fun src u r => do du <- Ainv st (vopp (getADeriv m u v)); rx_deriv src r du) f (used st);
                   Ok (mini_data 0 Rminus Rplus d))
        end
    end.
  (** 230-251: the parts of [w] are consumed in the order of the data *)
  Fixpoint jt_rx (st : state) (m : vec) (src : source) (u : vec) (rs : list receiver) (w acc : vec) : result (vec * vec) :=
    match rs with
    | [] => Ok (w, acc)
    | r :: rs =>
        do pt <- rx_derivT src r (firstn (nD r) w); do a <- Ainv st pt;
        jt_rx st m src u rs (skipn (nD r) w) (vadd acc (vopp (getADerivT m u a)))
    end.
  Fixpoint jt_src (st : state) (m : vec) (f : dfields) (srcs : list source) (w acc : vec) : result vec :=
    match srcs with
    | [] => Ok acc
    | src :: srcs => do u <- lookup f src; do wa <- jt_rx st m src u (s_rx src) w acc; jt_src st m f srcs (fst wa) (snd wa)
    end.
  (** 189-203 *)
  Definition Jtvec (st : state) (m w : vec) (f : option dfields) : state * result vec :=
    match given st m f with
    | (st, Err e) => (st, Err e)
    | (st, Ok f) =>
        match set_model st m with
        | (st, Err e) => (st, Err e)
        | (st, Ok _) =>
            if d_storeJ s then
              let '(st, J) := getJ st m (Some f) in (st, do J <- J; Ok (mtv (d_p s) J w))
            else (st, jt_src st m f (used st) (mini_dataT w) (vzero (length m)))
        end
    end.
  (** 137-154; [W] is the diagonal of the weights *)
  Definition getJtJdiag (st : state) (m : vec) (W : option vec) (f : option dfields) : state * result vec :=
    match st_gtg st with
    | Some g => (st, Ok g)
    | None =>
        match getJ st m f with
        | (st, Err e) => (st, Err e)
        | (st, Ok J) =>
            let w := match W with None => map (fun _ => 1) J | Some W => map (fun x => x ^ 2) W end in
            let g := fold_left vadd (map (fun wr => vscale (fst wr) (vmul (snd wr) (snd wr))) (combine w J)) (vzero (d_p s)) in
            (mkSt (st_srcs st) (st_model st) (st_A st) (st_q st) (st_J st) (Some g), Ok g)
        end
    end.
  (** 59-63 *)
  Definition set_survey (st : state) (srcs : list source) : state := mkSt srcs (st_model st) (st_A st) (st_q st) (st_J st) (st_gtg st).
End Dc.

(** survey.py 196-237 for pole and dipole sources: the electrodes of every datum *)
Definition elec_a (src : source) : nat := nth 0 (s_locs src) 0%nat.
Definition elec_b (src : source) : nat := match s_locs src with _ :: b :: _ => b | l => nth 0 l 0%nat end.
Definition abmn_rx (src : source) (r : receiver) : list (nat * nat * nat * nat) :=
  map (fun mn => (elec_a src, elec_b src, fst mn, snd mn)) (combine (r_m r) (match r_n r with Some ns => ns | None => r_m r end)).
Definition abmn (srcs : list source) : list (nat * nat * nat * nat) := concat (map (fun src => concat (map (abmn_rx src) (s_rx src))) srcs).
(** utils.py 74-128 *)
Definition sorted_pair (x y : nat) : nat * nat := (Nat.min x y, Nat.max x y).
Definition pair_ltb (a b : nat * nat) : bool := (Nat.ltb (fst a) (fst b) || (Nat.eqb (fst a) (fst b) && Nat.ltb (snd a) (snd b)))%bool.
Definition pair_eqb (a b : nat * nat) : bool := (Nat.eqb (fst a) (fst b) && Nat.eqb (snd a) (snd b))%bool.
(** np.unique(rows, axis=0): sorted without repetition *)
Fixpoint insert_pair (a : nat * nat) (l : list (nat * nat)) : list (nat * nat) :=
  match l with
  | [] => [a]
  | b :: l' => if pair_eqb a b then l else if pair_ltb a b then a :: l else b :: insert_pair a l'
  end.
Definition unique_pairs (l : list (nat * nat)) : list (nat * nat) := fold_right insert_pair [] l.
(** return_inverse *)
Fixpoint index_pair (a : nat * nat) (l : list (nat * nat)) : nat :=
  match l with [] => O | b :: l' => if pair_eqb a b then O else S (index_pair a l') end.
(** 108-122: a run of pairs with the same first electrode becomes a pole source with one pole
    receiver; [cur] is the run being collected (last_src, rxs). *)
Definition pole_source (a : nat) (ms : list nat) : source := mkSrc a [a] [1] [mkRx ms None false []].
Fixpoint group (cur : option (nat * list nat)) (l : list (nat * nat)) : list source :=
  match l with
  | [] => match cur with Some (a, ms) => [pole_source a ms] | None => [] end
  | (x, y) :: l =>
      match cur with
      | Some (a, ms) => if Nat.eqb x a then group (Some (a, ms ++ [y])) l else pole_source a ms :: group (Some (x, [y])) l
      | None => group (Some (x, [y])) l
      end
  end.
Definition mini_pole_pole (srcs : list source) : mini :=
  let e := abmn srcs in
  let tx := map (fun '(a, b, m, n) => negb (Nat.eqb a b)) e in
  let rx := map (fun '(a, b, m, n) => negb (Nat.eqb m n)) e in
  let AM := map (fun '(a, b, m, n) => sorted_pair a m) e in
  let AN := map (fun '(a, b, m, n) => sorted_pair a n) (filter (fun '(a, b, m, n) => negb (Nat.eqb m n)) e) in
  let BM := map (fun '(a, b, m, n) => sorted_pair b m) (filter (fun '(a, b, m, n) => negb (Nat.eqb a b)) e) in
  let BN := map (fun '(a, b, m, n) => sorted_pair b n) (filter (fun '(a, b, m, n) => negb (Nat.eqb a b) && negb (Nat.eqb m n))%bool e) in
  let u := unique_pairs (AM ++ AN ++ BM ++ BN) in
  let inv := map (fun p => index_pair p u) in
  mkMini rx tx (inv AM) (inv AN) (inv BM) (inv BN) (group None u).
