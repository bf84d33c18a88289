(** Discrete topography of tensor meshes, points shifted to it, and surveys draped on it:
    simpeg/utils/mesh_utils.py 103-291 and
    simpeg/electromagnetics/static/resistivity/survey.py 77-131, 196-370.
    Tree meshes are not modelled.  Exact reals. *)
From Verif Require Export Py Vec Abmn.
Local Open Scope R_scope.

(** A tensor mesh with two or three dimensions ([m_hy = None]: two). *)
Record tmesh := { m_x0 : R; m_hx : vec; m_y0 : R; m_hy : option vec; m_z0 : R; m_hz : vec }.
Definition mdim (m : tmesh) : nat := match m_hy m with Some _ => 3 | None => 2 end.
Fixpoint centres (x0 : R) (h : vec) : vec := match h with [] => [] | w :: h => (x0 + w / 2) :: centres (x0 + w) h end.
(** the cell centres of the horizontal mesh (154, 174); x runs fastest *)
Definition horizontal (m : tmesh) : list vec :=
  match m_hy m with
  | None => map (fun x => [x]) (centres (m_x0 m) (m_hx m))
  | Some hy => flat_map (fun y => map (fun x => [x; y]) (centres (m_x0 m) (m_hx m))) (centres (m_y0 m) hy) end.
Inductive cutoff := Top | Center | OtherCutoff.
(** the active cells of a column, [reshape(.., order="F")] (156-158, 176) *)
Definition col_active (nc nz : nat) (act : list bool) (i : nat) : list bool := map (fun k => nth (i + nc * k) act false) (seq 0 nz).
(** [ZC[i, :][ACTIND[i, :]]] with the thickness of the cells *)
Definition chosen (zc hz : vec) (a : list bool) : list (R * R) := map fst (filter snd (combine (combine zc hz) a)).
(** [np.argmax]: the first largest *)
Fixpoint highest (best : R * R) (l : list (R * R)) : R * R := match l with [] => best | p :: l => highest (if Rlt_dec (fst best) (fst p) then p else best) l end.
(** 162-170, 179-187; [argmax] and [max] of nothing raise *)
Definition topo_at (cut : cutoff) (zc hz : vec) (a : list bool) : result R :=
  match chosen zc hz a with
  | [] => Err ValueError
  | p :: l => let q := highest p l in match cut with Top => Ok (fst q + snd q / 2) | Center => Ok (fst q) | OtherCutoff => Err ValueError end
  end.
(** 129-188; [active] are booleans, or indices, which are not reshaped to the mesh when there are
    not as many as cells (otherwise they are used as indices of the column) *)
Inductive active := ABool (b : list bool) | AInt (l : list nat).
Definition get_topography (m : tmesh) (act : active) (cut : cutoff) : result (list (vec * R)) :=
  let nc := List.length (horizontal m) in let nz := List.length (m_hz m) in
  let zc := centres (m_z0 m) (m_hz m) in
  match act with
  | ABool b => if negb (List.length b =? nc * nz)%nat then Err ValueError else
      mapM (fun i => do z <- topo_at cut zc (m_hz m) (col_active nc nz b i); Ok (nth i (horizontal m) [], z)) (seq 0 nc)
  | AInt l => if negb (List.length l =? nc * nz)%nat then Err ValueError else
      mapM (fun i => let js := map (fun k => nth (i + nc * k) l 0%nat) (seq 0 nz) in
        if forallb (fun j => (j <? nz)%nat) js then
          do z <- topo_at cut (map (fun j => nth j zc 0) js) (map (fun j => nth j (m_hz m) 0) js) (map (fun _ => true) js); Ok (nth i (horizontal m) [], z)
        else Err IndexError) (seq 0 nc)
  end.

(** ** The nearest column (103-126) *)
Definition dist2 (p q : vec) : R := dot (vsub p q) (vsub p q).
Fixpoint argmin (best : nat) (bd : R) (i : nat) (ds : vec) : nat := match ds with [] => best | d :: ds => if Rlt_dec d bd then argmin i d (S i) ds else argmin best bd (S i) ds end.
Definition argmin0 (ds : vec) : nat := match ds with [] => 0%nat | d :: ds => argmin 0 d 1 ds end.
(** With one column in three dimensions the grid is taken for a list of numbers: the position
    returned is that of the closer coordinate, and position 1 does not exist.  Ties of the search
    tree are resolved for the first column.  *)
Definition closest (grid : list vec) (p : vec) : result nat :=
  match grid, p with
  | [[gx; gy]], [x; y] => if Rlt_dec (Rabs (y - gy)) (Rabs (x - gx)) then Err IndexError else Ok 0%nat
  | _, _ => Ok (argmin0 (map (fun g => dist2 g p) grid))
  end.
(** [mesh.point2index]: the cell of a coordinate inside the mesh; points outside are clipped *)
Fixpoint cell_of (x0 : R) (h : vec) (x : R) : nat := match h with [] => 0%nat | [_] => 0%nat | w :: h => if Rle_dec (x0 + w) x then S (cell_of (x0 + w) h x) else 0%nat end.
Definition cell_centre (m : tmesh) (p : vec) : vec :=
  let at_ x0 h x := nth (cell_of x0 h x) (centres x0 h) 0 in
  match m_hy m with None => [at_ (m_x0 m) (m_hx m) (nth 0 p 0)] | Some hy => [at_ (m_x0 m) (m_hx m) (nth 0 p 0); at_ (m_y0 m) hy (nth 1 p 0)] end.

(** ** Shifting points (206-291) *)
(** one point; [elev]: it has an elevation, which is dropped (269-274) *)
Definition shift1 (m : tmesh) (T : list (vec * R)) (horiz elev : bool) (p : vec) : result vec :=
  let h := if elev then removelast p else p in
  do i <- closest (map fst T) h;
  let t := nth i T ([], 0) in
  Ok (if horiz then (if elev then cell_centre m p ++ [snd t] else fst t ++ [snd t]) else h ++ [snd t]).
Inductive height := One (x : R) | Each (l : vec).
Fixpoint raise_last (p : vec) (dz : R) : vec := match p with [] => [] | [z] => [z + dz] | x :: p => x :: raise_last p dz end.
(** [cols] is [pts.shape[1]]; a single point without elevation is squeezed to something else,
    which raises (274-289) *)
Definition shift_points (m : tmesh) (act : active) (cut : cutoff) (horiz : bool) (hs : height) (cols : nat) (pts : list vec) : result (list vec) :=
  if match hs with One _ => false | Each l => negb (List.length pts =? List.length l)%nat end then Err ValueError else
  do T <- get_topography m act cut;
  let elev := (cols =? mdim m)%nat in
  if (negb elev && (List.length pts =? 1)%nat)%bool then Err (if (mdim m =? 2)%nat then TypeError else if horiz then IndexError else ValueError) else
  do out <- mapM (shift1 m T horiz elev) pts;
  Ok (match hs with One z => map (fun p => raise_last p z) out | Each l => map (fun q => raise_last (fst q) (snd q)) (combine out l) end).

(** ** Surveys *)
Inductive skind := KPole | KDipole | KMulti.
Record dsrc := { d_kind : skind; d_locs : list vec; d_rxs : list receiver }.
Record tabs := { t_a : list vec; t_b : list vec; t_m : list vec; t_n : list vec }.
(** The tables are kept once they were asked for (77-131). *)
Record dsurvey := { v_src : list dsrc; v_cache : option tabs }.
(** [_set_abmn_locations] (196-237) for a source and a receiver *)
Definition rx_tabs (s : dsrc) (rx : receiver) : tabs :=
  let n := rx_nD rx in
  let loc i := nth i (d_locs s) [] in
  let tiled := List.concat (repeat (d_locs s) n) in
  {| t_a := match d_kind s with KMulti => tiled | _ => repeat (loc 0%nat) n end;
     t_b := match d_kind s with KMulti => tiled | KPole => repeat (loc 0%nat) n | KDipole => repeat (loc 1%nat) n end;
     t_m := match rx with RxPole ms => ms | RxDipole ms _ => ms end;
     t_n := match rx with RxPole ms => ms | RxDipole _ ns => ns end |}.
Definition all_tabs (l : list dsrc) : list tabs := flat_map (fun s => map (rx_tabs s) (d_rxs s)) l.
Definition tables (l : list dsrc) : tabs :=
  let ts := all_tabs l in {| t_a := flat_map t_a ts; t_b := flat_map t_b ts; t_m := flat_map t_m ts; t_n := flat_map t_n ts |}.
(** reading a table: the survey afterwards and the tables *)
Definition read_tables (v : dsurvey) : dsurvey * tabs := match v_cache v with Some t => (v, t) | None => let t := tables (v_src v) in ({| v_src := v_src v; v_cache := Some t |}, t) end.
(** giving a source another place, a receiver other places *)
Definition set_location (v : dsurvey) (k : nat) (locs : list vec) : dsurvey :=
  {| v_src := map (fun p => if (fst p =? k)%nat then {| d_kind := d_kind (snd p); d_locs := locs; d_rxs := d_rxs (snd p) |} else snd p) (combine (seq 0 (List.length (v_src v))) (v_src v)); v_cache := v_cache v |}.
(** [np.unique(.., return_inverse=True)] and [electrodes_shifted[inv]] (315-334): only the inverse
    is used, so the order of the unique rows does not matter *)
Definition unique (l : list vec) : list vec := nodup (list_eq_dec Req_EM_T) l.
Fixpoint find_row (p : vec) (l : list vec) : nat := match l with [] => 0%nat | q :: l => if list_eq_dec Req_EM_T q p then 0%nat else S (find_row p l) end.
Definition move_rows (u sh : list vec) (l : list vec) : list vec := map (fun p => nth (find_row p u) sh []) l.
Definition slice {A} (l : list A) (i j : nat) : list A := firstn (j - i) (skipn i l).
Fixpoint drape_rxs (sm sn : list vec) (ind : nat) (rxs : list receiver) : nat * list receiver :=
  match rxs with
  | [] => (ind, [])
  | rx :: rxs =>
    let e := (ind + rx_nD rx)%nat in
    let rx' := match rx with RxPole _ => RxPole (slice sm ind e) | RxDipole _ _ => RxDipole (slice sm ind e) (slice sn ind e) end in
    let r := drape_rxs sm sn e rxs in (fst r, rx' :: snd r) end.
(** 337-352 *)
Fixpoint drape_srcs (sa sb sm sn : list vec) (ind : nat) (l : list dsrc) : result (list dsrc) :=
  match l with
  | [] => Ok []
  | s :: l =>
    match nth_error sa ind, nth_error sb ind with
    | Some a, Some b =>
      let r := drape_rxs sm sn ind (d_rxs s) in
      do l' <- drape_srcs sa sb sm sn (fst r) l;
      Ok ({| d_kind := d_kind s; d_locs := match d_kind s with KDipole => [a; b] | _ => [a] end; d_rxs := snd r |} :: l')
    | _, _ => Err IndexError end end.
(** 237-370 for a survey of the surface *)
Definition drape (m : tmesh) (act : active) (cut : cutoff) (horiz : bool) (v : dsurvey) : result dsurvey :=
  let t := snd (read_tables v) in
  let two := map (firstn 2) in
  let la := two (t_a t) in let lb := two (t_b t) in let lm := two (t_m t) in let ln := two (t_n t) in
  let u := unique (la ++ lb ++ lm ++ ln) in
  do sh <- shift_points m act cut horiz (One 0) 2 u;
  let sa := move_rows u sh la in let sb := move_rows u sh lb in let sm := move_rows u sh lm in let sn := move_rows u sh ln in
  do l <- drape_srcs sa sb sm sn 0 (v_src v);
  Ok {| v_src := l; v_cache := Some {| t_a := sa; t_b := sb; t_m := sm; t_n := sn |} |}.
