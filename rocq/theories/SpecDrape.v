(** Vocabulary for discrete topography and draped surveys. *)
From Verif Require Import Py Vec Abmn Drape.
Local Open Scope R_scope.

Definition thick (h : vec) : Prop := Forall (fun w => 0 < w) h.
(** The face below cell [k]. *)
Definition face (x0 : R) (h : vec) (k : nat) : R := x0 + vsum (firstn k h).
Definition is_active (m : tmesh) (b : list bool) (i k : nat) : Prop := nth (i + List.length (horizontal m) * k) b false = true.
(** [z] is the top of the highest active cell of column [i], or its centre. *)
Definition highest_active (m : tmesh) (b : list bool) (i k : nat) : Prop :=
  (k < List.length (m_hz m))%nat /\ is_active m b i k /\ forall k', (k < k' < List.length (m_hz m))%nat -> ~ is_active m b i k'.
Definition surface_of (m : tmesh) (b : list bool) (i : nat) (z : R) : Prop := exists k, highest_active m b i k /\ z = face (m_z0 m) (m_hz m) (S k).
Definition surface_centre (m : tmesh) (b : list bool) (i : nat) (z : R) : Prop := exists k, highest_active m b i k /\ z = (face (m_z0 m) (m_hz m) k + face (m_z0 m) (m_hz m) (S k)) / 2.
Definition some_active (m : tmesh) (b : list bool) (i : nat) : Prop := exists k, (k < List.length (m_hz m))%nat /\ is_active m b i k.
(** Cells of one width in x, and of one in y. *)
Definition even (m : tmesh) : Prop := exists wx nx, 0 < wx /\ m_hx m = repeat wx nx /\ match m_hy m with Some hy => exists wy ny, 0 < wy /\ hy = repeat wy ny | None => True end.
(** The point lies inside column [i] = ix + nx * iy. *)
Definition between (x0 : R) (h : vec) (k : nat) (x : R) : Prop := (k < List.length h)%nat /\ face x0 h k < x < face x0 h (S k).
Definition own_column (m : tmesh) (p : vec) (i : nat) : Prop :=
  match m_hy m with
  | None => exists x, p = [x] /\ between (m_x0 m) (m_hx m) i x
  | Some hy => exists x y ix iy, p = [x; y] /\ i = (ix + List.length (m_hx m) * iy)%nat /\ between (m_x0 m) (m_hx m) ix x /\ between (m_y0 m) hy iy y end.
Definition height_of (hs : height) (j : nat) : R := match hs with One z => z | Each l => nth j l 0 end.
(** ** Surveys *)
Definition electrodes_in (l : list dsrc) (p : vec) : Prop := exists s, In s l /\ (In p (d_locs s) \/ exists rx, In rx (d_rxs s) /\ match rx with RxPole ms => In p ms | RxDipole ms ns => In p ms \/ In p ns end).
(** The column of an electrode of a survey: for a line (x, z), the elevation is left out. *)
Definition own_place (m : tmesh) (p : vec) (i : nat) : Prop := match m_hy m with Some _ => own_column m (firstn 2 p) i | None => own_column m (firstn 1 p) i /\ List.length p = 2%nat end.
Definition good_rx (rx : receiver) : Prop := match rx with RxPole ms => ms <> [] | RxDipole ms ns => ms <> [] /\ List.length ns = List.length ms end.
Definition good_src (s : dsrc) : Prop := d_rxs s <> [] /\ Forall good_rx (d_rxs s) /\ match d_kind s with KPole => List.length (d_locs s) = 1%nat | KDipole => List.length (d_locs s) = 2%nat | KMulti => False end.
Definition current (v : dsurvey) : Prop := v_cache v = None \/ v_cache v = Some (tables (v_src v)).
Definition move_rx (g : vec -> vec) (rx : receiver) : receiver := match rx with RxPole ms => RxPole (map g ms) | RxDipole ms ns => RxDipole (map g ms) (map g ns) end.
Definition move_src (g : vec -> vec) (s : dsrc) : dsrc := {| d_kind := d_kind s; d_locs := map g (d_locs s); d_rxs := map (move_rx g) (d_rxs s) |}.
(** ** Concrete meshes and surveys *)
Definition demo_topo : tmesh := {| m_x0 := 0; m_hx := [10; 1]; m_y0 := 0; m_hy := None; m_z0 := -2; m_hz := [1; 1] |}.
Definition demo_active : list bool := [true; true; true; false].
Definition even_topo : tmesh := {| m_x0 := 0; m_hx := repeat 10 2; m_y0 := 0; m_hy := Some (repeat 10 1); m_z0 := -2; m_hz := [1; 1] |}.
Definition demo_line : list dsrc := [ {| d_kind := KPole; d_locs := [[2; 5; 7]]; d_rxs := [RxDipole [[4; 5; 7]] [[12; 5; 7]]] |} ].
Definition even_active : list bool := [true; true; true; false].
