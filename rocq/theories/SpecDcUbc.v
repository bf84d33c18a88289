(** Vocabulary for the UBC DC/IP files. *)
From Verif Require Import Py Vec DcUbc.
Local Open Scope R_scope.

(** A number per component. *)
Definition located (dim : nat) (x : loc) : Prop := List.length x = dim /\ Forall (fun c => c <> None) x.
Definition rx_ok (dim : nat) (r : rx) : Prop :=
  match r with PoleRx m => Forall (located dim) m | DipoleRx m n => Forall (located dim) m /\ Forall (located dim) n /\ List.length m = List.length n end.
Definition src_ok (dim : nat) (s : src) : Prop :=
  (match s with PoleSrc a _ => located dim a | DipoleSrc a b _ => located dim a /\ located dim b end) /\ Forall (rx_ok dim) (receivers s) /\ (0 < src_nD s)%nat.
Definition data_ok (dim : nat) (d : data) : Prop :=
  Forall (src_ok dim) (d_srcs d) /\ List.length (d_obs d) = nD (d_srcs d) /\
  forall w, d_std d = Some w -> List.length w = nD (d_srcs d) /\ Forall (fun x => negative x = false) w.
(** What printing leaves of a position; at the surface the elevation is lost. *)
Definition printed (P : R -> R) (x : loc) : loc := map (option_map P) x.
Definition lifted (surface : bool) (dim : nat) (P : R -> R) (x : loc) : loc := if surface then printed P (firstn (dim - 1) x) ++ [sky] else printed P x.
(** Two ends of a dipole that can be told apart in the file: some component differs by more than
    the tolerance. *)
Definition apart (surface : bool) (dim : nat) (P : R -> R) (x y : loc) : Prop :=
  exists k u v, (k < if surface then dim - 1 else dim)%nat /\ nth k x None = Some u /\ nth k y None = Some v /\ / 100000000 + / 100000 * Rabs (P v) < Rabs (P u - P v).
(** Surveys of one kind of sources and one kind of receivers. *)
Definition pole_srcs (ss : list src) : Prop := Forall (fun s => match s with PoleSrc _ _ => True | _ => False end) ss.
Definition dipole_srcs (surface : bool) (dim : nat) (P : R -> R) (ss : list src) : Prop := Forall (fun s => match s with DipoleSrc a b _ => apart surface dim P a b | _ => False end) ss.
Definition pole_rx (r : rx) : Prop := match r with PoleRx _ => True | _ => False end.
Definition dipole_rx (surface : bool) (dim : nat) (P : R -> R) (r : rx) : Prop := match r with DipoleRx m n => Forall2 (apart surface dim P) m n | _ => False end.
Definition pole_rxs (ss : list src) : Prop := Forall (fun s => Forall pole_rx (receivers s)) ss.
Definition dipole_rxs (surface : bool) (dim : nat) (P : R -> R) (ss : list src) : Prop := Forall (fun s => Forall (dipole_rx surface dim P) (receivers s)) ss.
(** All positions of the receivers of a source. *)
Definition ms (s : src) : list loc := concat (map (fun r => match r with PoleRx m => m | DipoleRx m _ => m end) (receivers s)).
Definition ns (s : src) : list loc := concat (map (fun r => match r with PoleRx m => m | DipoleRx _ n => n end) (receivers s)).
(** The survey with printed positions and one receiver object per source. *)
Definition merged (surface : bool) (dim : nat) (P : R -> R) (s : src) : src :=
  let p := lifted surface dim P in
  let r := if forallb (fun r => match r with PoleRx _ => true | _ => false end) (receivers s) then PoleRx (map p (ms s)) else DipoleRx (map p (ms s)) (map p (ns s)) in
  match s with PoleSrc a _ => PoleSrc (p a) [r] | DipoleSrc a b _ => DipoleSrc (p a) (p b) [r] end.
(** What comes back for the three kinds of files. *)
Definition expected (surface : bool) (dim : nat) (P : R -> R) (k : kind) (d : data) : data :=
  mkData (map (merged surface dim P) (d_srcs d))
    (match k with Survey => repeat None (nD (d_srcs d)) | _ => map (option_map P) (d_obs d) end)
    (match k with Dobs => option_map (map (option_map P)) (d_std d) | _ => None end).
Definition first_end (s : src) : loc := match s with PoleSrc a _ => a | DipoleSrc a _ _ => a end.
Definition is_pole (s : src) : Prop := match s with PoleSrc _ _ => True | _ => False end.
(** Examples *)
Definition pt (x y z : R) : loc := [Some x; Some y; Some z].
Definition one_rx : rx := DipoleRx [pt 200 0 0] [pt 300 0 0].
Definition utm : src := DipoleSrc (pt 500000 5500000 300) (pt 500000 5500050 300) [DipoleRx [pt 500000 5500200 300] [pt 500000 5500300 300]].
Definition dip (x : R) : src := DipoleSrc (pt x 0 0) (pt (x + 100) 0 0) [one_rx; one_rx].
Definition pol (x : R) : src := PoleSrc (pt x 0 0) [PoleRx [pt 200 0 0; pt 300 0 0]].
Definition flat (x : R) : loc := [Some x; Some 0].
Definition dip2 (x : R) : src := DipoleSrc (flat x) (flat (x + 100)) [PoleRx [flat 200; flat 300]].
