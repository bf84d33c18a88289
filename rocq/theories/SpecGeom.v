(** Vocabulary for electrode distances, geometric factors and apparent resistivities. *)
From Verif Require Import Py Vec Geom.
From Verif Require Survey.
From Coq Require Import String.
Local Open Scope R_scope.

Definition distance (x y : vec) : R := sqrt (dot (vsub x y) (vsub x y)).
(** ** The electrodes of the data *)
(** A, B, M and N of a datum; [None] is an electrode at infinity. *)
Record spread := { ea : vec; eb : option vec; em : vec; en : option vec }.
Fixpoint pairup {A B} (x : list A) (y : list B) : list (A * B) := match x, y with a :: x, b :: y => (a, b) :: pairup x y | _, _ => [] end.
Definition receiver_spreads (a : vec) (b : option vec) (r : grx) : list spread :=
  match g_rx r with
  | RPole ms => map (fun m => {| ea := a; eb := b; em := m; en := None |}) ms
  | RDipole ms ns => map (fun p => {| ea := a; eb := b; em := fst p; en := Some (snd p) |}) (pairup ms ns)
  end.
Definition pair_spreads (s : gsrc) (r : grx) : list spread :=
  match g_src s with
  | SPole a => receiver_spreads a None r
  | SDipole a b => receiver_spreads a (Some b) r
  | SMulti _ => []
  end.
Definition survey_spreads (sv : list gsrc) : list spread := flat_map (fun s => flat_map (pair_spreads s) (g_rxs s)) sv.
Definition same_tables (r : grx) : Prop := match g_rx r with RPole _ => True | RDipole ms ns => List.length ms = List.length ns end.
Definition dipole_tables (sv : list gsrc) : Prop := Forall (fun s => Forall same_tables (g_rxs s)) sv.
(** Nobody is listed twice (the setters of the lists see to that). *)
Definition distinct (sv : list gsrc) : Prop := NoDup (map g_sid sv) /\ Forall (fun s => NoDup (map g_rid (g_rxs s))) sv.
(** The separation of two electrodes. *)
Definition separated (x y : option vec) (d : num) : Prop :=
  match x, y with Some v, Some w => d = Fin (distance v w) | _, _ => d = PInf end.
Definition separation_is (name : string) (e : spread) (d : num) : Prop :=
  match name with
  | "AB" => separated (Some (ea e)) (eb e) d
  | "MN" => separated (Some (em e)) (en e) d
  | "AM" => separated (Some (ea e)) (Some (em e)) d
  | "AN" => separated (Some (ea e)) (en e) d
  | "BM" => separated (eb e) (Some (em e)) d
  | "BN" => separated (eb e) (en e) d
  | _ => False
  end%string.
(** ** Potentials *)
(** The potential at [p] of current electrodes [(I, x)] in a space of resistivity [rho]:
    everywhere, and below a surface at elevation zero (with the images of the electrodes). *)
Definition mirror (v : vec) : vec := removelast v ++ [- last v 0].
Fixpoint total {A} (f : A -> R) (l : list A) : R := match l with [] => 0 | x :: l => f x + total f l end.
Definition whole_space (rho : R) (cs : list (R * vec)) (p : vec) : R := total (fun c => rho * fst c / (4 * PI * distance (snd c) p)) cs.
Definition half_space (rho : R) (cs : list (R * vec)) (p : vec) : R :=
  total (fun c => rho * fst c / (4 * PI) * (/ distance (snd c) p + / distance (mirror (snd c)) p)) cs.
(** The current put into the ground by a source of current [I]. *)
Definition injected (e : spread) (I : R) : list (R * vec) := (I, ea e) :: match eb e with Some b => [(- I, b)] | None => [] end.
(** The voltage measured. *)
Definition voltage (u : list (R * vec) -> vec -> R) (I : R) (e : spread) : R :=
  u (injected e I) (em e) - match en e with Some n => u (injected e I) n | None => 0 end.
(** No current electrode touches a potential electrode. *)
Definition opt_all {A} (P : A -> Prop) (o : option A) : Prop := match o with Some x => P x | None => True end.
Definition clear (e : spread) : Prop :=
  distance (ea e) (em e) <> 0 /\ opt_all (fun b => distance b (em e) <> 0) (eb e) /\
  opt_all (fun n => distance (ea e) n <> 0) (en e) /\ opt_all (fun b => opt_all (fun n => distance b n <> 0) (en e)) (eb e).
Definition on_surface (v : vec) : Prop := v <> [] /\ last v 0 = 0.
Definition sources_on_surface (e : spread) : Prop := on_surface (ea e) /\ opt_all on_surface (eb e).
(** ** Moving electrodes *)
Definition move_rx (F : vec -> vec) (r : grx) : grx :=
  {| g_rid := g_rid r; g_type := g_type r; g_rx := match g_rx r with RPole ms => RPole (map F ms) | RDipole ms ns => RDipole (map F ms) (map F ns) end |}.
Definition move_src (F : vec -> vec) (s : gsrc) : gsrc :=
  {| g_sid := g_sid s; g_src := match g_src s with SPole a => SPole (F a) | SDipole a b => SDipole (F a) (F b) | SMulti l => SMulti (map F l) end;
     g_cur := g_cur s; g_rxs := map (move_rx F) (g_rxs s) |}.
(** [F] multiplies all distances by [c]. *)
Definition similarity (c : R) (F : vec -> vec) : Prop := (forall x, List.length (F x) = List.length x) /\ forall x y, distance (F x) (F y) = c * distance x y.
(** A survey of one datum. *)
Definition datum (a : vec) (b : option vec) (m : vec) (n : option vec) : list gsrc :=
  [ {| g_sid := 0; g_src := match b with None => SPole a | Some b => SDipole a b end; g_cur := [1];
       g_rxs := [ {| g_rid := 0; g_type := AppRes; g_rx := match n with None => RPole [m] | Some n => RDipole [m] [n] end |} ] |} ].
(** ** Pseudo-locations *)
Definition centre (x : vec) (y : option vec) : vec := match y with None => x | Some y => vscale (/ 2) (vadd x y) end.
Definition flat (z : R) (d : nat) (e : spread) : Prop :=
  let ok v := List.length v = d /\ last v 0 = z in ok (ea e) /\ opt_all ok (eb e) /\ ok (em e) /\ opt_all ok (en e).
(** Horizontal distance of the two midpoints. *)
Definition offset (e : spread) : R := distance (removelast (centre (ea e) (eb e))) (removelast (centre (em e) (en e))).
Definition below (e : spread) (z : R) : list num :=
  map Fin (removelast (centre (centre (ea e) (eb e)) (Some (centre (em e) (en e)))) ++ [z]).
Definition single_sources (sv : list gsrc) : Prop := Forall (fun s => match g_src s with SMulti _ => False | _ => True end) sv.
(** Where the datum is placed: below the middle of the two midpoints, at half their horizontal
    distance, or at half the distance AB when they are closer than [tol]. *)
Definition placed (tol z : R) (e : spread) (x : list num) : Prop :=
  (tol <= offset e -> x = below e (z - offset e / 2)) /\ (offset e < tol -> forall b, eb e = Some b -> x = below e (z - distance (ea e) b / 2)).
