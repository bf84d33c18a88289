(** Electrode distances, geometric factors, apparent resistivities and pseudo-locations:
    simpeg/electromagnetics/static/utils/static_utils.py 43-339, resistivity/survey.py 168-194,
    resistivity/receivers.py 125-244.  Exact reals with the infinities and nan of IEEE
    arithmetic. *)
From Verif Require Export Py Vec.
From Verif Require Survey.
From Coq Require Import Ascii String.
Local Open Scope R_scope.

(** Floating-point values: a finite number, the two infinities, nan. *)
Inductive num := Fin (r : R) | PInf | MInf | Nan.
Definition nneg (x : num) : num := match x with Fin r => Fin (- r) | PInf => MInf | MInf => PInf | Nan => Nan end.
Definition nadd (x y : num) : num :=
  match x, y with
  | Fin a, Fin b => Fin (a + b)
  | Nan, _ | _, Nan => Nan
  | PInf, MInf | MInf, PInf => Nan
  | PInf, _ | _, PInf => PInf
  | MInf, _ | _, MInf => MInf
  end.
Definition nsub (x y : num) : num := nadd x (nneg y).
Definition nabs (x : num) : num := match x with Fin r => Fin (Rabs r) | PInf | MInf => PInf | Nan => Nan end.
(** A finite number over a value; zero counts as [+0.0]. *)
Definition ndiv (a : R) (x : num) : num :=
  match x with
  | Fin r => if Req_EM_T r 0 then (if Rlt_dec 0 a then PInf else if Rlt_dec a 0 then MInf else Nan) else Fin (a / r)
  | PInf | MInf => Fin 0
  | Nan => Nan
  end.
(** A value times or over a finite number. *)
Definition nmulr (a : R) (x : num) : num :=
  match x with
  | Fin r => Fin (a * r)
  | Nan => Nan
  | PInf => if Rlt_dec 0 a then PInf else if Rlt_dec a 0 then MInf else Nan
  | MInf => if Rlt_dec 0 a then MInf else if Rlt_dec a 0 then PInf else Nan
  end.

(** ** Sources and receivers *)
(** resistivity/receivers.py 78-111: the data types; 247-498: the two classes.  A dipole
    receiver's two tables have one shape (336-342). *)
Inductive dtype := Volt | AppRes | AppCharge.
Inductive rkind := RPole (ms : list vec) | RDipole (ms ns : list vec).
Record grx := { g_rid : nat; g_type : dtype; g_rx : rkind }.
(** resistivity/sources.py 107-270; the current of a dipole is [[current, -current]] (201). *)
Inductive skind := SPole (a : vec) | SDipole (a b : vec) | SMulti (locs : list vec).
Record gsrc := { g_sid : nat; g_src : skind; g_cur : list R; g_rxs : list grx }.
(** [nD] (receivers.py 369-377, 450-459) *)
Definition g_ms (r : grx) : list vec := match g_rx r with RPole ms | RDipole ms _ => ms end.
Definition g_nD (r : grx) : nat := List.length (g_ms r).

(** ** Electrode separations *)
(** Where an electrode is: at a place, or at the place [inf * ones] or [-inf * ones] that
    stands for the second electrode of a pole (125, 138). *)
Inductive place := At (v : vec) | FarPlus | FarMinus.
(** [np.linalg.norm(x - y)]; every difference with an infinite coordinate is infinite
    (locations have at least one coordinate), and [inf] minus [-inf] too; the difference of
    two equally signed infinities is nan but does not occur.  Rows of different lengths
    do not broadcast; here the check is made by [rows_of]. *)
Definition norm2 (v : vec) : R := sqrt (dot v v).
Definition psep (x y : place) : num :=
  match x, y with
  | At v, At w => Fin (norm2 (vsub v w))
  | FarPlus, FarPlus | FarMinus, FarMinus => Nan
  | _, _ => PInf
  end.
Record quad := { qa : place; qb : place; qm : place; qn : place }.
(** 118-151: the four electrodes of each datum, source by source, receiver by receiver. *)
Fixpoint zipq (a b : place) (ms : list vec) (ns : list place) : list quad :=
  match ms, ns with m :: ms, n :: ns => {| qa := a; qb := b; qm := At m; qn := n |} :: zipq a b ms ns | _, _ => [] end.
Definition rx_quads (a b : place) (r : grx) : list quad :=
  match g_rx r with
  | RPole ms => zipq a b ms (map (fun _ => FarMinus) ms)
  | RDipole ms ns => zipq a b ms (map At ns)
  end.
Definition src_places (s : gsrc) : result (place * place) :=
  match g_src s with
  | SDipole a b => Ok (At a, At b)
  | SPole a => Ok (At a, FarPlus)
  | SMulti _ => Err NotImplementedError
  end.
Definition even_rows (a : place) (r : grx) : bool :=
  match a with At v => forallb (fun m => (List.length m =? List.length v)%nat) (g_ms r) | _ => true end.
Definition src_quads (s : gsrc) : result (list (list quad)) :=
  do p <- src_places s;
  mapM (fun r => if even_rows (fst p) r then Ok (rx_quads (fst p) (snd p) r) else Err ValueError) (g_rxs s).
(** One list of rows per pair of a source and a receiver. *)
Definition rows_of (sv : list gsrc) : result (list (list quad)) := do l <- mapM src_quads sv; Ok (List.concat l).
(** The six distances (146-151) and their names. *)
Definition sep (name : string) (q : quad) : option num :=
  if string_dec name "AB" then Some (psep (qa q) (qb q))
  else if string_dec name "MN" then Some (psep (qm q) (qn q))
  else if string_dec name "AM" then Some (psep (qa q) (qm q))
  else if string_dec name "AN" then Some (psep (qa q) (qn q))
  else if string_dec name "BM" then Some (psep (qb q) (qm q))
  else if string_dec name "BN" then Some (psep (qb q) (qn q)) else None.
Definition pair_names : list string := ["AB"; "MN"; "AM"; "AN"; "BM"; "BN"]%string.
(** [str.lower] and [str.upper] for ASCII letters. *)
Definition lower_ascii (c : ascii) : ascii := let n := nat_of_ascii c in if (65 <=? n)%nat && (n <=? 90)%nat then ascii_of_nat (n + 32) else c.
Definition upper_ascii (c : ascii) : ascii := let n := nat_of_ascii c in if (97 <=? n)%nat && (n <=? 122)%nat then ascii_of_nat (n - 32) else c.
Fixpoint smap (f : ascii -> ascii) (s : string) : string := match s with EmptyString => EmptyString | String c s => String (f c) (smap f s) end.
Definition lower := smap lower_ascii.
Definition upper := smap upper_ascii.
(** The argument [electrode_pair]: a list of strings, a string, or something without
    [lower] (98-108; the [TypeError] of 104 is never reached). *)
Inductive pairs_arg := PList (l : list string) | PStr (s : string) | POther.
Definition pair_list (p : pairs_arg) : result (list string) :=
  match p with
  | PList l => Ok l
  | PStr s => if string_dec (lower s) "all" then Ok pair_names else Ok [upper s]
  | POther => Err AttributeError
  end.
Definition has (l : list string) (s : string) : bool := if in_dec string_dec s l then true else false.
Fixpoint somes {A} (l : list (option A)) : list A := match l with [] => [] | Some x :: l => x :: somes l | None :: l => somes l end.
(** 81-179: the dictionary in the order of its assignments. *)
Definition electrode_separations (sv : list gsrc) (p : pairs_arg) : result (list (string * list num)) :=
  do l <- pair_list p;
  do rows <- rows_of sv;
  Ok (map (fun n => (n, somes (map (sep n) (List.concat rows)))) (filter (has l) pair_names)).

(** ** Geometric factors *)
(** 70-73 and 288-293 *)
Definition whole_names : list string := ["whole space"; "whole-space"; "whole_space"; "wholespace"; "whole"]%string.
Definition half_names : list string := ["half space"; "half-space"; "half_space"; "halfspace"; "half"]%string.
Definition space_factor (s : string) : result R :=
  if has whole_names (lower s) then Ok 4 else if has half_names (lower s) then Ok 2 else Err TypeError.
(** 306-308 *)
Definition gfac (c : R) (q : quad) : num :=
  nmulr (/ (c * PI)) (nadd (nsub (nsub (ndiv 1 (psep (qa q) (qm q))) (ndiv 1 (psep (qb q) (qm q)))) (ndiv 1 (psep (qa q) (qn q)))) (ndiv 1 (psep (qb q) (qn q)))).
(** 260-308; without receivers the distances are empty lists and [1 / []] raises. *)
Definition geometric_factor (sv : list gsrc) (space : string) : result (list num) :=
  do c <- space_factor space;
  do rows <- rows_of sv;
  match rows with [] => Err TypeError | _ => Ok (map (gfac c) (List.concat rows)) end.
(** 311-339; volts of another length than the data are taken to raise. *)
Fixpoint zipn {A B C} (f : A -> B -> C) (x : list A) (y : list B) : list C :=
  match x, y with a :: x, b :: y => f a b :: zipn f x y | _, _ => [] end.
Definition app_res (eps v : R) (g : num) : num := nabs (nmulr v (ndiv 1 (nadd g (Fin eps)))).
Definition apparent_resistivity_from_voltage (sv : list gsrc) (volts : vec) (space : string) (eps : R) : result (list num) :=
  do G <- geometric_factor sv space;
  if (List.length volts =? List.length G)%nat then Ok (zipn (app_res eps) volts G) else Err ValueError.

(** ** Apparent resistivity data *)
(** The dictionaries [_geometric_factor] of all receivers (receivers.py 38), keyed by source
    and receiver. *)
Definition store := list (Survey.pkey * list num).
Definition to_src (s : gsrc) : Survey.src := Survey.mkSrc (g_sid s) (map (fun r => Survey.mkRx (g_rid r) (g_nD r)) (g_rxs s)) 1.
Definition part {A} (sl : Survey.slice) (l : list A) : list A := firstn (snd sl - fst sl) (skipn (fst sl) l).
(** survey.py 188-193 *)
Definition gf_step (slices : list (Survey.pkey * Survey.slice)) (G : list num) (d : store) (p : gsrc * grx) : store :=
  match g_type (snd p) with
  | AppRes =>
    let k := (g_sid (fst p), g_rid (snd p)) in
    match dict_get Survey.pkey_eqb k slices with Some sl => dict_set Survey.pkey_eqb k (part sl G) d | None => d end
  | _ => d
  end.
Definition g_pairs (sv : list gsrc) : list (gsrc * grx) := flat_map (fun s => map (fun r => (s, r)) (g_rxs s)) sv.
(** survey.py 168-194 *)
Definition set_geometric_factor (sv : list gsrc) (space : string) (d : store) : result (store * list num) :=
  do G <- geometric_factor sv space;
  Ok (fold_left (gf_step (Survey.get_all_slices (map to_src sv)) G) (g_pairs sv) d, G).
(** receivers.py 182-192: the data of a receiver from the potentials at its electrodes. *)
Definition rx_eval (d : store) (s : gsrc) (r : grx) (v : vec) : result (list num) :=
  match g_type r with
  | AppRes => match dict_get Survey.pkey_eqb (g_sid s, g_rid r) d with
              | Some g => Ok (zipn ndiv v g)
              | None => Err KeyError
              end
  | _ => Ok (map Fin v)
  end.
(** receivers.py 225-244 with a vector, for finite factors different from zero; [P] is the
    interpolation matrix with [n] columns. *)
Definition rx_deriv (P : mat) (factor : option vec) (v : vec) : vec :=
  match factor with Some g => vmul (map Rinv g) (mv P v) | None => mv P v end.
Definition rx_deriv_t (n : nat) (P : mat) (factor : option vec) (w : vec) : vec :=
  match factor with Some g => mtv n P (vmul (map Rinv g) w) | None => mtv n P w end.

(** ** Pseudo-locations (182-257) *)
Fixpoint vmean_sum (d : nat) (l : list vec) : vec := match l with [] => vzero d | v :: l => vadd v (vmean_sum d l) end.
Definition src_locs (s : gsrc) : list vec := match g_src s with SPole a => [a] | SDipole a b => [a; b] | SMulti l => l end.
Definition vmid (x y : vec) : vec := vscale (/ 2) (vadd x y).
Definition src_mid (s : gsrc) : vec := let l := src_locs s in vscale (/ INR (List.length l)) (vmean_sum (List.length (hd [] l)) l).
Definition rx_mids (r : grx) : list vec := match g_rx r with RPole ms => ms | RDipole ms ns => zipn vmid ms ns end.
(** Midpoints and the vectors from source to receiver midpoints (216-235). *)
Definition spreads (sv : list gsrc) : list (vec * vec) :=
  flat_map (fun p => map (fun y => (vmid (src_mid (fst p)) y, vsub y (src_mid (fst p)))) (rx_mids (snd p))) (g_pairs sv).
(** 239 *)
Definition horizontal (ds : vec) : R := norm2 (removelast ds).
Definition wenner (tol : R) (ds : vec) : bool := if Rlt_dec (horizontal ds) tol then true else false.
(** 236-255: [pseudo_depth] for one datum; [ab] is the distance of its current electrodes. *)
Definition pseudo_depth (tol : R) (ds : vec) (ab : num) : list num :=
  let d := List.length ds in
  let z := repeat (Fin 0) (d - 1) in
  if wenner tol ds then z ++ [nmulr (/ 2) (nabs ab)]
  else
    let L := norm2 ds / 2 in
    let dz := last ds 0 in
    let shift k := ndiv (dz / 2 * nth k ds 0) (Fin L) in
    match d with
    | 0%nat => []
    | 1%nat => [Fin (horizontal ds / 2)]
    | 2%nat => [shift 0%nat; Fin (horizontal ds / 2)]
    | _ => shift 0%nat :: shift 1%nat :: repeat (Fin 0) (d - 3) ++ [Fin (horizontal ds / 2)]
    end.
Definition locate (mid : vec) (depth : list num) : list num := zipn (fun x p => nsub (Fin x) p) mid depth.
(** Without data [np.vstack] raises; the current electrodes are looked at only when a datum
    is Wenner-like (242-244). *)
Definition pseudo_locations (tol : R) (sv : list gsrc) : result (list (list num)) :=
  match spreads sv with
  | [] => Err ValueError
  | sp =>
    if existsb (fun p => wenner tol (snd p)) sp then
      do rows <- rows_of sv;
      Ok (zipn (fun p q => locate (fst p) (pseudo_depth tol (snd p) (psep (qa q) (qb q)))) sp (List.concat rows))
    else Ok (map (fun p => locate (fst p) (pseudo_depth tol (snd p) Nan)) sp)
  end.
