(** Model of the index-routing maps: Projection and Wires (maps/_base.py),
    InjectActiveCells (maps/_injection.py), SurjectFull, SurjectVertical1D,
    Surject2Dto3D and SurjectUnits (maps/_surjection.py).  1-D models only. *)
From Coq Require Import ZArith String.
From Verif Require Import Py Vec Frechet MapsM.
Local Open Scope R_scope.

(** [sp.csr_matrix((val, (row, col)), shape=(nr, nc))]: repeated positions add up. *)
Definition entry (l : list (nat * nat * R)) (i j : nat) : R :=
  vsum (map (fun t => if Nat.eqb (fst (fst t)) i && Nat.eqb (snd (fst t)) j then snd t else 0) l).
Definition coo (nr nc : nat) (l : list (nat * nat * R)) : mat :=
  map (fun i => map (fun j => entry l i j) (seq 0 nc)) (seq 0 nr).
(** Triplets [(np.ones(n), (range(n), cols))]. *)
Definition row_sel (cols : list nat) : list (nat * nat * R) :=
  map (fun rc => (fst rc, snd rc, 1)) (combine (seq 0 (length cols)) cols).
(** [np.where(mask)[0]] *)
Definition where_ (b : list bool) : list nat := filter (fun i => nth i b false) (seq 0 (length b)).

(** ** Projection, _base.py 667-740 *)
(** The accepted forms of [index]: integer array or list, slice [start:stop] with step 1,
    boolean array, list of Python booleans. *)
Inductive pindex := IInts (l : list Z) | ISlice (start stop : Z) | IMask (b : list bool) | IBools (b : list bool).
(** [slice(a, b).indices(n)] followed by [range] *)
Definition clamp (n a : Z) : Z := if Z.ltb a 0 then Z.max 0 (a + n) else Z.min a n.
Definition slice_list (n : nat) (a b : Z) : list nat :=
  let lo := clamp (Z.of_nat n) a in let hi := clamp (Z.of_nat n) b in seq (Z.to_nat lo) (Z.to_nat (hi - lo)).
(** How the transform indexes the model ([m[self.index]], 688-689), and the matrix P
    given by its column numbers (686). *)
Record proj := mkProj { pj_np : nat; pj_sel : list nat + list bool; pj_cols : list nat }.
Definition proj_checked (nP : nat) (l : list Z) (sel : list nat -> list nat + list bool) : result proj :=
  match l with
  | [] => Err ValueError (* 683: max of an empty sequence *)
  | _ => if forallb (fun z => Z.ltb z (Z.of_nat nP)) l
         then if forallb (fun z => Z.leb 0 z) l (* 686: scipy rejects negative columns *)
              then let c := map Z.to_nat l in Ok (mkProj nP (sel c) c) else Err ValueError
         else Err AssertionError
  end.
Definition proj_init (nP : nat) (ix : pindex) : result proj :=
  match ix with
  | IInts l => proj_checked nP l inl
  | ISlice a b => proj_checked nP (map Z.of_nat (slice_list nP a b)) inl
  | IMask b => proj_checked nP (map Z.of_nat (where_ b)) inl
  | IBools b => proj_checked nP (map (fun x : bool => if x then 1%Z else 0%Z) b) (fun _ => inr b)
  end.
(** [m[index]]: a list of booleans is a mask and must have the length of [m]. *)
Definition proj_value (p : proj) (m : vec) : result vec :=
  match pj_sel p with
  | inl l => Ok (map (fun i => nth i m 0) l)
  | inr b => if Nat.eqb (length b) (length m) then Ok (map (fun i => nth i m 0) (where_ b)) else Err IndexError
  end.
(** 239-246: [projection * m] *)
Definition proj_apply (p : proj) (m : vec) : result vec :=
  if Nat.eqb (pj_np p) (length m) then proj_value p m else Err ValueError.
Definition proj_P (p : proj) : mat := coo (length (pj_cols p)) (pj_np p) (row_sel (pj_cols p)).

(** ** Wires, _base.py 1135-1166 *)
Definition zsum (l : list Z) : Z := fold_right Z.add 0%Z l.
(** The loop 1152-1156; the names are checked by namedtuple (1159): duplicates raise. *)
Fixpoint wires_go (nP : nat) (start : Z) (args : list (string * Z)) : result (list (string * proj)) :=
  match args with
  | [] => Ok []
  | (s, n) :: args' =>
      do w <- proj_init nP (ISlice start (start + n));
      do ws <- wires_go nP (start + n) args';
      Ok ((s, w) :: ws)
  end.
Fixpoint nodupb (l : list string) : bool :=
  match l with [] => true | x :: l' => negb (existsb (String.eqb x) l') && nodupb l' end.
(** [Projection(nP, slice)] with a negative [nP] is not modelled (nP is the sum of the lengths). *)
Definition wires_init (args : list (string * Z)) : result (list (string * proj)) :=
  do ws <- wires_go (Z.to_nat (zsum (map snd args))) 0%Z args;
  if nodupb (map fst args) then Ok ws else Err ValueError.
(** 1161-1166 *)
Definition wires_apply (ws : list (string * proj)) (m : vec) : result (list (string * vec)) :=
  mapM (fun w => do y <- proj_apply (snd w) m; Ok (fst w, y)) ws.

(** ** InjectActiveCells, _injection.py 158-342 *)
Fixpoint upd (i : nat) (x : R) (l : vec) : vec :=
  match l, i with [], _ => [] | _ :: l', O => x :: l' | y :: l', S i' => y :: upd i' x l' end.
(** [a[idx] = vals] *)
Definition put (a : vec) (idx : list nat) (vals : vec) : vec :=
  fold_left (fun a p => upd (fst p) (snd p) a) (combine idx vals) a.
(** [P] is kept as its column list (where the active cells were at construction). *)
Record inject := mkInject { ij_active : list bool; ij_rows : list nat; ij_nP0 : nat; ij_inactive : vec }.
Inductive inactive := Scalar (x : R) | Array (v : vec).
(** 200-210 *)
Definition set_inactive (active : list bool) (v : inactive) : result vec :=
  let n := (length active - length (where_ active))%nat in
  let vals := match v with Scalar x => vconst n x | Array a => a end in
  if Nat.eqb (length vals) n then Ok (put (vzero (length active)) (where_ (map negb active)) vals) else Err ValueError.
(** 158-187 *)
Definition inject_init (active : list bool) (v : inactive) : result inject :=
  do z <- set_inactive active v;
  Ok (mkInject active (where_ active) (length (where_ active)) z).
(** [P] : row [rows_j] holds a 1 in column [j] (185). *)
Definition inject_P (s : inject) : mat :=
  coo (length (ij_active s)) (ij_nP0 s) (map (fun rc => (snd rc, fst rc, 1)) (combine (seq 0 (length (ij_rows s))) (ij_rows s))).
(** 258-267: nP follows the current active cells. *)
Definition inject_nP (s : inject) : nat := length (where_ (ij_active s)).
(** 269-272; scipy checks the inner dimension. *)
Definition inject_apply (s : inject) (m : vec) : result vec :=
  if Nat.eqb (inject_nP s) (length m)
  then if Nat.eqb (ij_nP0 s) (length m) then Ok (vadd (mv (inject_P s) m) (ij_inactive s)) else Err ValueError
  else Err ValueError.
(** 274-301 *)
Definition inject_inverse (s : inject) (u : vec) : result vec :=
  if Nat.eqb (length (ij_active s)) (length u) then Ok (mtv (ij_nP0 s) (inject_P s) u) else Err ValueError.
(** 231-235: assigning active cells after construction (mask of the mesh size). *)
Definition inject_set_active (s : inject) (b : list bool) : result inject :=
  if Nat.eqb (length b) (length (ij_active s)) then Ok (mkInject b (ij_rows s) (ij_nP0 s) (ij_inactive s)) else Err ValueError.

(** ** Surjections, _surjection.py *)
(** 53-59: [np.ones(nC) * m], [m] of size 1 *)
Definition sfull_apply (nC : nat) (m : vec) : result vec :=
  match m with [x] => Ok (map (fun a => a * x) (vconst nC 1)) | _ => Err ValueError end.
(** 87 *)
Definition sfull_P (nC : nat) : mat := map (fun _ => [1]) (seq 0 nC).
(** 176-178 [mkvc(m).repeat(rep)], on [rep] cells per layer *)
Definition svert_apply (nz rep : nat) (m : vec) : result vec :=
  if Nat.eqb nz (length m) then Ok (flat_map (fun x => repeat x rep) m) else Err ValueError.
(** 213-217 [sp.kron(sp.identity(nz), ones((rep, 1)))] *)
Definition kron_col (A : mat) (rep : nat) : mat := flat_map (fun r => repeat r rep) A.
Definition svert_P (nz rep : nat) : mat := kron_col (eye nz) rep.
(** 336-355 with Fortran ordering: [fravel] lists A[i,j,k] with i running fastest. *)
Inductive normal := NX | NY | NZ.
Definition fravel (nx ny nz : nat) {A} (f : nat -> nat -> nat -> A) : list A :=
  flat_map (fun k => flat_map (fun j => map (fun i => f i j k) (seq 0 nx)) (seq 0 ny)) (seq 0 nz).
(** [m.reshape((a, b), order="F")[i, j]] *)
Definition freshape {A} (d : A) (a : nat) (m : list A) (i j : nat) : A := nth (i + a * j) m d.
Definition s23_nP (nx ny nz : nat) (n : normal) : nat :=
  match n with NZ => nx * ny | NY => nx * nz | NX => ny * nz end%nat.
Definition s23 {A} (d : A) (nx ny nz : nat) (n : normal) (m : list A) : list A :=
  match n with
  | NZ => fravel nx ny nz (fun i j _ => freshape d nx m i j)
  | NY => fravel nx ny nz (fun i _ k => freshape d nx m i k)
  | NX => fravel nx ny nz (fun _ j k => freshape d ny m j k)
  end.
Definition s23_apply (nx ny nz : nat) (n : normal) (m : vec) : result vec :=
  if Nat.eqb (s23_nP nx ny nz n) (length m) then Ok (s23 0 nx ny nz n m) else Err ValueError.
(** 390-392 [inds = self * np.arange(nP)] *)
Definition s23_P (nx ny nz : nat) (n : normal) : mat :=
  coo (nx * ny * nz) (s23_nP nx ny nz n) (row_sel (s23 O nx ny nz n (seq 0 (s23_nP nx ny nz n)))).
(** 482-503 SurjectUnits.P *)
Fixpoint unit_triplets (ii : nat) (units : list (list bool)) : list (nat * nat * R) :=
  match units with
  | [] => []
  | ind :: us => map (fun r => (r, ii, 1)) (where_ ind) ++ unit_triplets (S ii) us
  end.
Definition sunits_P (units : list (list bool)) : mat :=
  coo (length (hd [] units)) (length units) (unit_triplets 0 units).
(** 505-506 *)
Definition sunits_apply (units : list (list bool)) (m : vec) : result vec :=
  if Nat.eqb (length units) (length m) then Ok (mv (sunits_P units) m) else Err ValueError.
