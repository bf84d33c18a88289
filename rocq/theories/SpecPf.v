(** What a user expects of the integral gravity and magnetic simulations,
    independent of how the matrices are filled. *)
From Verif Require Import Pf.
Local Open Scope R_scope.

(** Order of the data: receiver objects in order, in each the locations in order,
    at each location the components in order. *)
Definition by_location {Cmp A} (f : Cmp -> pt -> A) (s : list (list Cmp * list pt)) : list A :=
  flat_map (fun r => flat_map (fun l => map (fun c => f c l) (fst r)) (snd r)) s.

(** Value of a prism function over a box: its mixed difference over the corners. *)
Definition prism (F : R -> R -> R -> R) (x1 x2 y1 y2 z1 z2 : R) : R :=
  (F x2 y2 z2 - F x1 y2 z2 - F x2 y1 z2 + F x1 y1 z2) - (F x2 y2 z1 - F x1 y2 z1 - F x2 y1 z1 + F x1 y1 z1).

(** The prism function of each gravity component (axes permuted cyclically). *)
Definition gravity_function (K : gkern) (c : gcomp) (x y z : R) : R :=
  match c with
  | Gx => fz K y z x | Gy => fz K z x y | Gz => fz K x y z
  | Gxx => fzz K y z x | Gyy => fzz K z x y | Gzz => fzz K x y z
  | Gxy => fzx K y z x | Gxz => fzx K x y z | Gyz => fzy K x y z
  | Guv => (fzz K z x y - fzz K y z x) / 2
  end.
(** mGal for the field, Eotvos for the gradients. *)
Definition gravity_units (c : gcomp) : R :=
  match c with Gx | Gy | Gz => 100000000 | _ => 1000000000000 end.
(** Position of node [j] of a cell relative to the receiver. *)
Definition corner (mesh : list pt * list (list nat)) (cell : list nat) (j : nat) : pt :=
  nth (nth j cell 0%nat) (fst mesh) (mkpt 0 0 0).
Definition cell_value (F : R -> R -> R -> R) (mesh : list pt * list (list nat)) (loc : pt) (cell : list nat) : R :=
  let v j := F (px (corner mesh cell j) - px loc) (py (corner mesh cell j) - py loc) (pz (corner mesh cell j) - pz loc) in
  v 0%nat - v 1%nat - v 2%nat + v 3%nat - v 4%nat + v 5%nat + v 6%nat - v 7%nat.
(** Cells refer to existing nodes and have eight of them. *)
Definition good_mesh (mesh : list pt * list (list nat)) : Prop :=
  Forall (fun c => length c = 8%nat /\ Forall (fun i => (i < length (fst mesh))%nat) c) (snd mesh).
(** The response in a component at a location to a unit density in each cell. *)
Definition gravity_response (K : gkern) (Gn : R) (mesh : list pt * list (list nat)) (c : gcomp) (loc : pt) : vec :=
  map (fun cell => Gn * gravity_units c * cell_value (gravity_function K c) mesh loc cell) (snd mesh).

(** The symmetric tensors of magnetics: second and third derivatives. *)
Inductive axis := AX | AY | AZ.
Definition tensor2 (K : gkern) (a b : axis) (x y z : R) : R :=
  match a, b with
  | AX, AX => fzz K y z x | AY, AY => fzz K z x y | AZ, AZ => fzz K x y z
  | AX, AY | AY, AX => fzx K y z x
  | AX, AZ | AZ, AX => fzy K y z x
  | AY, AZ | AZ, AY => fzy K x y z
  end.
Definition tensor3 (K : gkern) (a b c : axis) (x y z : R) : R :=
  match a, b, c with
  | AX, AX, AX => fzzz K y z x | AY, AY, AY => fzzz K z x y | AZ, AZ, AZ => fzzz K x y z
  | AX, AX, AY | AX, AY, AX | AY, AX, AX => fxxy K x y z
  | AX, AX, AZ | AX, AZ, AX | AZ, AX, AX => fxxz K x y z
  | AY, AY, AX | AY, AX, AY | AX, AY, AY => fxxz K y z x
  | AY, AY, AZ | AY, AZ, AY | AZ, AY, AY => fxxy K y z x
  | AZ, AZ, AX | AZ, AX, AZ | AX, AZ, AZ => fxxy K z x y
  | AZ, AZ, AY | AZ, AY, AZ | AY, AZ, AZ => fxxz K z x y
  | AX, AY, AZ | AX, AZ, AY | AY, AX, AZ | AY, AZ, AX | AZ, AX, AY | AZ, AY, AX => fxyz K x y z
  end.
Definition along (d : pt) (f : axis -> R) : R := px d * f AX + py d * f AY + pz d * f AZ.
(** Response of a magnetic component to a unit magnetization along axis [m]:
    the field component, a derivative of it, or their projection on the direction
    of the inducing field. *)
Definition magnetic_function (K : gkern) (d : pt) (c : mcomp) (m : axis) (x y z : R) : R :=
  match c with
  | Bx => tensor2 K AX m x y z | By => tensor2 K AY m x y z | Bz => tensor2 K AZ m x y z
  | Bxx => tensor3 K AX AX m x y z | Byy => tensor3 K AY AY m x y z | Bzz => tensor3 K AZ AZ m x y z
  | Bxy => tensor3 K AX AY m x y z | Bxz => tensor3 K AX AZ m x y z | Byz => tensor3 K AY AZ m x y z
  | Tmi => along d (fun a => tensor2 K a m x y z)
  | TmiX => along d (fun a => tensor3 K AX a m x y z)
  | TmiY => along d (fun a => tensor3 K AY a m x y z)
  | TmiZ => along d (fun a => tensor3 K AZ a m x y z)
  end.
(** Columns of a vector model: the x parts of all cells, then y, then z. *)
Definition magnetic_vector_response (K : gkern) (d : pt) (amplitude : R) (mesh : list pt * list (list nat)) (c : mcomp) (loc : pt) : vec :=
  flat_map (fun m => map (fun cell => amplitude / (4 * PI) * cell_value (magnetic_function K d c m) mesh loc cell) (snd mesh)) [AX; AY; AZ].
(** Columns of a scalar model: magnetization along the vector [b] of each cell. *)
Definition magnetic_scalar_response (K : gkern) (d : pt) (Ms : list pt) (mesh : list pt * list (list nat)) (c : mcomp) (loc : pt) : vec :=
  map (fun bc => / (4 * PI) * along (fst bc) (fun m => cell_value (magnetic_function K d c m) mesh loc (snd bc))) (combine Ms (snd mesh)).

(** The two libraries' closed forms give the same value for every cell seen from
    every location. *)
Definition same_prism (F : R -> R -> R -> R) (k : R -> R -> R -> R -> R) (mesh : list pt * list (list nat)) (loc : pt) : Prop :=
  forall cell, In cell (snd mesh) ->
    sum8c (fun j => let q := corner mesh cell j in
       let x := px q - px loc in let y := py q - py loc in let z := pz q - pz loc in
       k x y z (sqrt (x * x + y * y + z * z)))
    = cell_value F mesh loc cell.
Definition gravity_libraries_agree (K : gkern) (C : ckern) (mesh : list pt * list (list nat)) (loc : pt) : Prop :=
  same_prism (gravity_function K Gx) (ce C) mesh loc /\ same_prism (gravity_function K Gy) (cn C) mesh loc /\
  same_prism (gravity_function K Gz) (cu C) mesh loc /\
  same_prism (gravity_function K Gxx) (cee C) mesh loc /\ same_prism (gravity_function K Gyy) (cnn C) mesh loc /\
  same_prism (gravity_function K Gzz) (cuu C) mesh loc /\
  same_prism (gravity_function K Gxy) (cen C) mesh loc /\ same_prism (gravity_function K Gxz) (ceu C) mesh loc /\
  same_prism (gravity_function K Gyz) (cnu C) mesh loc.
Definition magnetic_libraries_agree (K : gkern) (C : ckern) (mesh : list pt * list (list nat)) (loc : pt) : Prop :=
  same_prism (tensor2 K AX AX) (cee C) mesh loc /\ same_prism (tensor2 K AY AY) (cnn C) mesh loc /\
  same_prism (tensor2 K AZ AZ) (cuu C) mesh loc /\
  same_prism (tensor2 K AX AY) (cen C) mesh loc /\ same_prism (tensor2 K AX AZ) (ceu C) mesh loc /\
  same_prism (tensor2 K AY AZ) (cnu C) mesh loc /\
  same_prism (tensor3 K AX AX AX) (ceee C) mesh loc /\ same_prism (tensor3 K AY AY AY) (cnnn C) mesh loc /\
  same_prism (tensor3 K AZ AZ AZ) (cuuu C) mesh loc /\
  same_prism (tensor3 K AX AX AY) (ceen C) mesh loc /\ same_prism (tensor3 K AX AX AZ) (ceeu C) mesh loc /\
  same_prism (tensor3 K AY AY AX) (cenn C) mesh loc /\ same_prism (tensor3 K AY AY AZ) (cnnu C) mesh loc /\
  same_prism (tensor3 K AZ AZ AX) (ceuu C) mesh loc /\ same_prism (tensor3 K AZ AZ AY) (cnuu C) mesh loc /\
  same_prism (tensor3 K AX AY AZ) (cenu C) mesh loc.
Definition locations {Cmp} (s : list (list Cmp * list pt)) : list pt := flat_map snd s.

(** Diagonal of [G^T diag(w) G]. *)
Fixpoint weighted_diagonal (n : nat) (G : mat) (w : vec) : vec :=
  match G, w with
  | r :: G', a :: w' => vadd (map (fun g => a * (g * g)) r) (weighted_diagonal n G' w')
  | _, _ => vzero n
  end.

(** Sum of [S n_i n_(i+1) v_i] over the intervals between consecutive nodes. *)
Fixpoint over_intervals {B} (S : R -> R -> B -> R) (nodes : vec) (vals : list B) : R :=
  match nodes with
  | a :: ((b :: _) as nodes') =>
      match vals with v :: vals' => S a b v + over_intervals S nodes' vals' | [] => 0 end
  | _ => 0
  end.
(** Response of a block model on a tensor grid with values [rho.[k].[j].[i]]. *)
Definition block_response (F : R -> R -> R -> R) (loc : pt) (xs ys zs : vec) (rho : list (list vec)) : R :=
  over_intervals (fun z1 z2 plane =>
    over_intervals (fun y1 y2 line =>
      over_intervals (fun x1 x2 v =>
        v * prism F (x1 - px loc) (x2 - px loc) (y1 - py loc) (y2 - py loc) (z1 - pz loc) (z2 - pz loc))
      xs line) ys plane) zs rho.
Definition grid_shape (nx ny nz : nat) (rho : list (list vec)) : Prop :=
  length rho = (nz - 1)%nat /\
  Forall (fun plane => length plane = (ny - 1)%nat /\ Forall (fun line => length line = (nx - 1)%nat) plane) rho.
(** Copy entry [p] (the cell cut in two). *)
Fixpoint copied {A} (p : nat) (l : list A) : list A :=
  match l, p with
  | x :: l', O => x :: x :: l'
  | x :: l', Datatypes.S p' => x :: copied p' l'
  | [], _ => []
  end.
(** Insert a node after node [p]. *)
Definition cut (p : nat) (x : R) (nodes : vec) : vec := firstn (Datatypes.S p) nodes ++ x :: skipn (Datatypes.S p) nodes.

(** Simple stand-ins for the closed forms, used by the examples: the prism function
    [x*y*z], whose value over a box is its volume. *)
Definition toy_gkern : gkern :=
  let f := fun x y z => x * y * z in mkgkern f f f f f f f f.
Definition toy_ckern : ckern :=
  let k := fun x y z (_ : R) => - (x * y * z) in mkckern k k k k k k k k k k k k k k k k k k k.
Definition unit_cell : list pt * list (list nat) := (tnodes [0; 1] [0; 1] [0; 1], tcells 2 2 2).
Definition two_cells : list pt * list (list nat) := (tnodes [0; 1; 3] [0; 1] [0; 1], tcells 3 2 2).
Definition origin : pt := mkpt 0 0 0.
Definition east : pt := mkpt 1 0 0.
(** The model with its values along the axes of a direction: [chi] times x, y, z. *)
Definition along_direction (d : pt) (chi : vec) : vec := vscale (px d) chi ++ vscale (py d) chi ++ vscale (pz d) chi.
(** Direction times amplitude; unit direction. *)
Definition times (a : R) (d : pt) : pt := mkpt (a * px d) (a * py d) (a * pz d).
Definition is_unit (d : pt) : Prop := px d * px d + py d * py d + pz d * pz d = 1.
(** The component that is the projection of three others on the direction of the
    total field: tmi of (bx, by, bz), and its derivatives. *)
Definition projects (c cx cy cz : mcomp) : Prop := (c, cx, cy, cz) = (Tmi, Bx, By, Bz) \/ (c, cx, cy, cz) = (TmiX, Bxx, Bxy, Bxz)
  \/ (c, cx, cy, cz) = (TmiY, Bxy, Byy, Byz) \/ (c, cx, cy, cz) = (TmiZ, Bxz, Byz, Bzz).
Definition projected (t : pt) (a b c : vec) : vec := vadd (vadd (vscale (px t) a) (vscale (py t) b)) (vscale (pz t) c).
(** The mesh with the given node coordinates, and a model on it read as one vector,
    the first direction fastest. *)
Definition tmesh (xs ys zs : vec) : list pt * list (list nat) := (tnodes xs ys zs, tcells (length xs) (length ys) (length zs)).
Definition flat (rho : list (list vec)) : vec := concat (map (@concat R) rho).
Definition all_equal (v : R) (rho : list (list vec)) : Prop := Forall (Forall (Forall (eq v))) rho.
