(** Vocabulary for the regularizations of vector models. *)
From Verif Require Import Py Vec VecDeriv Reg VecReg.
Local Open Scope R_scope.

(** The vector of cell [i] of a model of [k] components on [n] cells, the square of the
    length of a vector, sums over cells. *)
Definition cell (n k : nat) (v : vec) (i : nat) : vec := map (fun c => nth (c * n + i) v 0) (seq 0 k).
Definition length2 (x : vec) : R := dot x x.
Definition total (n : nat) (f : nat -> R) : R := vsum (map f (seq 0 n)).
(** The weight an array of weights gives to cell [i]: its entry, or the length of its vector. *)
Definition weight_of (n k : nat) (w : warr) (i : nat) : R :=
  match w with
  | W1 v => if (length v =? n)%nat then nth i v 0 else sqrt (length2 (cell n k v i))
  | W2 _ cols => sqrt (length2 (map (fun c => nth i c 0) cols))
  end.
Definition weight_at (n k : nat) (ws : list warr) (i : nat) : R := fold_right (fun w acc => weight_of n k w i * acc) 1 ws.
Definition flat (w : warr) : Prop := match w with W1 _ => True | W2 _ _ => False end.
Definition rect (w : warr) : Prop := match w with W1 _ => True | W2 n cols => Forall (fun c => length c = n) cols end.
Definition nonneg (n k : nat) (ws : list warr) : Prop := forall i, (i < n)%nat -> 0 <= weight_at n k ws i.
(** Arrays the setter of the weights accepts. *)
Definition flat_cells (n k : nat) (w : warr) : Prop := flat w /\ cell_shapes n k w = true.
Definition any_cells (n k : nat) (w : warr) : Prop := rect w /\ cell_shapes n k w = true.
Definition face_ok (nC nF k : nat) (w : warr) : Prop :=
  rect w /\ face_shapes nC nF k w = true /\ match w with W1 _ => True | W2 n _ => n <> nC end.
(** Weights of the faces: those given on the cells are averaged. *)
Definition on_cells (nC k : nat) (w : warr) : bool :=
  match w with W1 v => ((length v =? nC) || (length v =? k * nC))%nat | W2 n _ => (n =? nC)%nat end.
Definition face_weight (nC nF k : nat) (ave : mat) (w : warr) (f : nat) : R :=
  if on_cells nC k w then dot (nth f ave []) (map (weight_of nC k w) (seq 0 nC)) else weight_of nF k w f.
Definition face_weight_at (nC nF k : nat) (ave : mat) (ws : list warr) (f : nat) : R :=
  fold_right (fun w acc => face_weight nC nF k ave w f * acc) 1 ws.
(** No array size can be read both as a weight of cells and of faces. *)
Definition distinct_sizes (nC nF k : nat) : Prop := nF <> nC /\ (k * nF)%nat <> nC /\ nF <> (k * nC)%nat /\ k <> 0%nat.

(** A mapping of [np] parameters to [N] values given by a matrix. *)
Definition linear_map (np N : nat) (M : rmap) (A : mat) : Prop :=
  is_mat N np A /\ forall y, length y = np -> phi M y = mv A y /\ dphi M y = A.
Definition ref_ok (np : nat) (ref : option vec) : Prop := match ref with Some r => length r = np | None => True end.
(** The difference with the reference. *)
Definition differ (ref : option vec) (used : bool) (m : vec) : vec :=
  match ref with Some r => if used then vsub m r else m | None => m end.
(** Difference of neighbours, component by component. *)
Definition jump (n k : nat) (G : mat) (v : vec) (f : nat) : vec := map (fun c => dot (nth f G []) (firstn n (skipn (c * n) v))) (seq 0 k).
(** Rotations and reflections. *)
Definition isometry (k : nat) (Q : mat) : Prop := is_mat k k Q /\ forall x, length x = k -> length2 (mv Q x) = length2 x.

(** Vector product, in the plane its third component. *)
Definition crossp (a b : vec) : vec :=
  match a, b with
  | [x; y], [x'; y'] => [x * y' - y * x']
  | [x; y; z], [x'; y'; z'] => [y * z' - z * y'; z * x' - x * z'; x * y' - y * x']
  | _, _ => []
  end.
Definition parallel (a b : vec) : Prop := exists s t, (s, t) <> (0, 0) /\ vscale s a = vscale t b.
Definition direction (d : dirval) (i : nat) : vec := match d with DOne v => v | DAll rows => nth i rows [] end.

(** Concrete cases: mappings of one parameter and of two; three cells in a row with two
    faces between them. *)
Definition exp_map : rmap := mkMap (map exp) (fun m => [[exp (nth 0 m 0)]]).
Definition id1 : rmap := mkMap (fun m => m) (fun _ => [[1]]).
Definition id2 : rmap := mkMap (fun m => m) (fun _ => [[1; 0]; [0; 1]]).
Definition id6 : rmap := mkMap (fun m => m) (fun _ => map (fun i => map (fun j => if (i =? j)%nat then 1 else 0) (seq 0 6)) (seq 0 6)).
Definition grad3 : mat := [[-1; 1; 0]; [0; -1; 1]].
Definition ave3 : mat := [[/2; /2; 0]; [0; /2; /2]].
