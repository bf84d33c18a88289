(** Specification vocabulary for regularization terms. *)
From Verif Require Import Py Vec VecDeriv SpecCoords Coords Reg.
Local Open Scope R_scope.

(** The product of the weights at entry i, and the weighted sum of squares. *)
Definition product_at (ws : list vec) (i : nat) : R := fold_right (fun w acc => nth i w 0 * acc) 1 ws.
Definition measure (ws : list vec) (f : vec) : R := vsum (map (fun i => product_at ws i * (nth i f 0) ^ 2) (seq 0 (length f))).
(** The weights of a term where its kernel lives: cell weights are averaged to the faces
    for a first-order smoothness. *)
Definition effective (s : reg) : list vec :=
  match r_kind s with
  | Smooth1 => map (fun w => if Nat.eqb (length w) (nC (ops s)) then mv (ave (ops s)) w else w) (map snd (weights s))
  | _ => map snd (weights s)
  end.
Definition kernel (k : kind) (o : rops) (d : vec) : vec :=
  match k with
  | Small => d
  | Smooth1 => mv (grad o) d
  | Smooth2 => mtv (nC o) (grad o) (mv (grad o) d)
  end.
Definition residual_size (k : kind) (o : rops) : nat := match k with Smooth1 => nF o | _ => nC o end.
Definition wf_ops (o : rops) : Prop := length (ave o) = nF o /\ is_mat (nF o) (nC o) (grad o) /\ length (vol o) = nC o.
Definition wf_mesh (mo : active -> rops) : Prop := forall a, wf_ops (mo a).

(** The registered weights as a map from names to arrays, updated by a history that does not
    change the active cells; an entry that is refused ends its call. *)
Definition legal_size (s : reg) (v : vec) : Prop :=
  match r_kind s with Small => length v = nC (ops s) | _ => length v = nF (ops s) \/ length v = nC (ops s) end.
Inductive entries (s : reg) : (nat -> option vec) -> list (nat * wval) -> (nat -> option vec) -> Prop :=
| En_nil r : entries s r [] r
| En_ok r k v l r' : legal_size s v -> entries s (fun j => if Nat.eqb j k then Some v else r j) l r' -> entries s r ((k, WArr v) :: l) r'
| En_size r k v l : ~ legal_size s v -> entries s r ((k, WArr v) :: l) r
| En_bad r k l : entries s r ((k, WBad) :: l) r.
Inductive registry (s : reg) : (nat -> option vec) -> list rop -> (nat -> option vec) -> Prop :=
| Rg_nil r : registry s r [] r
| Rg_set r kvs r1 l r' : entries s r kvs r1 -> registry s r1 l r' -> registry s r (OSet kvs :: l) r'
| Rg_remove r k l r' : registry s (fun j => if Nat.eqb j k then None else r j) l r' -> registry s r (ORemove k :: l) r'
| Rg_call r M m l r' : registry s r l r' -> registry s r (OCall M m :: l) r'
| Rg_deriv r M m l r' : registry s r l r' -> registry s r (ODeriv M m :: l) r'
| Rg_deriv2 r M m v l r' : registry s r l r' -> registry s r (ODeriv2 M m v :: l) r'.

(** Histories without the three faults: a call of set_weights with several entries is not
    refused halfway, active cells are not given after an evaluation, nor through another
    term. *)
Definition whole (s : reg) (kvs : list (nat * wval)) : Prop :=
  (length kvs <= 1)%nat \/ Forall (fun kv => match snd kv with WArr v => legal_size s v | WBad => False end) kvs.
Fixpoint careful (evaluated : bool) (s : reg) (l : list rop) : Prop :=
  match l with
  | [] => True
  | OSet kvs :: l' => whole s kvs /\ careful evaluated (rstep s (OSet kvs)) l'
  | ORemove k :: l' => careful evaluated (rstep s (ORemove k)) l'
  | OActive a :: l' => evaluated = false /\ careful false (rstep s (OActive a)) l'
  | OMesh _ :: _ => False
  | o :: l' => careful true (rstep s o) l'
  end.

(** A term with at least one weight, weights of the right size (only a second-order term
    accepts others) and no negative product. *)
Definition usable (s : reg) : Prop :=
  weights s <> [] /\ (r_kind s = Smooth2 -> Forall (fun kv => length (snd kv) = nC (ops s)) (weights s)) /\
  forall i, (i < residual_size (r_kind s) (ops s))%nat -> 0 <= product_at (effective s) i.
(** A term as any careful use leaves it. *)
Definition reachable (s : reg) : Prop :=
  exists k mo a r ris rad l, wf_mesh mo /\ careful false (fst (reg_new k mo a r ris rad)) l /\ s = rrun (fst (reg_new k mo a r ris rad)) l.
(** The mapping takes models of size n to the active cells and has derivative [dphi] at m. *)
Definition mapping_ok (n : nat) (s : reg) (M : rmap) (m : vec) : Prop :=
  length m = n /\ (forall y, length y = n -> length (phi M y) = nC (ops s)) /\
  is_mat (nC (ops s)) n (dphi M m) /\ has_jacobian n (nC (ops s)) (phi M) m (mv (dphi M m)) /\
  match ref s with Some r => length r = n | None => True end.
Definition is_linear (n : nat) (s : reg) (M : rmap) (A : mat) : Prop :=
  is_mat (nC (ops s)) n A /\ (forall y, length y = n -> phi M y = mv A y /\ dphi M y = A) /\ match ref s with Some r => length r = n | None => True end.

(** Angles differing by whole turns, entry by entry. *)
Definition turned (d d' : vec) : Prop := length d' = length d /\ forall i, (i < length d)%nat -> coterminal_angles (nth i d' 0) (nth i d 0).
(** Every row of the gradient is a difference: its entries are its largest one, its
    opposite, or zero; and no difference of angles is half a turn. *)
Definition difference_rows (G : mat) : Prop := forall r x, In r G -> In x r -> x = Reg.sign x * SensW.vmax r.
Definition off_cut (G : mat) (d : vec) : Prop := forall r, In r G -> coterminal (dot (map Reg.sign r) d) <> - PI.

(** For examples: a mesh with two cells, of which one may be active, and one inner face. *)
Definition two_cells (a : active) : rops :=
  match a with
  | None => mkOps 2 1 [[/ 2; / 2]] [[-1; 1]] [1; 1]
  | Some _ => mkOps 1 0 [] [] [1]
  end.
Definition ident : rmap := mkMap (fun m => m) (fun m => map (fun i => map (fun j => if Nat.eqb i j then 1 else 0) (seq 0 (length m))) (seq 0 (length m))).
