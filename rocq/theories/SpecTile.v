(** What averages over the cells of a local mesh are. *)
From Verif Require Import Vec Tile.
Local Open Scope R_scope.

(** Integral of the field [u] (a value per global cell) over the active cells inside
    local cell [i] *)
Fixpoint inside (cs : list gcell) (u : vec) (i : nat) : R :=
  match cs, u with
  | c :: cs', x :: u' => (if ga c && Nat.eqb (gl c) i then gv c * x else 0) + inside cs' u' i
  | _, _ => 0
  end.
(** Integral over all active cells *)
Fixpoint integral (cs : list gcell) (u : vec) : R :=
  match cs, u with
  | c :: cs', x :: u' => (if ga c then gv c * x else 0) + integral cs' u'
  | _, _ => 0
  end.
(** Local cells that hold an active cell *)
Definition holds (cs : list gcell) (i : nat) : bool := existsb (fun c => ga c && Nat.eqb (gl c) i) cs.
Definition tiles (cs : list gcell) (nl : nat) : list nat := filter (holds cs) (seq 0 nl).
(** Active part of local cell [i] *)
Definition active_volume (cs : list gcell) (i : nat) : R := inside cs (map (fun _ => 1) cs) i.
(** Model of a field: its values on the active cells *)
Definition on_active (cs : list gcell) (u : vec) : vec := compress (map ga cs) u.
(** Positive volumes, and every centre inside the local mesh *)
Definition meshes (cs : list gcell) (lv : vec) : Prop :=
  Forall (fun c => 0 < gv c /\ (gl c < length lv)%nat) cs /\ Forall (fun v => 0 < v) lv.
