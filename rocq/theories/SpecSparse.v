(** Specification vocabulary for sparse regularization. *)
From Verif Require Import Py Vec SpecSensW Sparse.
Local Open Scope R_scope.

(** The term of the approximate Lp measure: m^2 / (m^2 + eps^2)^(1 - p/2). *)
Definition lp_term (eps p m : R) : R := m ^ 2 / Rpower (m ^ 2 + eps ^ 2) (1 - p / 2).
Definition amplitude (f : vec) (M : R) : Prop := greatest (map Rabs f) M.
Definition norms_ok (p : vec) : Prop := forall i, (i < length p)%nat -> 0 <= nth i p 0 <= 2.

(** What a value given for the norm of a term of n entries stands for, if anything. *)
Definition legal (n : nat) (v : normval) : Prop :=
  match v with
  | NNone => True
  | NScalar r => 0 <= r <= 2
  | NArr a => (length a = n \/ length a = 1%nat) /\ Forall (fun x => 0 <= x <= 2) a
  | NBad => False
  end.
Definition meaning (n : nat) (v : normval) : vec :=
  match v with
  | NNone => vconst n 2
  | NScalar r => vconst n r
  | NArr a => if Nat.eqb (length a) n then a else vconst n (nth 0 a 0)
  | NBad => []
  end.
Definition given (s : sparse) (values : option (list normval)) : list normval :=
  match values with Some l => l | None => repeat NNone (length (sizes s)) end.
Definition accepted (s : sparse) (values : option (list normval)) : Prop := Forall2 legal (sizes s) (given s values).
(** The terms have the norms of this list of values. *)
Definition have (s : sparse) (vals : list normval) : Prop := Forall2 (fun n_v a => meaning (fst n_v) (snd n_v) = a) (zip (sizes s) vals) (term_norms s) /\ length vals = length (sizes s).
(** Any number of assignments, those that raise included. *)
Definition assign_all (s : sparse) (l : list (option (list normval))) : sparse := fold_left (fun s v => fst (set_norms s v)) l s.
(** The last accepted assignment of a history, [cur] if there is none. *)
Inductive last_accepted (s0 : sparse) (cur : list normval) : list (option (list normval)) -> list normval -> Prop :=
| LA_nil : last_accepted s0 cur [] cur
| LA_take l v : accepted s0 v -> last_accepted s0 cur (l ++ [v]) (given s0 v)
| LA_skip l v r : ~ accepted s0 v -> last_accepted s0 cur l r -> last_accepted s0 cur (l ++ [v]) r.
