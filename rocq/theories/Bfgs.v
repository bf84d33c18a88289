(** Model of simpeg/optimization.py [BFGS] (1265-1331). *)
From Verif Require Import Py Vec Optim.
Local Open Scope R_scope.

(** Column [k] of the stored matrices. *)
Definition col (M : list vec) (k : nat) : vec := nth k M [].

(** 1296-1310 [bfgsrec].  [K] is k+1 (so [K = 0] is the base case k < 0); [n] is
    [_bfgscnt]; [H0] is the action of [bfgsH0]. *)
Fixpoint bfgsrec (H0 : vec -> vec) (S Y : list vec) (n nn K : nat) (d : vec) : vec :=
  match K with
  | O => H0 d
  | Datatypes.S k =>
      let khat := if Nat.eqb nn 0 then 0%nat else ((n - nn + k) mod nn)%nat in
      let s := col S khat in
      let y := col Y khat in
      let gamma := dot s d / dot y s in
      let d := vsub d (vscale gamma y) in
      let d := bfgsrec H0 S Y n nn k d in
      vadd d (vscale (gamma - dot y d / dot y s) s)
  end.

(** Memory (1284-1287): [bf_cnt] is [_bfgscnt + 1], the number of pairs stored so
    far; [bf_glast] the attribute g_last (absent at first). *)
Record bfgsst := mkBfgs { bf_cnt : nat; bf_S : list vec; bf_Y : list vec; bf_glast : vec }.
Definition bfgs_startup (nbfgs n : nat) : bfgsst :=
  mkBfgs 0 (repeat (vzero n) nbfgs) (repeat (vzero n) nbfgs) [].

(** 1291-1294 [bfgs]: nn = ktop = min(nbfgs, _bfgscnt). *)
Definition bfgs (H0 : vec -> vec) (nbfgs : nat) (b : bfgsst) (d : vec) : vec :=
  match bf_cnt b with
  | O => H0 d
  | Datatypes.S n => let nn := Nat.min nbfgs n in bfgsrec H0 (bf_S b) (bf_Y b) n nn (Datatypes.S nn) d
  end.
(** 1312-1313 [findSearchDirection]. *)
Definition bfgs_direction (H0 : vec -> vec) (nbfgs : nat) (b : bfgsst) (g : vec) : vec := bfgs H0 nbfgs b (vopp g).

Fixpoint set_nth {A} (l : list A) (i : nat) (x : A) : list A :=
  match l, i with
  | [], _ => []
  | _ :: l', O => x :: l'
  | a :: l', Datatypes.S i' => a :: set_nth l' i' x
  end.

(** 1315-1331 [_doEndIteration_BFGS]: runs before the base class replaces xc by xt,
    so [g] is the gradient at the *old* iterate [xc], [bf_glast] the gradient one
    iterate earlier. *)
Definition bfgs_hook (nbfgs iter : nat) (g xc xt : vec) (b : bfgsst) : bfgsst :=
  match iter with
  | O => mkBfgs (bf_cnt b) (bf_S b) (bf_Y b) g
  | _ =>
      let yy := vsub g (bf_glast b) in
      let ss := vsub xc xt in
      if Rlt_dec 0 (dot yy ss) then
        let ktop := (bf_cnt b mod nbfgs)%nat in
        mkBfgs (Datatypes.S (bf_cnt b)) (set_nth (bf_S b) ktop ss) (set_nth (bf_Y b) ktop yy) g
      else mkBfgs (bf_cnt b) (bf_S b) (bf_Y b) g
  end.

(** A run of the hook: iteration number, gradient, old and new iterate. *)
Definition bfgs_run (nbfgs : nat) (evs : list (nat * vec * vec * vec)) (b : bfgsst) : bfgsst :=
  fold_left (fun b e => let '(i, g, xc, xt) := e in bfgs_hook nbfgs i g xc xt b) evs b.
