(** Model of simpeg/directives/_directives.py: [UpdateSensitivityWeights.update] (2545-2602). *)
From Verif Require Import Py Vec.
Local Open Scope R_scope.

(** ** numpy reductions *)
(** [v.max()], [v.min()]; callers have checked that the array is not empty. *)
Definition vmax (v : vec) : R := match v with [] => 0 | x :: r => fold_left Rmax r x end.
Definition vmin (v : vec) : R := match v with [] => 0 | x :: r => fold_left Rmin r x end.
(** Sorting, for [np.percentile]. *)
Fixpoint insert (x : R) (l : vec) : vec :=
  match l with [] => [x] | y :: l' => if Rle_dec x y then x :: l else y :: insert x l' end.
Fixpoint rsort (l : vec) : vec := match l with [] => [] | x :: l' => insert x (rsort l') end.
(** [np.percentile(v, q)] with linear interpolation; q outside [0, 100] raises. *)
Definition percentile (v : vec) (q : R) : result R :=
  if Rlt_dec q 0 then Err ValueError else if Rlt_dec 100 q then Err ValueError else
  let s := rsort v in
  let h := q / 100 * INR (length v - 1) in
  let lo := Z.to_nat (Int_part h) in
  let a := nth lo s 0 in
  let b := nth (Nat.min (S lo) (length v - 1)) s 0 in
  Ok (a + (h - INR lo) * (b - a)).
(** [np.clip(v, a_min=c, a_max=inf)] *)
Definition clip_min (c : R) (v : vec) : vec := map (fun x => if Rlt_dec x c then c else x) v.

(** ** Raw weights *)
(** What a simulation provides: the diagonal of J'W'WJ ([getJtJdiag], 2560) or J itself,
    here already multiplied by W ([getJ], 2558). *)
Inductive sens := JtJdiag (d : vec) | WJ (M : mat).
(** 2558: [np.sum((W * J) ** 2, axis=0)] *)
Definition colsq (n : nat) (M : mat) : vec := map (fun j => vsum (map (fun r => nth j r 0 * nth j r 0) M)) (seq 0 n).
Definition sens_diag (n : nat) (s : sens) : vec := match s with JtJdiag d => d | WJ M => colsq n M end.
(** 2548-2560 *)
Definition jtj (n : nat) (l : list sens) : vec := fold_left (fun a s => vadd a (sens_diag n s)) l (vzero n).

(** A regularization term: its mapping and the mapping of each of its own terms, as the
    indices they select (an IdentityMap, or the part of a Wires), and the cell volumes of
    its mesh.  [None] is a similarity measure (2565, 2599).  The type check of 2530-2535
    only asks for an IdentityMap, which every map is; maps other than projections are not
    modelled. *)
Record wreg := mkWr { r_idx : list nat; r_vol : vec; r_subs : list (list nat) }.
(** [mapping * v] and [mapping.deriv(m).T * w] for a projection *)
Definition proj (idx : list nat) (v : vec) : vec := map (fun i => nth i v 0) idx.
Definition projT (n : nat) (idx : list nat) (w : vec) : vec :=
  map (fun j => vsum (map (fun p => if Nat.eqb (fst p) j then snd p else 0) (combine idx w))) (seq 0 n).
(** 2570-2575: Fortran reshape to (cells, components), so entry i belongs to cell i mod nC. *)
Definition by_volume (vol v : vec) : result vec :=
  if Nat.eqb (length v mod length vol) 0 then
    Ok (map (fun p => snd p / (nth (fst p mod length vol) vol 0) ^ 2) (combine (seq 0 (length v)) v))
  else Err ValueError.
(** 2563-2577 *)
Definition add_reg (n : nat) (jj : vec) (acc : result vec) (r : option wreg) : result vec :=
  do a <- acc;
  match r with
  | None => Ok a
  | Some r => do w <- by_volume (r_vol r) (proj (r_idx r) jj); Ok (vadd a (projT n (r_idx r) w))
  end.
Definition raw_weights (n : nat) (l : list sens) (regs : list (option wreg)) : result vec :=
  do w <- fold_left (add_reg n (jtj n l)) regs (Ok (vzero n)); Ok (map sqrt w).

(** ** Threshold and normalisation *)
Inductive tmeth := Global | Percentile | Amplitude.
(** 2581-2589; [max] of an empty array raises. *)
Definition threshold (meth : tmeth) (t : R) (w : vec) : result vec :=
  match meth with
  | Global => Ok (map (fun x => x + t) w)
  | Percentile => do c <- percentile w t; Ok (clip_min c w)
  | Amplitude => if Nat.eqb (length w) 0 then Err ValueError else Ok (clip_min (t * vmax w) w)
  end.
Inductive nmeth := NMax | NMin | NNone.
(** 2591-2595; [None]: the division by zero leaves nan or inf in the array. *)
Definition normalise (nm : nmeth) (w : vec) : result (option vec) :=
  match nm with
  | NNone => Ok (Some w)
  | NMax => if Nat.eqb (length w) 0 then Err ValueError else if Req_EM_T (vmax w) 0 then Ok None else Ok (Some (map (fun x => x / vmax w) w))
  | NMin => if Nat.eqb (length w) 0 then Err ValueError else if Req_EM_T (vmin w) 0 then Ok None else Ok (Some (map (fun x => x / vmin w) w))
  end.
Definition finish_weights (meth : tmeth) (t : R) (nm : nmeth) (w : vec) : result (option vec) :=
  do w1 <- threshold meth t w; normalise nm w1.
(** 2597-2602: the "sensitivity" weights of each term of each regularization. *)
Definition sub_weights (regs : list (option wreg)) (w : vec) : list (option (list vec)) :=
  map (option_map (fun r => map (fun idx => proj idx w) (r_subs r))) regs.
Definition sens_update (n : nat) (l : list sens) (regs : list (option wreg)) (meth : tmeth) (t : R) (nm : nmeth) : result (option (list (option (list vec)))) :=
  do w <- raw_weights n l regs; do o <- finish_weights meth t nm w; Ok (option_map (sub_weights regs) o).
