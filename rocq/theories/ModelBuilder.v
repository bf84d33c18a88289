(** Model of simpeg/utils/model_builder.py. *)
From Verif Require Import Py Vec SensW.
Local Open Scope R_scope.

(** The cell centres: a 1-D array (a 1-D mesh may give one), or the rows of an
    (n_cells, dim) array, every one of length dim. *)
Inductive cells := C1 (x : vec) | C2 (dim : nat) (rows : list vec).
Definition n_cells (c : cells) : nat := match c with C1 x => length x | C2 _ rows => length rows end.
Definition size (c : cells) : nat := match c with C1 x => length x | C2 d rows => (length rows * d)%nat end.

(** [np.where] of a 1-D array *)
Definition where_true (b : list bool) : list nat := filter (fun i => nth i b false) (seq 0 (length b)).
(** [model[ind] = v] *)
Definition assign (model : vec) (ind : list nat) (v : R) : result vec :=
  if forallb (fun i => Nat.ltb i (length model)) ind
  then Ok (map (fun i => if existsb (Nat.eqb i) ind then v else nth i model 0) (seq 0 (length model)))
  else Err IndexError.

Definition rleb (a b : R) : bool := if Rle_dec a b then true else false.
Definition rltb (a b : R) : bool := if Rlt_dec a b then true else false.

(** 47-155 [get_indices_block] *)
Definition inside1 (lo hi x : R) : bool := rleb lo x && rleb x hi.
Definition get_indices_block (p0 p1 : vec) (c : cells) : result (list nat) :=
  if negb (Nat.eqb (length p0) (length p1)) then Err ValueError else
  if Nat.eqb (length p0) 0 then Err ZeroDivisionError else
  if negb (Nat.eqb (size c mod length p0) 0) then Err ValueError else
  let lo := zipw Rmin p0 p1 in
  let hi := zipw Rmax p0 p1 in
  let ok i (r : vec) := inside1 (nth i lo 0) (nth i hi 0) (nth i r 0) in
  match length p0, c with
  | 1%nat, C1 x => Ok (where_true (map (inside1 (nth 0 lo 0) (nth 0 hi 0)) x))
  | 1%nat, C2 _ _ => Err ValueError (* np.where of a 2-D array gives two arrays: (ind,) = ... raises *)
  | 2%nat, C2 d rows => if Nat.ltb d 2 then Err IndexError else Ok (where_true (map (fun r => ok 0%nat r && ok 1%nat r) rows))
  | 3%nat, C2 d rows => if Nat.ltb d 3 then Err IndexError else Ok (where_true (map (fun r => ok 0%nat r && ok 1%nat r && ok 2%nat r) rows))
  | 2%nat, C1 _ | 3%nat, C1 _ => Err IndexError
  | _, _ => Err GenericException (* UnboundLocalError *)
  end.
(** 13-44 *)
Definition add_block (c : cells) (model p0 p1 : vec) (v : R) : result vec :=
  do ind <- get_indices_block p0 p1 c; assign model ind v.
(** 158-200, with numbers as values *)
Definition create_block (c : cells) (p0 p1 : vec) (background v : R) : result vec :=
  do ind <- get_indices_block p0 p1 c; assign (vconst (n_cells c) background) ind v.

(** 257-311: a boolean array *)
Definition get_indices_sphere (center : vec) (radius : R) (c : cells) : result (list bool) :=
  match c with
  | C1 _ => Err IndexError
  | C2 d [] => Err IndexError
  | C2 d rows =>
      if negb (Nat.eqb (length center) d) then Err AssertionError else
      let sq i (r : vec) := (nth i center 0 - nth i r 0) ^ 2 in
      match d with
      | 1%nat => Ok (map (fun r => rltb (Rabs (nth 0 center 0 - nth 0 r 0)) radius) rows)
      | 2%nat => Ok (map (fun r => rltb (sqrt (sq 0%nat r + sq 1%nat r)) radius) rows)
      | 3%nat => Ok (map (fun r => rltb (sqrt (sq 0%nat r + sq 1%nat r + sq 2%nat r)) radius) rows)
      | _ => Err GenericException (* UnboundLocalError *)
      end
  end.

(** 314-376, with numbers as values; a dimension above 3 leaves zeros in the corners. *)
Definition last_minus (depth : R) (p : vec) : vec := removelast p ++ [last p 0 - depth].
Definition corner (d : nat) (r : vec) : vec := firstn 3 r ++ vzero (d - 3).
Definition create_2_layer_model (c : cells) (depth top bottom : R) : result vec :=
  match c with
  | C1 _ => Err IndexError
  | C2 d [] => Err IndexError
  | C2 d (r :: rows) =>
      if Nat.eqb d 0 then Err IndexError else
      do ind <- get_indices_block (corner d r) (last_minus depth (corner d (last (r :: rows) []))) c;
      assign (vconst (n_cells c) bottom) ind top
  end.

(** 416-467; finite tops in an array. *)
Definition norm2 (v : vec) : R := sqrt (vsum (map (fun x => x * x) v)).
Definition descending (tops : vec) : bool := rltb (norm2 (vsub (rev (rsort tops)) tops)) 1e-20.
(** The loop 461-465: the lists together, [IndexError] when the values run out. *)
Fixpoint layer_loop (z : vec) (tops vals : vec) (model : vec) : result vec :=
  match tops, vals with
  | [], _ => Ok model
  | t :: tops', v :: vals' => layer_loop z tops' vals' (zipw (fun zi mi => if Rle_dec zi t then v else mi) z model)
  | _ :: _, [] => Err IndexError
  end.
Definition heights (c : cells) : result vec :=
  match c with
  | C1 _ => Err IndexError
  | C2 d rows => match d with
                 | 1%nat | 2%nat | 3%nat => Ok (map (fun r => nth (d - 1) r 0) rows)
                 | _ => Err GenericException (* UnboundLocalError *)
                 end
  end.
Definition create_layers_model (c : cells) (tops vals : vec) : result vec :=
  do tv <- (if descending tops then Ok (tops, vals)
            else if Nat.eqb (length tops) (length vals)
            then Ok (rev (rsort tops), rev (rsort vals)) (* each column is sorted on its own *)
            else Err ValueError);
  do z <- heights c;
  layer_loop z (fst tv) (snd tv) (vzero (length z)).

(** 203-254, one cell; dimensions 1 to 3, anisotropy without zeros. *)
Definition rotation (theta : R) : mat := [[cos theta; - sin theta; 0]; [sin theta; cos theta; 0]; [0; 0; 1]].
Definition ellipse_coords (d : nat) (center anisotropy : vec) (theta : R) (r : vec) : vec :=
  let th := - theta * PI / 180 in
  let M := map (firstn d) (firstn d (rotation th)) in
  zipw (fun g a => g / a * 2) (mv M (vsub r (firstn d center))) (firstn d anisotropy).
Definition ellipse_value (slope D : R) : R := - atan ((D - 1) * slope) * (2 / PI) / 2 + 0.5.
Definition create_ellipse (d : nat) (center anisotropy : vec) (slope theta : R) (rows : list vec) : vec :=
  map (fun r => ellipse_value slope (norm2 (ellipse_coords d center anisotropy theta r))) rows.

(** 546-550: the smoothed random field [mi] is rescaled; [None]: it is constant, so that the
    result is nan. *)
Definition rescale (mi : vec) (b0 b1 : R) : option vec :=
  if Req_EM_T (vmax mi - vmin mi) 0 then None
  else Some (map (fun x => (x - vmin mi) / (vmax mi - vmin mi) * (b1 - b0) + b0) mi).
