(** Model of the coordinate conversions of simpeg/utils/mat_utils.py and of
    [SphericalSystem] (simpeg/maps/_base.py). *)
From Coq Require Import ZArith.
From Verif Require Import Py Vec Frechet.
Local Open Scope R_scope.

(** numpy's [x % m] for m > 0: the result has the sign of m. *)
Definition pymod (x m : R) : R := x - m * IZR (Int_part (x / m)).
(** [np.arctan2(y, x)] (signed zeros are not modelled). *)
Definition atan2 (y x : R) : R :=
  if Rlt_dec 0 x then atan (y / x)
  else if Rlt_dec x 0 then (if Rle_dec 0 y then atan (y / x) + PI else atan (y / x) - PI)
  else if Rlt_dec 0 y then PI / 2 else if Rlt_dec y 0 then - PI / 2 else 0.
Definition deg2rad (x : R) : R := x * PI / 180.

(** ** Spherical coordinates *)
(** A row of an (n, 3) array. *)
Notation row := (R * R * R)%type.
Definition c0 (r : row) : R := fst (fst r).
Definition c1 (r : row) : R := snd (fst r).
Definition c2 (r : row) : R := snd r.
(** [np.r_[a, t, p]]: the columns one after the other. *)
Definition stack (rows : list row) : vec := map c0 rows ++ map c1 rows ++ map c2 rows.
(** [m.reshape((-1, 3), order="F")]: the inverse of the above. *)
Definition unstack (m : vec) : result (list row) :=
  if Nat.eqb (length m mod 3) 0 then
    let n := (length m / 3)%nat in
    Ok (map (fun i => (nth i m 0, nth (n + i) m 0, nth (n + n + i) m 0)) (seq 0 n))
  else Err ValueError.
(** 282-295, one row. *)
Definition c2s_row (r : row) : row :=
  let '(x, y, z) := r in
  let a := sqrt (x ^ 2 + y ^ 2 + z ^ 2) in
  (a, if Rlt_dec 0 a then asin (z / a) else 0, if Rlt_dec 0 a then atan2 y x else 0).
(** 335-343, one row; the amplitude is increased. *)
Definition s2c_row (r : row) : row :=
  let '(a, t, p) := r in
  let a := a + 1e-8 in
  (a * cos t * cos p, a * cos t * sin p, a * sin t).
(** 241-297 and 299-345: both return one flat array. *)
Definition cartesian2spherical (m : list row) : vec := stack (map c2s_row m).
Definition spherical2cartesian (m : list row) : vec := stack (map s2c_row m).
(** With whatever array the caller has: [m[:, 0]] of a 1-D array raises. *)
Inductive nda := D1 (v : vec) | D2 (rows : list row).
Definition c2s_call (m : nda) : result nda := match m with D2 r => Ok (D1 (cartesian2spherical r)) | D1 _ => Err IndexError end.
Definition s2c_call (m : nda) : result nda := match m with D2 r => Ok (D1 (spherical2cartesian r)) | D1 _ => Err IndexError end.

(** ** Dip and azimuth *)
(** 402-425; a number is an array of size 1.  The size of the result is that of [azm], to
    which the (broadcast) components are assigned. *)
Definition dip_row (dip azm : R) : row :=
  let inc := - deg2rad dip in
  let dec := deg2rad (pymod (450 - azm) 360) in
  (cos inc * cos dec, cos inc * sin dec, sin inc).
Definition dip_azimuth2cartesian (dip azm : vec) : result (list row) :=
  if Nat.eqb (length dip) (length azm) then Ok (map (fun p => dip_row (fst p) (snd p)) (combine dip azm))
  else match dip with [d] => Ok (map (dip_row d) azm) | _ => Err ValueError end.

(** 452-453 *)
Definition coterminal (theta : R) : R := pymod (theta + PI) (2 * PI) - PI.

(** ** Planes *)
(** 477-483; [None]: a division by zero, so that the result is nan. *)
Definition norm3 (r : row) : R := sqrt (c0 r ^ 2 + c1 r ^ 2 + c2 r ^ 2).
Definition sub3 (a b : row) : row := (c0 a - c0 b, c1 a - c1 b, c2 a - c2 b).
Definition div3 (a : row) (s : R) : row := (c0 a / s, c1 a / s, c2 a / s).
Definition cross (u v : row) : row :=
  (c1 u * c2 v - c2 u * c1 v, c2 u * c0 v - c0 u * c2 v, c0 u * c1 v - c1 u * c0 v).
Definition define_plane (p1 p2 p3 : row) : option (row * R) :=
  let n12 := norm3 (sub3 p2 p1) in
  let n13 := norm3 (sub3 p3 p1) in
  if Req_EM_T n12 0 then None else if Req_EM_T n13 0 then None else
  let n := cross (div3 (sub3 p2 p1) n12) (div3 (sub3 p3 p1) n13) in
  Some (n, - (c0 n * c0 p1 + c1 n * c1 p1 + c2 n * c2 p1)).

(** ** SphericalSystem (maps/_base.py) *)
(** 980-981 and 1016 *)
Definition ss_transform (m : vec) : result vec := do r <- unstack m; Ok (spherical2cartesian r).
Definition ss_inverse (u : vec) : result vec := do r <- unstack u; Ok (cartesian2spherical r).
(** 936-976: the derivative at [m], after a conversion to Cartesian and back. *)
Definition ss_rows (n : nat) (atp : list row) (f : row -> row) : mat :=
  map (fun i => let '(x, y, z) := f (nth i atp (0, 0, 0)) in diag_row n i x ++ diag_row n i y ++ diag_row n i z) (seq 0 n).
Definition ss_matrix (m : vec) : result mat :=
  do r <- unstack m;
  do xyz <- unstack (spherical2cartesian r);
  do atp <- unstack (cartesian2spherical xyz);
  let n := length atp in
  Ok (ss_rows n atp (fun q => let '(a, t, p) := q in (cos t * cos p, - a * sin t * cos p, - a * cos t * sin p)) ++
      ss_rows n atp (fun q => let '(a, t, p) := q in (cos t * sin p, - a * sin t * sin p, a * cos t * cos p)) ++
      ss_rows n atp (fun q => let '(a, t, p) := q in (sin t, a * cos t, 0))).
(** 924-978: the cache; the model is kept by reference, so the arrays in memory are part
    of the state.  Arrays are assumed to have equal lengths. *)
Fixpoint same_values (a b : vec) : bool :=
  match a, b with
  | [], [] => true
  | x :: a', y :: b' => if Req_EM_T x y then same_values a' b' else false
  | _, _ => false
  end.
Record sst := mkSst { ss_heap : nat -> vec; ss_model : option nat; ss_cache : option mat }.
Definition ss_deriv (st : sst) (id : nat) : sst * result mat :=
  let k := match ss_model st with Some k => k | None => id end in
  match ss_cache st with
  | Some D =>
      if same_values (ss_heap st k) (ss_heap st id) then (mkSst (ss_heap st) (Some k) (Some D), Ok D)
      else match ss_matrix (ss_heap st id) with
           | Ok D' => (mkSst (ss_heap st) (Some id) (Some D'), Ok D')
           | Err e => (mkSst (ss_heap st) (Some id) (Some D), Err e)
           end
  | None => match ss_matrix (ss_heap st id) with
            | Ok D' => (mkSst (ss_heap st) (Some id) (Some D'), Ok D')
            | Err e => (mkSst (ss_heap st) (Some id) None, Err e)
            end
  end.
(** What a user does: ask for the derivative at an array, or overwrite an array. *)
Inductive ssop := SDeriv (id : nat) | SWrite (id : nat) (v : vec).
Definition ss_step (st : sst) (o : ssop) : sst :=
  match o with
  | SDeriv id => fst (ss_deriv st id)
  | SWrite id v => mkSst (fun k => if Nat.eqb k id then v else ss_heap st k) (ss_model st) (ss_cache st)
  end.

(** ** ProjectSphericalBounds (directives/_directives.py 2642-2685) *)
(** 2655-2656 and 2670-2671: what replaces the model at the start and after every
    iteration. *)
Definition project_bounds (m : vec) : result vec :=
  do r <- unstack m; do xyz <- unstack (spherical2cartesian r); Ok (cartesian2spherical xyz).
Fixpoint project_times (k : nat) (m : vec) : result vec :=
  match k with O => Ok m | S k' => do m' <- project_bounds m; project_times k' m' end.
