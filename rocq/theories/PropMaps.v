(** Model of simpeg/maps/_property_maps.py: elementwise maps between models and
    physical properties, on 1-D arrays of floats (taken as exact reals; infinities and
    NaN are not modelled). *)
From Verif Require Import Py Vec Frechet MapsM.
Local Open Scope R_scope.

(** scipy.constants.mu_0 *)
Definition mu_0 : R := 125663706212 / 100000000000000000.
(** scipy.special.expit, logit *)
Definition expit (x : R) : R := 1 / (1 + exp (- x)).
Definition logit (p : R) : R := ln (p / (1 - p)).

(** numpy broadcasting of a binary operation on 1-D arrays. *)
Definition bzip (f : R -> R -> R) (a b : vec) : result vec :=
  if Nat.eqb (length a) (length b) then Ok (zipw f a b)
  else match a, b with
       | [x], _ => Ok (map (f x) b)
       | _, [y] => Ok (map (fun x => f x y) a)
       | _, _ => Err ValueError
       end.
(** np.broadcast_shapes((n,), (k,)) succeeds. *)
Definition bshapes (n k : nat) : bool := Nat.eqb n k || Nat.eqb n 1 || Nat.eqb k 1.

(** 18-112, 115-204, 207-301, 304-459, 462-552, 555-599, 602-691, 694-836 *)
Inductive pmap :=
  | PExp | PRecip | PLog | PLogistic (lo up : vec) | PChi | PEffSus (amb : R) | PMuRel | PWeight (w : vec).

(** 337-373 LogisticSigmoidMap.__init__ *)
Definition logistic_init (np : option nat) (lo up : vec) : result pmap :=
  if match np with None => true | Some n => bshapes (length lo) n && bshapes (length up) n end
  then if bshapes (length lo) (length up)
       then do e <- bzip Rminus up lo;
            if existsb (fun d => if Req_EM_T d 0 then true else false) e then Err ValueError else Ok (PLogistic lo up)
       else Err ValueError
  else Err ValueError.

(** [_transform]: 47, 140, 232, 395, 489, 590, 629, 768 *)
Definition pm_tr (p : pmap) (m : vec) : result vec :=
  match p with
  | PExp => Ok (map exp m)
  | PRecip => Ok (map (fun x => 1 / x) m)
  | PLog => Ok (map ln m)
  | PLogistic lo up => do w <- bzip Rminus up lo; do z <- bzip Rmult w (map expit m); bzip Rplus lo z
  | PChi => Ok (map (fun x => mu_0 * (1 + x)) m)
  | PEffSus a => Ok (map (fun x => x * a) m)
  | PMuRel => Ok (map (fun x => mu_0 * x) m)
  | PWeight w => bzip Rmult w m
  end.
(** [inverse]: 50-72, 143-165, 275-297, 398-425, 526-552, 598-599, 665-691, 771-801 *)
Definition pm_inv (p : pmap) (u : vec) : result vec :=
  match p with
  | PExp => Ok (map ln u)
  | PRecip => Ok (map (fun x => 1 / x) u)
  | PLog => Ok (map exp u)
  | PLogistic lo up => do a <- bzip Rminus u lo; do w <- bzip Rminus up lo; do z <- bzip Rdiv a w; Ok (map logit z)
  | PChi => Ok (map (fun x => x / mu_0 - 1) u)
  | PEffSus a => Ok (map (fun x => x / a) u)
  | PMuRel => Ok (map (fun x => 1 / mu_0 * x) u)
  | PWeight w => bzip Rmult (map Rinv w) u
  end.

(** 266-270 *)
Definition log_tol : R := / 10000000000000000.
Definition log_deriv (x : R) : R := if Rle_dec log_tol (Rabs x) then 1 / x else 0.

(** [deriv(m, v)]; [np] is [None] for an unspecified number of parameters.
    74-108, 167-200, 235-273, 427-455, 492-524, 593-596, 632-663, 803-836 *)
Definition by_sdiag (d : vec) (v : option vec) : result dval :=
  match v with None => Ok (DSp (diagm d)) | Some x => dmul (DSp (diagm d)) (DV x) end.
Definition by_row (d : vec) (v : option vec) : result dval :=
  match v with None => Ok (DSp (diagm d)) | Some x => do y <- bzip Rmult d x; Ok (DV y) end.
Definition by_scal (np : option nat) (c : R) (v : option vec) : result dval :=
  match v with
  | None => match np with None => Err ValueError | Some n => Ok (DSp (mscale c (eye n))) end
  | Some x => Ok (DV (vscale c x))
  end.
Definition pm_deriv (p : pmap) (np : option nat) (m : vec) (v : option vec) : result dval :=
  match p with
  | PExp => by_sdiag (map exp m) v
  | PRecip => by_sdiag (map (fun x => - (1 / (x * x))) m) v
  | PLog => by_sdiag (map log_deriv m) v
  | PLogistic lo up =>
      let s := map expit m in
      do w <- bzip Rminus up lo; do a <- bzip Rmult w s; do d <- bzip Rmult a (map (fun x => 1 - x) s); by_row d v
  | PChi => by_scal np mu_0 v
  | PEffSus a => by_scal np a v
  | PMuRel => by_scal np mu_0 v
  | PWeight w => by_row w v
  end.
