(** Model of simpeg/utils/model_utils.py: distance weights (175-342). *)
From Verif Require Import Py Vec SensW.
Local Open Scope R_scope.

(** 216 (and cdist with its default metric): the Euclidean distance. *)
Definition dist (a b : vec) : R := sqrt (vsum (map (fun x => x * x) (vsub a b))).
(** 220, 335: division by the largest weight. The maximum of no weights raises; without
    reference locations all weights are nan, here [Err GenericException]. *)
Definition normalize (w : vec) : result vec :=
  match w with
  | [] => Err ValueError
  | _ => if Req_EM_T (vmax w) 0 then Err GenericException else Ok (map (fun x => x / vmax w) w)
  end.
(** 175-221 _distance_weighting_numba; powers of the positive numbers distance + threshold. *)
Definition weights_numba (cells refs : mat) (thr ex : R) : result vec :=
  normalize (map sqrt (map (fun c => fold_left (fun acc r => acc + Rpower (dist c r + thr) (-2 * ex)) refs 0) cells)).
(** 330-335; [metric] is the distance chosen with cdist_opts. *)
Definition weights_scipy (metric : vec -> vec -> R) (cells refs : mat) (thr ex : R) : result vec :=
  normalize (map (fun x => Rpower x (1/2)) (map (fun c => vsum (map (fun r => Rpower (Rpower (metric c r + thr) ex) (-2)) refs)) cells)).
(** 226-342: [dim] is the dimension of the mesh, [centers] are the centers of its cells
    (single numbers in one dimension), [refs] the rows of the (two-dimensional) array of
    reference locations, [hmin] the smallest cell width. *)
Inductive engine := Numba | Scipy | OtherEngine.
Definition boolsel (active : option (list bool)) (l : mat) : mat :=
  match active with None => l | Some b => map snd (filter fst (combine b l)) end.
Definition distance_weighting (dim : nat) (centers : mat) (hmin : R) (refs : mat) (active : option (list bool)) (ex : R) (thr : option R) (e : engine) (opts : option (vec -> vec -> R)) : result vec :=
  let t := match thr with None => 1/2 * hmin | Some t => t end in
  let cells := boolsel active centers in
  let refs' := if Nat.eqb dim 1 then map (fun x => [x]) (concat refs) else refs in
  if negb (forallb (fun r => Nat.eqb (length r) dim) refs') then Err ValueError
  else match e, opts with
       | Numba, Some _ => Err TypeError
       | Numba, None => weights_numba cells refs' t ex
       | Scipy, _ => weights_scipy (match opts with Some m => m | None => dist end) cells refs' t ex
       | OtherEngine, _ => Err ValueError
       end.
