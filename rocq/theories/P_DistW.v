(** C48: distance weights. *)
From Verif Require Import Py Vec SensW DistW SpecDistW DistWFacts.
From Coq Require Import Lra Permutation.
Local Open Scope R_scope.

(** C48: both engines return the same, for every mesh, selection of cells, exponent and
    positive threshold. *)
Theorem C48_engines dim centers hmin refs active ex thr : points dim refs -> above_zero hmin thr ->
  distance_weighting dim centers hmin refs active ex thr Numba None = distance_weighting dim centers hmin refs active ex thr Scipy None.
Proof. intros HP _. exact (c48_engines dim centers hmin refs active ex thr HP). Qed.
Print Assumptions C48_engines.
(** Weights lie in (0, 1], one of them is 1. *)
Theorem C48_range dim centers hmin refs active ex thr e : points dim refs -> above_zero hmin thr -> e <> OtherEngine -> boolsel active centers <> [] ->
  exists w, distance_weighting dim centers hmin refs active ex thr e None = Ok w /\ length w = length (boolsel active centers) /\
    (forall x, In x w -> 0 < x <= 1) /\ In 1 w.
Proof. intros HP _. exact (c48_range dim centers hmin refs active ex thr e HP). Qed.
Print Assumptions C48_range.
Example C48_range_ex : points 2 [[0; 1]; [5; 5]] /\ boolsel (Some [true; false; true]) [[0; 0]; [1; 1]; [2; 2]] = [[0; 0]; [2; 2]].
Proof. split; [split; [discriminate|repeat constructor]|reflexivity]. Qed.
(** They decrease with the distance to the reference locations. *)
Theorem C48_decreasing dim centers hmin refs active ex t e w i j : points dim refs -> e <> OtherEngine -> 0 < t -> 0 <= ex ->
  distance_weighting dim centers hmin refs active ex (Some t) e None = Ok w ->
  (i < length (boolsel active centers))%nat -> (j < length (boolsel active centers))%nat ->
  (farther refs (nth i (boolsel active centers) []) (nth j (boolsel active centers) []) -> nth i w 0 <= nth j w 0) /\
  (0 < ex -> strictly_farther refs (nth i (boolsel active centers) []) (nth j (boolsel active centers) []) -> nth i w 0 < nth j w 0).
Proof. exact (c48_decreasing dim centers hmin refs active ex t e w i j). Qed.
Print Assumptions C48_decreasing.
Example C48_decreasing_ex : strictly_farther [[0; 1]; [0; 2]] [0; -2] [0; 0].
Proof.
  split; [intros r [<-|[<-|[]]]; cbn; lra|]. exists [0; 1]. split; [left; reflexivity|cbn; lra].
Qed.
(** For one reference location: the smallest distance plus threshold over the cell's
    distance plus threshold, to the exponent. *)
Theorem C48_single dim centers hmin r active ex t e w i : length r = dim -> e <> OtherEngine -> 0 < t -> 0 <= ex ->
  distance_weighting dim centers hmin [r] active ex (Some t) e None = Ok w -> (i < length (boolsel active centers))%nat ->
  exists j, (j < length (boolsel active centers))%nat /\
    (forall k, (k < length (boolsel active centers))%nat -> nth k w 0 <= nth j w 0) /\
    nth i w 0 = Rpower ((sqrt (sqdist (nth j (boolsel active centers) []) r) + t) / (sqrt (sqdist (nth i (boolsel active centers) []) r) + t)) ex.
Proof. exact (c48_single dim centers hmin r active ex t e w i). Qed.
Print Assumptions C48_single.
(** The order of the reference locations does not matter. *)
Theorem C48_order dim centers hmin refs refs' active ex thr e : points dim refs -> above_zero hmin thr -> e <> OtherEngine -> Permutation refs refs' ->
  distance_weighting dim centers hmin refs active ex thr e None = distance_weighting dim centers hmin refs' active ex thr e None.
Proof. intros HP _. exact (c48_order dim centers hmin refs refs' active ex thr e HP). Qed.
Print Assumptions C48_order.
(** Locations with the wrong number of coordinates are rejected. *)
Theorem C48_rejects dim centers hmin refs active ex thr e opts : dim <> 1%nat -> ~ Forall (fun p : vec => length p = dim) refs ->
  distance_weighting dim centers hmin refs active ex thr e opts = Err ValueError.
Proof. exact (c48_rejects dim centers hmin refs active ex thr e opts). Qed.
Print Assumptions C48_rejects.
Example C48_rejects_ex : ~ Forall (fun p : vec => length p = 2%nat) [[0; 1; 2]].
Proof. intros H. inversion H; subst. discriminate. Qed.
