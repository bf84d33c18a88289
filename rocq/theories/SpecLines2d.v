(** Vocabulary for the splitting of a survey into lines. *)
From Verif Require Import Py Vec Abmn SpecAbmn Lines2d.
From Coq Require Import ZArith.
Local Open Scope R_scope.

(** Datum [j] belongs to line [z]. *)
Definition on_line (ids : list Z) (z : Z) (j : nat) : Prop := (j < List.length ids)%nat /\ nth j ids 0%Z = z.
Definition plan (v : vec) : vec := [nth 0 v 0; nth 1 v 0].
(** The place of [v] on the profile through [r0] in the direction [u]: distance along the
    profile and elevation. *)
Definition profile (r0 u v : vec) : vec := [(nth 0 v 0 - nth 0 r0 0) * nth 0 u 0 + (nth 1 v 0 - nth 1 r0 0) * nth 1 u 0; nth 2 v 0].
Definition profile_row (r0 u : vec) (q : quad) : quad :=
  {| qa := profile r0 u (qa q); qb := profile r0 u (qb q); qm := profile r0 u (qm q); qn := profile r0 u (qn q) |}.
(** The order of the pairs (A, B): by the first coordinate that differs. *)
Definition before (x y : vec) : Prop := exists p a b x' y', x = p ++ a :: x' /\ y = p ++ b :: y' /\ a < b.
Definition ab (q : quad) : vec := qa q ++ qb q.
(** The profile of a line starts under the A electrode of its first pair and heads for the A
    electrode of its last. *)
Definition frame (rows : list quad) (ids : list Z) (z : Z) (r0 u : vec) : Prop := exists f l : nat,
  on_line ids z f /\ on_line ids z l /\
  (forall j, on_line ids z j -> (ab (row rows f) = ab (row rows j) \/ before (ab (row rows f)) (ab (row rows j))) /\
                                (ab (row rows j) = ab (row rows l) \/ before (ab (row rows j)) (ab (row rows l)))) /\
  r0 = plan (qa (row rows f)) /\ 0 < distance r0 (plan (qa (row rows l))) /\
  u = vscale (/ distance r0 (plan (qa (row rows l)))) (vsub (plan (qa (row rows l))) r0).
Definition together (x y : R) : Prop := Rabs (x - y) <= / 1000 + / 100000 * Rabs y.
(** Different pairs of a line have different positions along its profile. *)
Definition pairs_apart (rows : list quad) (ids : list Z) (z : Z) : Prop := forall r0 u, frame rows ids z r0 u ->
  forall i j, on_line ids z i -> on_line ids z j -> (qa (row rows i), qb (row rows i)) <> (qa (row rows j), qb (row rows j)) ->
  ~ (together (hd 0 (profile r0 u (qa (row rows i)))) (hd 0 (profile r0 u (qa (row rows j)))) /\
     together (hd 0 (profile r0 u (qb (row rows i)))) (hd 0 (profile r0 u (qb (row rows j))))).
Definition all3 (rows : list quad) : Prop := Forall (fun q => List.length (qa q) = 3%nat /\ List.length (qb q) = 3%nat /\ List.length (qm q) = 3%nat /\ List.length (qn q) = 3%nat) rows.
(** Pole sources at [as_], each with a pole receiver at [m]. *)
Definition poles_at (m : vec) (as_ : list vec) : survey := map (fun a => SrcPole [RxPole [m]] a) as_.
(** Two dipoles across a line, each with a receiver dipole parallel to it. *)
Definition across : survey := [SrcDipole [RxDipole [[5; -5; 0]] [[5; 5; 0]]] [0; -5; 0] [0; 5; 0]; SrcDipole [RxDipole [[15; -5; 0]] [[15; 5; 0]]] [10; -5; 0] [10; 5; 0]].
Definition holes : survey := poles_at [5; 0; 0] [[0; 0; -10]; [0; 0; 0]; [10; 0; 0]].
Definition two : survey := poles_at [5; 0; 0] [[10; 0; 0]; [0; 0; 0]].
