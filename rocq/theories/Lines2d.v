(** Splitting a 3D survey into 2D lines: simpeg/electromagnetics/static/utils/static_utils.py
    342-489.  Exact reals; receivers, sources, rows and the tolerance [np.isclose(.., atol=1e-3)]
    as in Abmn.v. *)
From Verif Require Export Py Vec Abmn.
From Coq Require Import ZArith.
Local Open Scope R_scope.

(** The lexicographic order of [np.unique(.., axis=0)] *)
Fixpoint lex_lt (x y : vec) : bool :=
  match x, y with
  | a :: x, b :: y => if Rlt_dec a b then true else if Rlt_dec b a then false else lex_lt x y
  | [], _ :: _ => true
  | _, [] => false
  end.
(** [np.unique(.., return_index=True)]: sorted rows without repetition, each with the index
    of its first occurrence (409-411). *)
Fixpoint insert (k : vec) (i : nat) (l : list (vec * nat)) : list (vec * nat) :=
  match l with
  | [] => [(k, i)]
  | (k', i') :: l' => if vec_eqb k k' then l else if lex_lt k k' then (k, i) :: l else (k', i') :: insert k i l'
  end.
Definition unique_rows (keys : list vec) : list (vec * nat) :=
  fold_left (fun l p => insert (fst p) (snd p) l) (combine keys (seq 0 (List.length keys))) [].
(** [np.unique(lineID)] (392) *)
Fixpoint zinsert (z : Z) (l : list Z) : list Z :=
  match l with [] => [z] | y :: l' => if (z =? y)%Z then l else if (z <? y)%Z then z :: l else y :: zinsert z l' end.
Definition unique_ids (ids : list Z) : list Z := fold_left (fun l z => zinsert z l) ids [].

Definition xy (v : vec) : vec := firstn 2 v.
Definition norm (v : vec) : R := sqrt (dot v v).
(** [x, y, z] to [s, z] (426-441) *)
Definition project (r0 u v : vec) : vec := [dot (vsub (xy v) r0) u; nth 2 v 0].
Definition project_row (r0 u : vec) (q : quad) : quad :=
  {| qa := project r0 u (qa q); qb := project r0 u (qb q); qm := project r0 u (qm q); qn := project r0 u (qn q) |}.

(** ** One line *)
Section Line.
(** The rows of the line, in the order of the data, already projected; [firsts] is [ab_index]. *)
Variable rows : list quad.
Variable firsts : list nat.
(** 450-453: only the positions along the line are compared. *)
Definition same_s (i j : nat) : bool :=
  close1 (nth 0 (qa (row rows j)) 0) (nth 0 (qa (row rows i)) 0) && close1 (nth 0 (qb (row rows j)) 0) (nth 0 (qb (row rows i)) 0).
Definition rx_of (i : nat) : list nat := filter (same_s i) (seq 0 (List.length rows)).
(** 459-477 *)
Definition l_poles (i : nat) : list nat := filter (pole_rx rows) (rx_of i).
Definition l_dipoles (i : nat) : list nat := filter (fun j => negb (pole_rx rows j)) (rx_of i).
Definition l_rx_list (i : nat) : list receiver :=
  (match l_poles i with [] => [] | l => [RxPole (map (fun j => qm (row rows j)) l)] end) ++
  (match l_dipoles i with [] => [] | l => [RxDipole (map (fun j => qm (row rows j)) l) (map (fun j => qn (row rows j)) l)] end).
(** 479-483 *)
Definition l_source (i : nat) : source :=
  if closev (qa (row rows i)) (qb (row rows i)) then SrcPole (l_rx_list i) (qa (row rows i))
  else SrcDipole (l_rx_list i) (qa (row rows i)) (qb (row rows i)).
Definition l_out : list nat := flat_map (fun i => l_poles i ++ l_dipoles i) firsts.
End Line.

(** The survey of a line with the indices of its data in the 3D survey, or, when the line has
    no direction and all positions along it are not numbers, this many sources without
    receivers. *)
Inductive line2d := Line (s : survey) (out : list nat) | Lost (n_sources : nat).
(** 403-487; [idx] is [lineID_index]. *)
Definition line_rows (rows : list quad) (idx : list nat) : list quad := map (row rows) idx.
Definition pair_key (q : quad) : vec := qa q ++ qb q.
Definition line_firsts (lr : list quad) : list nat := map snd (unique_rows (map pair_key lr)).
Definition line_r0 (lr : list quad) : vec := xy (qa (row lr (hd 0%nat (line_firsts lr)))).
Definition line_rN (lr : list quad) : vec := xy (qa (row lr (last (line_firsts lr) 0%nat))).
Definition line_u (lr : list quad) : vec := let d := vsub (line_rN lr) (line_r0 lr) in vscale (/ norm d) d.
Definition line (rows : list quad) (idx : list nat) : line2d :=
  let lr := line_rows rows idx in
  let f := line_firsts lr in
  if Req_EM_T (norm (vsub (line_rN lr) (line_r0 lr))) 0 then Lost (List.length f)
  else
    let pr := map (project_row (line_r0 lr) (line_u lr)) lr in
    Line (map (l_source pr) f) (map (fun j => nth j idx 0%nat) (l_out pr f)).

(** ** The function *)
Definition three (q : quad) : bool :=
  (List.length (qa q) =? 3)%nat && (List.length (qb q) =? 3)%nat && (List.length (qm q) =? 3)%nat && (List.length (qn q) =? 3)%nat.
Definition line_index (ids : list Z) (z : Z) : list nat := filter (fun j => (nth j ids 0 =? z)%Z) (seq 0 (List.length ids)).
Definition lost (l : line2d) : bool := match l with Lost _ => true | _ => false end.
(** 377-492; [ndim] is the number of dimensions of [lineID] and [ids] are its values.  The four
    tables are taken to have the same number of columns.  A survey without data raises in
    [np.vstack] (resistivity/survey.py 234), [np.hstack] of nothing raises (487). *)
Definition convert (sv : survey) (ndim : nat) (ids : list Z) (indexing : bool) : result (list line2d) :=
  let rows := locations sv in
  if (List.length rows =? 0)%nat then Err ValueError
  else if negb (forallb three rows) then Err ValueError
  else if negb (ndim =? 1)%nat then Err ValueError
  else if negb (List.length ids =? List.length rows)%nat then Err ValueError
  else
    let ls := map (fun z => line rows (line_index ids z)) (unique_ids ids) in
    if indexing && existsb lost ls then Err ValueError else Ok ls.
