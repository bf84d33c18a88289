(** Model of simpeg/regularization/sparse.py: the IRLS weights and the norms of a sparse
    regularization. *)
From Verif Require Import Py Vec SensW.
Local Open Scope R_scope.

(** [a ** (1 - p/2)] for a positive base *)
Definition lp_den (eps p f : R) : R := Rpower (f ^ 2 + eps ^ 2) (1 - p / 2).

(** 192-203, one entry; [fmax] is the largest absolute value of f_m. *)
Definition lp_scale (scaled : bool) (fmax eps p : R) : R :=
  if scaled then
    let l2_max := if Rlt_dec p 1 then eps / sqrt (1 - p) else fmax in
    let lp_value := l2_max / lp_den eps p l2_max in
    if Req_EM_T lp_value 0 then 1 else fmax / lp_value
  else 1.
(** 205-207, one entry *)
Definition lp_weight (scaled : bool) (fmax eps p f : R) : R := lp_scale scaled fmax eps p / lp_den eps p f.

Fixpoint zip {A B} (a : list A) (b : list B) : list (A * B) :=
  match a, b with x :: a', y :: b' => (x, y) :: zip a' b' | _, _ => [] end.

(** 135-207 [get_lp_weights]: norms and kernel of one length (the setter of norm and the mesh
    make them so; other lengths are broadcast or refused by numpy, not distinguished here);
    the maximum of an empty array raises. *)
Definition get_lp_weights (scaled : bool) (eps : R) (norm f_m : vec) : result vec :=
  if negb (Nat.eqb (length norm) (length f_m)) then Err ValueError else
  if scaled && Nat.eqb (length f_m) 0 then Err ValueError else
  let fmax := vmax (map Rabs f_m) in
  Ok (map (fun pf => lp_weight scaled fmax eps (fst pf) (snd pf)) (zip norm f_m)).

(** 116-133, setter of [norm] on a term with [n] entries: None, a number, an array, or
    something that is not an array of floats. *)
Inductive normval := NNone | NScalar (r : R) | NArr (v : vec) | NBad.
Definition outside (x : R) : bool := if Rlt_dec x 0 then true else if Rlt_dec 2 x then true else false.
Definition set_norm (n : nat) (v : normval) : result vec :=
  do a <- match v with
          | NNone => Ok (vconst n 2)
          | NScalar r => Ok (vconst n r)
          | NArr a => if Nat.eqb (length a) n then Ok a
                      else match a with [r] => Ok (vconst n r) | _ => Err ValueError end
          | NBad => Err TypeError
          end;
  if existsb outside a then Err ValueError else Ok a.

(** The terms (their sizes and their norms) and [_norms], absent until the first
    successful assignment (944-946: inside __init__, before which every term has 2). *)
Record sparse := mkSp { sizes : list nat; term_norms : list vec; s_norms : option (list normval) }.

(** 1001-1002: the loop; the terms set before a failure keep their new norm. *)
Fixpoint set_loop (vals : list normval) (sz : list nat) (old : list vec) : list vec * option exn :=
  match vals, sz, old with
  | v :: vals', n :: sz', o :: old' =>
      match set_norm n v with
      | Ok a => let (rest, e) := set_loop vals' sz' old' in (a :: rest, e)
      | Err e => (o :: old', Some e)
      end
  | _, _, _ => (old, None)
  end.
(** 989-1008, setter of [norms] *)
Definition set_norms (s : sparse) (values : option (list normval)) : sparse * option exn :=
  let vals := match values with Some l => l | None => repeat NNone (length (sizes s)) end in
  if negb (Nat.eqb (length vals) (length (sizes s))) then (s, Some ValueError) else
  let previous := match s_norms s with Some l => l | None => repeat NNone (length (sizes s)) end in
  match set_loop vals (sizes s) (term_norms s) with
  | (t, None) => (mkSp (sizes s) t (Some vals), None)
  | (t, Some e) =>
      match set_loop previous (sizes s) t with
      | (t', None) => (mkSp (sizes s) t' (s_norms s), Some e)
      | (t', Some e') => (mkSp (sizes s) t' (s_norms s), Some e')
      end
  end.
(** 116-133 on the k-th term of the combination *)
Definition replace {A} (l : list A) (k : nat) (x : A) : list A := firstn k l ++ x :: skipn (S k) l.
Definition set_term (s : sparse) (k : nat) (v : normval) : sparse * option exn :=
  if Nat.ltb k (length (sizes s)) then
    match set_norm (nth k (sizes s) O) v with
    | Ok a => (mkSp (sizes s) (replace (term_norms s) k a) (s_norms s), None)
    | Err e => (s, Some e)
    end
  else (s, Some IndexError).
(** 923-946: the terms are created with norm 2, then [norms] is assigned. *)
Definition sparse_new (sz : list nat) (norms : option (list normval)) : sparse * option exn :=
  set_norms (mkSp sz (map (fun n => vconst n 2) sz) None) norms.
