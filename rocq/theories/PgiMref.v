(** Model of simpeg/directives/_pgi_directives.py [PGI_AddMrefInSmooth] (325-474) on the
    regularizations it meets: regularization/pgi.py [PGI] (1113-1181, 1336-1366) and
    regularization/base.py [WeightedLeastSquares] (608-628, 731-739).
    The Gaussian mixture is an argument (membership of the cells and the model made of the
    means of their units); the length checks of reference models are not modelled. *)
From Verif Require Import Py Vec.
Local Open Scope R_scope.

(** A term of a WeightedLeastSquares: whether it is a smoothness term, its
    reference_model_in_smooth and its reference_model *)
Record term := mkT { smooth : bool; flag : bool; ref : option vec }.
Definition set_flag (b : bool) (t : term) : term := if smooth t then mkT true b (ref t) else t.
Definition set_ref (r : option vec) (t : term) : term := mkT (smooth t) (flag t) r.
Definition wls := list term.
(** pgi.py 1141-1180: objfcts is a PGIsmallness (here its reference) and one
    WeightedLeastSquares per map *)
Record pgi := mkPgi { small_ref : option vec; parts : list wls }.
(** pgi.py 1336-1346, with base.py 618-628 *)
Definition pgi_set_flag (b : bool) (p : pgi) : pgi := mkPgi (small_ref p) (map (map (set_flag b)) (parts p)).
(** pgi.py 1360-1366, with base.py 731-739 *)
Definition pgi_set_ref (r : option vec) (p : pgi) : pgi := mkPgi r (map (map (set_ref r)) (parts p)).

(** The regularization of the inversion: a PGI, or a sum of a PGI and others *)
Inductive part := PPgi (p : pgi) | PWls (w : wls).
Inductive top := TPgi (p : pgi) | TSum (l : list part).

(** 341-353: [None] if there is no MultiTargetMisfits among the directives; otherwise its
    targets *)
Record options := mkO { o_targets : option vec; o_tol_phid : R; o_wait : bool; o_tol : R }.
(** What an iteration gives: DM and dmlist of the targets, the membership (422-425) and
    mkvc(gmm.means_[membership]) *)
Record iter := mkI { i_dm : bool; i_dmlist : vec; i_member : list nat; i_mref : vec }.

(** 428-431: cells whose unit changed *)
Fixpoint changed (a b : list nat) : nat :=
  match a, b with x :: a', y :: b' => (if Nat.eqb x y then 0 else 1) + changed a' b' | _, _ => O end.
(** [np.all(dmlist < (1 + tolerance_phid) * DMtarget)] (440) *)
Fixpoint all_below (d tg : vec) (c : R) : bool :=
  match d, tg with x :: d', y :: tg' => (if Rlt_dec x ((1 + c) * y) then true else false) && all_below d' tg' c | _, _ => true end.
(** 427-443 *)
Definition ready (o : options) (tg : vec) (prev : list nat) (i : iter) : bool :=
  (i_dm i || all_below (i_dmlist i) tg (o_tol_phid o))
  && (Nat.eqb (changed prev (i_member i)) 0 || negb (o_wait o)
      || if Rle_dec (INR (changed prev (i_member i)) / INR (length (i_member i))) (o_tol o) then true else false).

(** 373-381 and 394-399 with isinstance(_, (SmoothnessFirstOrder, SparseSmoothness)): the
    objfcts of a PGI are a PGIsmallness and sums, none of them a smoothness; those of a
    WeightedLeastSquares are terms *)
Definition assign_part (r : vec) (p : part) : part :=
  match p with
  | PPgi p => PPgi p
  | PWls w => PWls (map (fun t => if smooth t then set_ref (Some r) t else t) w)
  end.
(** 445 with 364-367 and 388: only the first PGI *)
Fixpoint flag_first (l : list part) : list part :=
  match l with
  | [] => []
  | PPgi p :: l' => PPgi (pgi_set_flag true p) :: l'
  | PWls w :: l' => PWls w :: flag_first l'
  end.
(** 444-466; 444 on a sum only adds an attribute to the sum *)
Definition include (r : vec) (t : top) : top :=
  match t with
  | TPgi p => TPgi (pgi_set_flag true p)
  | TSum l => TSum (map (assign_part r) (flag_first l))
  end.
(** 418-474: without MultiTargetMisfits there is no targetclass; 428-431 divides by the
    number of cells. State: previous membership and the regularization *)
Definition end_iter (o : options) (i : iter) (s : list nat * top) : result (list nat * top) :=
  match o_targets o with
  | None => Err AttributeError
  | Some tg =>
      match i_member i with
      | [] => Err ZeroDivisionError
      | _ => Ok (i_member i, if ready o tg (fst s) i then include (i_mref i) (snd s) else snd s)
      end
  end.
(** 128 of PGI_UpdateParameters: pgi_reg.reference_model = mref *)
Fixpoint update_first (r : vec) (l : list part) : list part :=
  match l with
  | [] => []
  | PPgi p :: l' => PPgi (pgi_set_ref (Some r) p) :: l'
  | PWls w :: l' => PWls w :: update_first r l'
  end.
Definition update (r : vec) (t : top) : top :=
  match t with TPgi p => TPgi (pgi_set_ref (Some r) p) | TSum l => TSum (update_first r l) end.
Inductive op := OUpdate (r : vec) | OEnd (i : iter).
Definition step (o : options) (x : op) (s : list nat * top) : result (list nat * top) :=
  match x with OUpdate r => Ok (fst s, update r (snd s)) | OEnd i => end_iter o i s end.
Fixpoint run (o : options) (l : list op) (s : list nat * top) : result (list nat * top) :=
  match l with [] => Ok s | x :: l' => do s' <- step o x s; run o l' s' end.
