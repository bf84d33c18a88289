(** C01, C03, C46, C47: surveys, their slices, counts and lookups. *)
From Verif Require Import Py Survey SpecSurvey SurveyFacts.

(** C01: in survey order, the slice of a pair starts after all the data of the
    pairs before it and has the receiver's number of data. *)
Theorem C01_slice_position : forall l l1 s l2 r1 r r2,
  accepted l = true -> l = l1 ++ s :: l2 -> src_rxs s = r1 ++ r :: r2 ->
  get_slice l (src_id s, rx_id r)
  = Ok (total_data l1 + total_rx r1, total_data l1 + total_rx r1 + rx_nD r).
Proof. exact slice_position. Qed.
Print Assumptions C01_slice_position.

(** Every index below the total belongs to exactly one pair's slice. *)
Theorem C01_slices_partition : forall l i, accepted l = true -> i < total_data l ->
  exists! k, exists a b, get_slice l k = Ok (a, b) /\ a <= i < b.
Proof. exact slices_partition. Qed.
Print Assumptions C01_slices_partition.

(** Slices stay inside the flat array and have the receiver's size. *)
Theorem C01_slices_inside : forall l k a b, get_slice l k = Ok (a, b) ->
  a <= b /\ b <= total_data l /\
  exists s r, In s l /\ In r (src_rxs s) /\ k = (src_id s, rx_id r) /\ b - a = rx_nD r.
Proof. exact slice_bounds. Qed.
Print Assumptions C01_slices_inside.

(** A slice is returned for the survey's pairs only; other pairs raise KeyError. *)
Theorem C01_member_pair : forall l k, pair_of_survey l k -> exists a b, get_slice l k = Ok (a, b).
Proof. exact member_pair. Qed.
Print Assumptions C01_member_pair.
Theorem C01_foreign_pair_raises : forall l k, ~ pair_of_survey l k -> get_slice l k = Err KeyError.
Proof. exact foreign_pair. Qed.
Print Assumptions C01_foreign_pair_raises.

(** [get_all_slices] has the pairs as keys, in survey order, and agrees with [get_slice]. *)
Theorem C01_all_slices_agree : forall l, accepted l = true ->
  map fst (get_all_slices l) = pair_keys l /\
  forall k, get_slice l k = match dict_get pkey_eqb k (get_all_slices l) with
                            | Some sl => Ok sl | None => Err KeyError end.
Proof. exact all_slices_agree. Qed.
Print Assumptions C01_all_slices_agree.

(** Two sources sharing receiver 7, an empty receiver in between. *)
Definition ex_sources : list src :=
  [mkSrc 0 [mkRx 7 2; mkRx 8 0; mkRx 9 3] 1; mkSrc 1 [mkRx 7 4] 2].
Example C01_example : accepted ex_sources = true /\ total_data ex_sources = 9 /\
  get_slice ex_sources (1, 7) = Ok (5, 9) /\ get_slice ex_sources (1, 8) = Err KeyError /\
  get_all_slices ex_sources = [((0,7),(0,2)); ((0,8),(2,2)); ((0,9),(2,5)); ((1,7),(5,9))].
Proof. repeat split. Qed.

(** C03: [nD] equals the size of the data tiled by the slices as long as no
    reading of [nD] precedes a change of the sources or receivers. *)
Theorem C03_nD_matches_slices : forall l s ops1 ops2,
  survey_init l = Ok s ->
  (forall o, In o ops1 -> o <> OpReadND) -> (forall o, In o ops2 -> o = OpReadND) ->
  let s' := survey_run s (ops1 ++ ops2) in fst (survey_nD s') = total_data (sv_srcs s').
Proof. exact nD_matches_static. Qed.
Print Assumptions C03_nD_matches_slices.

(** FINDING: in general it does not: the count read once is never refreshed. *)
Theorem C03_nD_matches_slices_refuted :
  exists l s ops, survey_init l = Ok s /\
    let s' := survey_run s ops in
    accepted (sv_srcs s') = true /\ fst (survey_nD s') <> total_data (sv_srcs s').
Proof. exact nD_stale. Qed.
Print Assumptions C03_nD_matches_slices_refuted.
Example C03_example : exists s, survey_init ex_sources = Ok s /\
  fst (survey_nD (survey_run s ([OpSetReceivers 1 [mkRx 3 10]] ++ [OpReadND]))) = 15.
Proof. eexists; split; reflexivity. Qed.

(** C46: the projection returned is that of the current locations if locations
    were not reassigned, or if projections are never stored. *)
Theorem C46_projection_current : forall Loc Mat (interp : Loc -> nat -> nat -> Mat) l b ops m g,
  (forall o, In o ops -> is_setloc o = false) ->
  fst (getP interp (prx_run interp (mkPrx l b []) ops) m g) = interp l m g.
Proof. exact @getP_no_move. Qed.
Print Assumptions C46_projection_current.
Theorem C46_projection_unstored : forall Loc Mat (interp : Loc -> nat -> nat -> Mat) l ops m g,
  (forall o, In o ops -> sets_store o = false) ->
  let r := prx_run interp (mkPrx l false []) ops in fst (getP interp r m g) = interp (p_locs r) m g.
Proof. exact @getP_no_store. Qed.
Print Assumptions C46_projection_unstored.
(** FINDING: with stored projections, reassigning the locations leaves the old
    projection in use, for every interpolation and every pair of locations that
    the interpolation tells apart. *)
Theorem C46_projection_stale_refuted : forall Loc Mat (interp : Loc -> nat -> nat -> Mat) l l' m g,
  interp l m g <> interp l' m g ->
  let r := prx_run interp (mkPrx l true []) [PGet m g; PSetLoc l'] in
  p_locs r = l' /\ fst (getP interp r m g) <> interp (p_locs r) m g.
Proof. exact @getP_moved. Qed.
Print Assumptions C46_projection_stale_refuted.
(** FINDING: a time receiver ignores the requested grids once a projection for the
    same two meshes is stored. *)
Theorem C46_time_projection_grid_refuted :
  forall Mat (interpT : nat -> nat -> nat -> nat -> Mat) m t g1 t1 g2 t2,
  interpT m t g1 t1 <> interpT m t g2 t2 ->
  fst (time_getP interpT (snd (time_getP interpT [] m t g1 t1)) m t g2 t2) <> interpT m t g2 t2.
Proof. exact @time_getP_hit. Qed.
Print Assumptions C46_time_projection_grid_refuted.
Example C46_example :
  let interp := fun (l : nat) (m g : nat) => l + 10 * m + 100 * g in
  fst (getP interp (prx_run interp (mkPrx 1 true []) [PGet 0 0; PGet 1 0; PSetStore false]) 1 0) = 11 /\
  interp 1 0 0 <> interp 2 0 0.
Proof. split; [reflexivity|discriminate]. Qed.

(** C47: field columns of the sources are consecutive blocks in survey order, and
    an unknown source raises KeyError. *)
Theorem C47_source_indices_block : forall l l1 s l2, valid_src_list l = true -> l = l1 ++ s :: l2 ->
  get_source_indices l [src_id s] = Ok (seq (list_sum (map src_nf l1)) (src_nf s)).
Proof. exact source_indices_block. Qed.
Print Assumptions C47_source_indices_block.
Theorem C47_source_indices_concat : forall l a b, get_source_indices l (a ++ b)
  = do x <- get_source_indices l a; do y <- get_source_indices l b; Ok (x ++ y).
Proof. exact source_indices_app. Qed.
Print Assumptions C47_source_indices_concat.
Theorem C47_source_indices_all : forall l, valid_src_list l = true ->
  get_source_indices l (map src_id l) = Ok (seq 0 (list_sum (map src_nf l))).
Proof. exact source_indices_all. Qed.
Print Assumptions C47_source_indices_all.
Theorem C47_source_indices_unknown : forall l ks,
  (exists k, In k ks /\ ~ In k (map src_id l)) -> get_source_indices l ks = Err KeyError.
Proof. exact source_indices_unknown. Qed.
Print Assumptions C47_source_indices_unknown.
Example C47_example : get_source_indices ex_sources [1; 0; 1] = Ok [1; 2; 0; 1; 2].
Proof. reflexivity. Qed.
(** FINDING: the receiver lookup of a source raises TypeError even for its own receivers. *)
Theorem C47_receiver_indices_refuted :
  exists s r, In r (src_rxs s) /\ get_receiver_indices s [rx_id r] = Err TypeError.
Proof. exact receiver_indices_member. Qed.
Print Assumptions C47_receiver_indices_refuted.
