(** C02, C04: the data container. *)
From Verif Require Import Py Vec Survey SpecSurvey DataM SpecData DataFacts.

(** C02: after any sequence of indexed writes (failed ones included), reading a
    pair gives the last value accepted for that pair, or the initial one. *)
Theorem C02_indexed_is_map : forall A l (d0 : list A) ws k v0,
  accepted l = true -> length d0 = total_data l -> getitem l d0 k = Ok v0 ->
  getitem l (setitem_run l d0 ws) k = Ok (fold_left (block_write k (length v0)) ws v0) /\
  length (setitem_run l d0 ws) = total_data l.
Proof. exact @setitem_run_spec. Qed.
Print Assumptions C02_indexed_is_map.

(** The flat vector is the concatenation, in survey order, of the indexed blocks. *)
Theorem C02_flat_is_concat : forall A l (d : list A), accepted l = true -> length d = total_data l ->
  exists bs, mapM (getitem l d) (pair_keys l) = Ok bs /\ concat bs = tovec d.
Proof. exact @tovec_blocks. Qed.
Print Assumptions C02_flat_is_concat.

(** Foreign pairs raise KeyError, wrong sizes raise ValueError. *)
Theorem C02_foreign_raises : forall A l (d : list A) k v, ~ pair_of_survey l k ->
  setitem l d k v = Err KeyError /\ getitem l d k = Err KeyError.
Proof. exact @setitem_foreign. Qed.
Print Assumptions C02_foreign_raises.
Theorem C02_wrong_size_raises : forall A l (d : list A) k v s r,
  accepted l = true -> length d = total_data l ->
  In s l -> In r (src_rxs s) -> k = (src_id s, rx_id r) ->
  length v <> rx_nD r -> length v <> 1 -> setitem l d k v = Err ValueError.
Proof. exact @setitem_badsize. Qed.
Print Assumptions C02_wrong_size_raises.
Example C02_example :
  let l := [mkSrc 0 [mkRx 7 2; mkRx 9 3] 1; mkSrc 1 [mkRx 7 4] 2] in
  accepted l = true /\ length (repeat 0 9) = total_data l /\
  setitem_run l (repeat 0 9) [((1,7),[1;2;3;4]); ((0,9),[8]); ((0,7),[1;2;3]); ((5,5),[1]); ((1,7),[5;6;7;8])]
  = [0;0;8;8;8;5;6;7;8].
Proof. repeat split. Qed.

Local Open Scope R_scope.

(** C04: whatever the history of assignments (to the uncertainties, the data
    vector, or single blocks), the standard deviation is the formula of the
    CURRENT relative error, noise floor and data. *)
Theorem C04_uncertainty_formula : forall D (modulus : D -> R) l nD dobs r f s ops (d0 : ddata D),
  data_init nD dobs r f s = Ok d0 ->
  let d := data_run l d0 ops in
  good_part nD (d_rel d) /\ good_part nD (d_floor d) /\ length (d_dobs d) = nD /\
  (d_rel d = None -> d_floor d = None -> std_getter modulus d = Err TypeError) /\
  (d_rel d <> None \/ d_floor d <> None ->
   exists u, std_getter modulus d = Ok u /\ length u = nD /\
    forall i x, nth_error (d_dobs d) i = Some x ->
      nth i u 0 = sqrt ((part (d_rel d) i * modulus x) ^ 2 + part (d_floor d) i ^ 2)).
Proof. exact @history_formula. Qed.
Print Assumptions C04_uncertainty_formula.

(** A freshly built container always has a standard deviation. *)
Theorem C04_constructor_defined : forall D (modulus : D -> R) nD dobs r f s (d0 : ddata D),
  data_init nD dobs r f s = Ok d0 -> exists u, std_getter modulus d0 = Ok u.
Proof. exact @init_not_none. Qed.
Print Assumptions C04_constructor_defined.

(** What is in force after an assignment is what was assigned, nothing else changes. *)
Theorem C04_assignment_effect : forall D (d : ddata D) v o, assigns (d_nD d) v o ->
  set_rel d v = (mkData (d_nD d) (d_dobs d) o (d_floor d), None) /\
  set_floor d v = (mkData (d_nD d) (d_dobs d) (d_rel d) o, None).
Proof. exact @assign_effect. Qed.
Print Assumptions C04_assignment_effect.
Theorem C04_invalid_assignment_rejected : forall D (d : ddata D) v,
  (0 < d_nD d)%nat -> (forall o, ~ assigns (d_nD d) v o) ->
  set_rel d v = (d, Some ValueError) /\ set_floor d v = (d, Some ValueError).
Proof. exact @assign_reject. Qed.
Print Assumptions C04_invalid_assignment_rejected.

(** Assigning the standard deviation makes it read back unchanged. *)
Theorem C04_standard_deviation_roundtrip : forall D (modulus : D -> R) (d : ddata D) v w,
  length (d_dobs d) = d_nD d -> assigns (d_nD d) v (Some w) ->
  snd (set_std d v) = None /\ std_getter modulus (fst (set_std d v)) = Ok w.
Proof. exact @std_assign. Qed.
Print Assumptions C04_standard_deviation_roundtrip.

(** FINDING: a rejected standard-deviation assignment has already wiped the
    relative error. *)
Theorem C04_rejected_std_keeps_state_refuted : forall D (x0 : D), exists (d : ddata D) v, data_wf d /\
  snd (set_std d v) = Some ValueError /\ d_rel (fst (set_std d v)) <> d_rel d.
Proof. exact @std_not_atomic. Qed.
Print Assumptions C04_rejected_std_keeps_state_refuted.

Example C04_example : exists d : ddata R, data_init 2 [3; -4] UNone (UScalar 2) UNone = Ok d /\
  assigns 2 (UScalar 2) (Some [2; 2]) /\ ~ (exists o, assigns 2 (UScalar (-1)) o).
Proof.
  eexists; split; [|split].
  - unfold data_init; cbn. unfold Rltb. destruct (Rlt_dec 2 0); [exfalso; lra|]. reflexivity.
  - apply (as_scalar 2 2); lra.
  - intros [o H]; inversion H; lra.
Qed.
