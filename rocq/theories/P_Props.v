(** C16-C19: physical properties, their reciprocals, cached quantities, and the model setter. *)
From Verif Require Import Py Vec VecDeriv PropsM SpecProps PropsFacts.
Local Open Scope R_scope.

(** C16: the attributes hold exactly the last definition, and nothing else. *)
Theorem C16_one_definition : forall ops, holds_exactly (fold_left pstep ops pst0) (current_def ops).
Proof. exact holds_run. Qed.
Print Assumptions C16_one_definition.
Example C16_example : let ops := [SetValue P [2]; SetMap Q (mkPmap (fun x => x) (fun _ => [[1]]) None); ClearValue P; SetValue Q [4]; ClearMap Q] in
  current_def ops = Some (DValue Q [4]) /\ v_q (fold_left pstep ops pst0) = Some [4] /\ v_p (fold_left pstep ops pst0) = None.
Proof. repeat split. Qed.

(** C17: reciprocal values, both or neither readable. *)
Theorem C17_reciprocal_values : forall opt model ops a b, let st := fold_left pstep ops pst0 in
  read_value opt model st P = Ok (Some a) -> read_value opt model st Q = Ok (Some b) -> recip_pair a b.
Proof. exact read_recip. Qed.
Print Assumptions C17_reciprocal_values.
Theorem C17_both_readable : forall opt model ops a, let st := fold_left pstep ops pst0 in
  forall s, read_value opt model st s = Ok (Some a) -> exists b, read_value opt model st (other s) = Ok (Some b).
Proof. exact read_both. Qed.
Print Assumptions C17_both_readable.
Theorem C17_reciprocal_derivative : forall n k ops x s m, let st := fold_left pstep ops pst0 in
  getm st s = Some m -> length (pm_deriv m x) = k -> length x = n ->
  has_jacobian n k (pm_val m) x (mv (pm_deriv m x)) -> (forall i, (i < k)%nat -> nth i (pm_val m x) 0 <> 0) ->
  exists J, read_deriv (Some x) st (other s) = Some J /\
    has_jacobian n k (fun y => map (fun a => 1 / a) (pm_val m y)) x (mv J).
Proof. exact read_deriv_jacobian. Qed.
Print Assumptions C17_reciprocal_derivative.
Example C17_example : let ops := [SetMap Q (mkPmap (fun x => vscale 3 x) (fun _ => [[3]]) None)] in
  let st := fold_left pstep ops pst0 in
  read_value false (Some [2]) st Q = Ok (Some [3 * 2]) /\ read_value false (Some [2]) st P = Ok (Some [1 / (3 * 2)]) /\
  read_deriv (Some [2]) st P = Some [[- / (3 * 2 * (3 * 2)) * 3]].
Proof. repeat split. Qed.

(** C18: holds as long as no model array is edited in place and no assigned model is
    "close" to, but different from, the current one. *)
Theorem C18_cached_read_partial : forall (V : Type) (f : vec -> V) ops, clean f cst0 ops ->
  forall c, snd (cstep f (crun f ops cst0) Read) = Some c ->
  exists j, cur (crun f ops cst0) = Some j /\ c = f (deref (crun f ops cst0) j).
Proof. exact (@clean_read). Qed.
Print Assumptions C18_cached_read_partial.
(** The model can drift by any amount in steps that np.allclose ignores. *)
Theorem C18_drift_refuted : forall (V : Type) (f : vec -> V) n, let s := crun f (drift_ops n) cst0 in
  cur s = Some n /\ deref s n = [1 + INR n * / 100000] /\ snd (cstep f s Read) = Some (f [1 + INR 0 * / 100000]).
Proof. exact (@drift). Qed.
Print Assumptions C18_drift_refuted.
Theorem C18_in_place_refuted : forall (V : Type) (f : vec -> V) a b,
  let s := crun f [New a; Assign 0; Read; Mutate 0 b; Assign 0] cst0 in
  cur s = Some 0%nat /\ deref s 0 = b /\ snd (cstep f s Read) = Some (f a).
Proof. exact (@inplace). Qed.
Print Assumptions C18_in_place_refuted.
(** One-element model replaced by a longer one with the same value: np.allclose broadcasts. *)
Theorem C18_broadcast_refuted : forall (V : Type) (f : vec -> V) x n, let v := repeat x (S (S n)) in
  let s := crun f [New [x]; Assign 0; Read; New v; Assign 1] cst0 in
  cur s = Some 1%nat /\ deref s 1 = v /\ snd (cstep f s Read) = Some (f [x]).
Proof. exact (@broadcast). Qed.
Print Assumptions C18_broadcast_refuted.
Example C18_example : let ops := [New [1]; Assign 0; Read; New [2]; Assign 1] in
  clean (@length R) cst0 ops /\ snd (cstep (@length R) (crun (@length R) ops cst0) Read) = Some 1%nat.
Proof. exact clean_example. Qed.

(** C19: with all nested objects holding the same model, any depth. *)
Theorem C19_rollback_in_sync_partial : forall u h v fuel h' e, in_sync u h -> (height h <= fuel)%nat ->
  set_model fuel h (MArr v) = (h', Some e) -> same_models h h'.
Proof. exact rollback_sync. Qed.
Print Assumptions C19_rollback_in_sync_partial.
(** First assignment, one level of nesting. *)
Theorem C19_rollback_first_model_partial : forall h v fuel h' e, no_models h -> (2 <= fuel)%nat ->
  set_model fuel h (MArr v) = (h', Some e) -> same_models h h'.
Proof. exact rollback_none. Qed.
Print Assumptions C19_rollback_first_model_partial.
(** A nested object with a model of its own loses it. *)
Theorem C19_foreign_model_refuted :
  exists (h h' : hm) (v : vec) e, set_model 2 h (MArr v) = (h', Some e) /\ ~ same_models h h'.
Proof. exact foreign_refuted. Qed.
Print Assumptions C19_foreign_model_refuted.
(** A model that fits every mapping is rejected after the nested objects took it. *)
Theorem C19_resize_refuted : exists (h h' : hm) (v : vec) e, hm_model h = MArr [1; 2] /\
  forallb (fits (length v)) (hm_needs h) = true /\ (forall x, In x (hm_nest h) -> forallb (fits (length v)) (hm_needs x) = true) /\
  set_model 2 h (MArr v) = (h', Some e) /\ ~ same_models h h'.
Proof. exact resize_refuted. Qed.
Print Assumptions C19_resize_refuted.
(** Rolling back to "no model" does not reach the second level of nesting. *)
Theorem C19_grandchild_refuted : exists (h h' : hm) (v : vec) e, hm_model h = MNone /\
  (forall x, In x (hm_nest h) -> hm_model x = MNone /\ forall y, In y (hm_nest x) -> hm_model y = MNone) /\
  set_model 3 h (MArr v) = (h', Some e) /\ ~ same_models h h'.
Proof. exact grandchild_refuted. Qed.
Print Assumptions C19_grandchild_refuted.
(** After [del model] the rollback itself raises. *)
Theorem C19_deleted_model_refuted : exists (h h' : hm) (v : vec) e, let hd := del_model h in
  in_sync [1; 2] h /\ set_model 2 hd (MArr v) = (h', Some e) /\ ~ same_models hd h'.
Proof. exact deleted_refuted. Qed.
Print Assumptions C19_deleted_model_refuted.
Example C19_example : let h := HM [None] (MArr [1; 2]) true [HM [None] (MArr [1; 2]) true []; HM [Some 2%nat] (MArr [1; 2]) true []] in
  in_sync [1; 2] h /\ exists h', set_model 3 h (MArr [5]) = (h', Some ValueError).
Proof. exact rollback_example. Qed.
