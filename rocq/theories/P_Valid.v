(** Properties C25 and C26: what the validators accept. *)
From Coq Require Import ZArith String.
From Verif Require Import Py Vec Validators SpecValid ValidFacts.
Local Open Scope R_scope.

(** C25.  A float that is a number is accepted exactly when it lies within the bounds,
    with either end inclusive or exclusive, and is returned unchanged. *)
Theorem C25_float_partial : forall v lo hi il ih x, number lo -> number hi -> (forall y, as_float v = Some y -> number y) ->
  (validate_float v lo hi il ih = Ok x <-> as_float v = Some x /\ within x lo hi il ih).
Proof. exact float_spec. Qed.
Print Assumptions C25_float_partial.
(** Finding: NaN passes every bound. *)
Theorem C25_nan_refuted : forall lo hi il ih, validate_float (VFloat NaN) lo hi il ih = Ok NaN /\ ~ within NaN lo hi il ih.
Proof. intros. split; [apply float_nan|]. intros [H _]. destruct il, lo; unfold xlt in H; cbn in H; tauto. Qed.
Print Assumptions C25_nan_refuted.
(** An integer, or a float rounded towards zero, is accepted exactly when the resulting
    integer is within the bounds; NaN, infinities and non-numbers raise. *)
Theorem C25_integer : forall v lo hi z, number lo -> number hi ->
  (validate_integer v lo hi = Ok z <-> read_as_int v z /\ xle lo (Fin (IZR z)) /\ xle (Fin (IZR z)) hi).
Proof. exact integer_ok. Qed.
Print Assumptions C25_integer.
(** Finding: the bounds are compared after rounding, so a negative number passes a lower bound of zero. *)
Theorem C25_rounds_first_refuted : ~ forall v lo hi z x, number lo -> number hi -> as_float v = Some x -> validate_integer v lo hi = Ok z -> xle lo x /\ xle x hi.
Proof.
  intros H. destruct (H (VFloat (Fin (- (1 / 2)))) (Fin 0) PInf 0%Z (Fin (- (1 / 2)))) as [A _];
    [discriminate|discriminate|reflexivity|exact integer_truncates|]. cbn in A. lra.
Qed.
Print Assumptions C25_rounds_first_refuted.
Example C25_example : validate_float (VFloat (Fin (1 / 2))) (Fin 0) (Fin 1) false true = Ok (Fin (1 / 2)) /\
  validate_float (VInt 0) (Fin 0) (Fin 1) false true <> Ok (Fin 0) /\ validate_integer (VInt 7) (Fin 0) PInf = Ok 7%Z.
Proof.
  split; [|split].
  - apply float_spec; [discriminate|discriminate|intros y [= <-]; discriminate|]. split; [reflexivity|]. unfold within, xlt, xle; lra.
  - intros H. apply float_spec in H; [|discriminate|discriminate|intros y [= <-]; discriminate]. destruct H as [_ [H _]]. unfold xlt, xle in H. lra.
  - apply integer_ok; [discriminate|discriminate|]. cbn. split; [reflexivity|]. split; [lra|exact I].
Qed.

(** C26.  The answer is the canonical (first) name of the first alias group naming the
    input, and the input is rejected exactly when no group names it. *)
Theorem C26_string : forall fold v items c, validate_string fold (Some v) (Some items) = Ok c <->
  exists i a, nth_error items i = Some a /\ same_name fold v a /\ canonical a = Some c /\
    forall j b, (j < i)%nat -> nth_error items j = Some b -> ~ same_name fold v b.
Proof. exact string_spec. Qed.
Print Assumptions C26_string.
Theorem C26_string_rejects : forall fold v items, validate_string fold (Some v) (Some items) = Err ValueError <->
  forall a, In a items -> ~ same_name fold v a.
Proof. exact string_rejects. Qed.
Print Assumptions C26_string_rejects.
(** When no two groups share a name, every alias gives its group's canonical name, and
    validating the answer again changes nothing. *)
Theorem C26_string_canonical : forall fold items i a v c, disjoint_groups fold items -> nth_error items i = Some a -> same_name fold v a -> canonical a = Some c ->
  validate_string fold (Some v) (Some items) = Ok c /\ validate_string fold (Some c) (Some items) = Ok c.
Proof. exact string_canonical. Qed.
Print Assumptions C26_string_canonical.
(** An array is accepted exactly when, padded by numpy's atleast_nd to the length of the
    pattern, it matches one of the patterns; the first such pattern decides. *)
Theorem C26_shape : forall shapes s r, Forall (fun shp => (length shp <= 3)%nat) shapes ->
  (validate_shape true s (Some shapes) = Ok r <->
   exists i shp, nth_error shapes i = Some shp /\ (length s <= length shp)%nat /\ r = atleast (length shp) s /\ matches shp r /\
     forall j shp', (j < i)%nat -> nth_error shapes j = Some shp' -> ~ ((length s <= length shp')%nat /\ matches shp' (atleast (length shp') s))).
Proof. exact shape_go_spec. Qed.
Print Assumptions C26_shape.
(** Padding never changes the number of entries. *)
Theorem C26_shape_size : forall k s, size (atleast k s) = size s.
Proof. exact atleast_size. Qed.
Print Assumptions C26_shape_size.
(** Integer indices are accepted exactly when there is at least one, all refer to cells
    of the mesh (negative ones from the end) and no cell is named twice; the mask is
    true exactly at the named cells. *)
Theorem C26_active_indices : forall l n m, validate_active (Ints l) n = Ok m <->
  l <> [] /\ Forall (fun z => (- Z.of_nat n <= z < Z.of_nat n)%Z) l /\ NoDup (map (cell_of n) l) /\
  length m = n /\ forall i, (i < n)%nat -> (nth i m false = true <-> exists z, In z l /\ cell_of n z = Z.of_nat i).
Proof. exact active_ints. Qed.
Print Assumptions C26_active_indices.
Theorem C26_active_mask : forall b n m, validate_active (Bools b) n = Ok m <-> length b = n /\ m = b.
Proof. exact active_bools. Qed.
Print Assumptions C26_active_mask.
(** A boolean answer only ever comes from a boolean mask or from integers. *)
Theorem C26_active_other : forall n m, validate_active OtherDtype n <> Ok m /\ validate_active HigherDim n <> Ok m.
Proof. intros. split; discriminate. Qed.
Print Assumptions C26_active_other.
Example C26_example :
  validate_string (fun s => s) (Some "sd"%string) (Some [One "GN"; Group ["steepest"; "sd"]]%string) = Ok "steepest"%string /\
  validate_shape true [3%nat] (Some [[None]; [None; Some 3%nat]]) = Ok [3%nat] /\
  validate_shape true [3%nat] (Some [[Some 2%nat]; [None; Some 3%nat]]) = Ok [1%nat; 3%nat] /\
  validate_active (Ints [2; -4]%Z) 4 = Ok [true; false; true; false] /\ validate_active (Ints [0; -4]%Z) 4 = Err ValueError.
Proof. repeat split. Qed.
