(** C42: multiplier constants and length scales. *)
From Verif Require Import Py Vec Wls SpecWls WlsFacts.
Local Open Scope R_scope.

(** C42: a length scale read back is the absolute value of the one set, whatever the base
    length, and the constant is the square of their product. *)
Theorem C42_round_trip s a x : 0 < base s ->
  exists s', set_length_scale s a (VNum x) = Ok s' /\ length_scale s' a = Rabs x /\ alpha s' (A1 a) = (x * base s) ^ 2.
Proof. exact (c42_round_trip s a x). Qed.
Print Assumptions C42_round_trip.
Example C42_round_trip_ex : 0 < base (mkWls 5 2 (fun _ => 0)). Proof. cbn. lra. Qed.

(** C42: after construction and any history of assignments, refused ones included, every
    constant is the one asked by the last accepted assignment to it, none is negative, and
    the length scale is the root of the constant over the base length. *)
Theorem C42_history b d vs vx vy vz vxx vyy vzz s l : 0 < b -> wls_new b d vs vx vy vz vxx vyy vzz = Ok s ->
  exists al, constants b (alpha s) l al /\ (forall al', constants b (alpha s) l al' -> forall a, al' a = al a) /\
    (forall a, alpha (wrun s l) a = al a) /\ (forall a, 0 <= al a) /\ (forall a, (length_scale (wrun s l) a * b) ^ 2 = al (A1 a)) /\ dim (wrun s l) = d.
Proof.
  intros HB E. destruct (new_inv _ _ _ _ _ _ _ _ _ _ HB E) as (HI & EB & ED). destruct (c42_exists l s HI) as [al C].
  destruct (c42_history l s al HI C) as (K1 & K2 & K3 & K4). rewrite EB in *. exists al. split; [assumption|]. split.
  - intros al' C' a. rewrite <- EB in C'. destruct (c42_history l s al' HI C') as (K1' & _). rewrite <- K1', K1. reflexivity.
  - split; [assumption|]. split; [intros a; rewrite <- K1; apply K4|]. split; [|congruence].
    intros a. rewrite <- K1, <- K2. apply len_sq. assumption.
Qed.
Print Assumptions C42_history.

(** C42: an assignment is refused exactly when it asks for nothing sensible: a negative
    constant, or not a number. *)
Theorem C42_refused b d vs vx vy vz vxx vyy vzz s l a x : 0 < b -> wls_new b d vs vx vy vz vxx vyy vzz = Ok s ->
  x < 0 -> set_alpha (wrun s l) a (VNum x) = Err ValueError /\ set_alpha (wrun s l) a VOther = Err TypeError /\
  forall c, set_length_scale (wrun s l) c VOther = Err TypeError.
Proof.
  intros _ _ Hx. split; [|split; [destruct a; reflexivity|reflexivity]]. unfold set_alpha.
  destruct a; (destruct (Rlt_dec x 0); [reflexivity|contradiction]).
Qed.
Print Assumptions C42_refused.

(** C42: by default alpha_s is 1, the length scales are 1 and second order is off; giving a
    constant and a length scale for the same direction is refused. *)
Theorem C42_defaults b d : 0 < b ->
  exists s, wls_new b d (VNum 1) (VNone, VNone) (VNone, VNone) (VNone, VNone) (VNum 0) (VNum 0) (VNum 0) = Ok s /\
  alpha s As = 1 /\ forall a, length_scale s a = 1 /\ alpha s (A1 a) = b ^ 2 /\ alpha s (A2 a) = 0.
Proof. exact (c42_defaults b d). Qed.
Print Assumptions C42_defaults.
Theorem C42_not_both b d vs vx vy vz vxx vyy vzz s : wls_new b d vs vx vy vz vxx vyy vzz = Ok s ->
  (fst vx = VNone \/ snd vx = VNone) /\ (fst vy = VNone \/ snd vy = VNone) /\ (fst vz = VNone \/ snd vz = VNone).
Proof. exact (c42_both b d vs vx vy vz vxx vyy vzz s). Qed.
Print Assumptions C42_not_both.

(** C42: the multipliers are the constants of the terms, and the value is the sum of the
    terms times their constants; terms whose constant is zero need not be computable. *)
Theorem C42_multipliers s : Forall2 (fun c a => c = alpha s a) (multipliers s) (terms (dim s)) /\ forall a, In a (terms (dim s)) <-> in_dim (dim s) a.
Proof. exact (conj (c42_multipliers s) (c42_terms (dim s))). Qed.
Print Assumptions C42_multipliers.
Theorem C42_value s phi m v : (forall a, in_dim (dim s) a -> alpha s a <> 0 -> phi a m = Ok (v a)) ->
  wls_call s phi m = Ok (total (dim s) (alpha s) v).
Proof. exact (c42_skip s phi m v). Qed.
Print Assumptions C42_value.
Example C42_value_ex : wls_call (mkWls 1 1 (fun a => match a with As => 2 | A1 _ => 3 | A2 _ => 0 end))
  (fun a _ => match a with As => Ok 5 | A1 _ => Ok 7 | A2 _ => Err ValueError end) [] = Ok 31.
Proof.
  rewrite (c42_skip _ _ _ (fun a => match a with As => 5 | A1 _ => 7 | A2 _ => 0 end)).
  - unfold total. cbn. f_equal. lra.
  - intros [|a|a] _ H; cbn in *; [reflexivity|reflexivity|lra].
Qed.
