(** C84: data objects, synthetic data and the arrays they hold. *)
From Verif Require Import Py Vec Survey DataM Synth SpecSynth SynthFacts SynthFacts2 SynthFacts3 SynthFacts4 SynthFacts5 SynthFacts6.
From Coq Require Import Lia.
Local Open Scope R_scope.
Local Open Scope list_scope.

(** As long as every array is handed to one object only, and synthetic data are made with
    noise, each statement of a program of any length changes the objects as if they owned
    their numbers. *)
Theorem C84_values_partial : forall l nD ops o, all_unshared l nD start (ops ++ [o]) ->
  let s := run l nD start ops in views nD (run l nD start (ops ++ [o])) = by_value l nD (st_heap s) (views nD s) o.
Proof. exact values. Qed.
Print Assumptions C84_values_partial.
Example C84_values_case : all_unshared demo_srcs 2 start demo_ops.
Proof. exact demo_unshared. Qed.
(** With noise: the clean data are the predicted data, in an array of their own; each datum is
    the clean one plus a normal number times its standard deviation. *)
Theorem C84_noise : forall nD h p r f z h' o, (forall j, In j (refs r ++ refs f) -> (j < length h)%nat) -> NoDup (refs r ++ refs f) ->
  make_synthetic nD h p r f FTrue z false = Ok (h', o) -> exists r' f',
    value_of h r = Ok r' /\ value_of h f = Ok f' /\ o_clean o <> Some (o_dobs o) /\ option_map (shown h') (o_clean o) = Some (a_vals p) /\ shown h' (o_dobs o) = noisy (a_vals p) r' f' z.
Proof. exact synthetic_noise. Qed.
Print Assumptions C84_noise.
(** The uncertainty reported is the formula at the noisy datum. *)
Theorem C84_reported : forall nD h p r f z h' o r' f', (forall j, In j (refs r ++ refs f) -> (j < length h)%nat) -> NoDup (refs r ++ refs f) ->
  value_of h r = Ok r' -> value_of h f = Ok f' -> make_synthetic nD h p r f FTrue z false = Ok (h', o) ->
  exists s, std_of h' o = Ok s /\ length s = nD /\ forall i, (i < nD)%nat -> nth i s 0 = sigma (at_datum r' i) (at_datum f' i) (nth i (shown h' (o_dobs o)) (0, 0)).
Proof. exact reported. Qed.
Print Assumptions C84_reported.
(** It is the deviation of the noise only when the noise left the modulus unchanged, or there
    is no relative error. *)
Theorem C84_deviation_refuted : (forall rel fl d d', rel <> 0 -> (sigma rel fl d = sigma rel fl d' <-> cmod d = cmod d'))
  /\ exists h o, make_synthetic 2 [] demo_p (RNum 1) (RNum 0) FTrue (fun _ => 1) false = Ok (h, o) /\ exists s, std_of h o = Ok s /\ nth 1 s 0 = 4 /\ sigma 1 0 (2, 0) = 2.
Proof. exact (conj sigma_eq demo_reported). Qed.
Print Assumptions C84_deviation_refuted.

(** Without noise the data and the clean data are one array: after writing some data the
    clean data are the written ones. *)
Theorem C84_clean_refuted : forall l nD s p r f n z s1 key v s2, n <> FTrue ->
  exec l nD s (OSynth p r f n z false) = Ok s1 -> exec l nD s1 (OItem (length (st_objs s)) key v) = Ok s2 ->
  exists o, nth_error (st_objs s2) (length (st_objs s)) = Some o /\ option_map (shown (st_heap s2)) (o_clean o) = Some (shown (st_heap s2) (o_dobs o)).
Proof. exact no_noise_shared. Qed.
Print Assumptions C84_clean_refuted.
Example C84_clean_case : exists s, exec demo_srcs 2 start (OSynth demo_p (RNum 1) (RNum 0) FFalse (fun _ => 0) false) = Ok s
  /\ exists s2, exec demo_srcs 2 s (OItem 0 (1, 2)%nat [(7, 0)]) = Ok s2
  /\ option_map v_clean (nth_error (views 2 s) 0) = Some (Some [(1, 0); (2, 0)]) /\ option_map v_clean (nth_error (views 2 s2) 0) = Some (Some [(7, 0); (2, 0)]).
Proof. exact demo_shared. Qed.
(** A true value that is not the object True adds no noise. *)
Theorem C84_truthy_refuted : forall nD h p r f z h' o, make_synthetic nD h p r f FTruthy z false = Ok (h', o) -> shown h' (o_dobs o) = a_vals p.
Proof. exact truthy. Qed.
Print Assumptions C84_truthy_refuted.
Example C84_truthy_case : exists h o, make_synthetic 2 [] demo_p (RNum 1) (RNum 0) FTruthy (fun _ => 1) false = Ok (h, o).
Proof. exact demo_truthy. Qed.
(** Imaginary parts never get noise. *)
Theorem C84_imaginary_refuted : forall nD h p r f z h' o i, (forall j, In j (refs r ++ refs f) -> (j < length h)%nat) -> NoDup (refs r ++ refs f) ->
  make_synthetic nD h p r f FTrue z false = Ok (h', o) -> snd (nth i (shown h' (o_dobs o)) (0, 0)) = snd (nth i (a_vals p) (0, 0)).
Proof. exact imaginary. Qed.
Print Assumptions C84_imaginary_refuted.
Example C84_imaginary_case : exists h o, make_synthetic 1 [] (mkArr true [(1, 1)]) (RNum 1) (RNum 0) FTrue (fun _ => 1) false = Ok (h, o).
Proof. exact demo_complex. Qed.
(** Data predicted by the base class are real whatever the receivers return. *)
Theorem C84_complex_refuted : forall evals z, In z (a_vals (base_dpred evals)) -> snd z = 0.
Proof. exact base_real. Qed.
Print Assumptions C84_complex_refuted.
