(** C49, C56: bounds on mixtures and the self-consistent effective medium. *)
From Verif Require Import Py Vec EffMed SpecEffMed EffMedFacts EffMedFacts2.
From Coq Require Import Lra.
Local Open Scope R_scope.

(** C49: Wiener bounds are ordered and lie between the conductivities. *)
Theorem C49_wiener c phi : 0 < sig0 c -> 0 < sig1 c -> fraction phi ->
  low c <= fst (wiener_bounds c phi) /\ fst (wiener_bounds c phi) <= snd (wiener_bounds c phi) /\ snd (wiener_bounds c phi) <= high c.
Proof. exact (c49_wiener c phi). Qed.
Print Assumptions C49_wiener.
(** Both Hashin-Shtrikman bounds lie between them. *)
Theorem C49_inside c phi b : 0 < sig0 c -> 0 < sig1 c -> fraction phi ->
  b = fst (hashin_shtrikman_bounds c phi) \/ b = snd (hashin_shtrikman_bounds c phi) ->
  fst (wiener_bounds c phi) <= b <= snd (wiener_bounds c phi).
Proof. intros P0 P1 HF. pose proof (c49_hs c phi P0 P1 HF). intros [-> | ->]; lra. Qed.
Print Assumptions C49_inside.
(** But what is returned first, as lower bound, is never less than what is returned second,
    as upper bound, and is more for every proper mixture. *)
Theorem C49_order_refuted c phi : 0 < sig0 c -> 0 < sig1 c -> fraction phi ->
  snd (hashin_shtrikman_bounds c phi) <= fst (hashin_shtrikman_bounds c phi) /\
  (0 < phi < 1 -> sig0 c <> sig1 c -> snd (hashin_shtrikman_bounds c phi) < fst (hashin_shtrikman_bounds c phi)).
Proof. intros P0 P1 HF. split; [apply (c49_hs c phi P0 P1 HF)|exact (c49_swapped c phi P0 P1 HF)]. Qed.
Print Assumptions C49_order_refuted.
Example C49_ex : wiener_bounds twospheres (1 / 2) = (4 / 3, 3 / 2) /\ hashin_shtrikman_bounds twospheres (1 / 2) = (16 / 11, 10 / 7).
Proof.
  unfold wiener_bounds, hashin_shtrikman_bounds, twospheres. cbn. rewrite Rmin_left, Rmax_right by lra. split; f_equal; field.
Qed.

(** C56: every fraction has exactly one self-consistent conductivity, between those of the
    phases; the inverse recovers the fraction from it. *)
Theorem C56_exists c phi : sensible_emt c -> fraction phi ->
  exists s, exact c phi s /\ low c <= s <= high c /\ (forall t, exact c phi t -> t = s) /\ (sig0 c <> sig1 c -> sc_inverse c s = phi).
Proof.
  intros HC HF. destruct (c56_exists c HC phi HF) as (s & ES & B). exists s. split; [exact ES|]. split; [exact B|]. split; [intros t ET; exact (c56_unique c HC phi t s HF ET ES)|intros N; exact (c56_inverse c HC phi s HF N ES)].
Qed.
Print Assumptions C56_exists.
(** For spheres this is the equation of Bruggeman. *)
Theorem C56_bruggeman c phi s : sensible_emt c -> spheres c -> 0 < s ->
  (exact c phi s <-> (1 - phi) * ((sig0 c - s) / (sig0 c + 2 * s)) + phi * ((sig1 c - s) / (sig1 c + 2 * s)) = 0).
Proof. exact (c56_bruggeman c phi s). Qed.
Print Assumptions C56_bruggeman.
(** Every conductivity strictly between those of the phases is that of the fraction the
    inverse returns. *)
Theorem C56_inverse c s : sensible_emt c -> low c < s < high c -> 0 < sc_inverse c s < 1 /\ exact c (sc_inverse c s) s.
Proof. intros HC. exact (c56_inverse_exact c HC s). Qed.
Print Assumptions C56_inverse.
Example C56_shapes : sensible_emt shapes /\ low shapes < 3 / 2 < high shapes /\ sensible_emt twospheres /\ spheres twospheres.
Proof. unfold sensible_emt, shapes, low, high, twospheres, spheres. cbn. rewrite Rmin_left, Rmax_right by lra. repeat split; lra || lia. Qed.
(** The derivative, at an exact solution, is that of the solution as a function of the
    fraction. *)
Theorem C56_deriv c phi d F : sensible_emt c -> 0 < phi < 1 -> 0 < d -> (forall p, Rabs (p - phi) < d -> exact c p (F p)) ->
  derivable_pt_lim F phi (sc_deriv c (F phi) phi).
Proof. intros HC HP Hd HS. exact (c56_deriv c HC phi d F HP Hd HS). Qed.
Print Assumptions C56_deriv.
(** Whatever the object was used for before, a transform of fractions returns as many
    numbers, which lie between the current conductivities. *)
Theorem C56_range c l phi : sensible_emt c -> Forall good_op l -> Forall (sized (length phi)) l -> Forall fraction phi -> phi <> [] ->
  let st := em_run (em_new c) l in
  exists r, snd (sc_transform st phi) = Ok r /\ length r = length phi /\ Forall (fun x => low (em_c st) <= x <= high (em_c st)) r.
Proof.
  intros HC HG HZ HF HN. cbv zeta. destruct (c56_total c l phi (length phi) HC HG HZ HF eq_refl ltac:(destruct phi; [congruence|cbn; lia])) as (r & E & L). exists r. split; [exact E|]. split; [exact L|].
  exact (c56_range c l phi r HC HG HF HN E).
Qed.
Print Assumptions C56_range.
Example C56_range_ex : Forall good_op [EmT [0; 1 / 2]; EmSig0 3; EmStart (Some 1)] /\ Forall (sized 2) [EmT [0; 1 / 2]; EmSig0 3; EmStart (Some 1)].
Proof. repeat constructor; try discriminate; unfold fraction; cbn; lra. Qed.
(** Pure phases keep their conductivity. *)
Theorem C56_ends c l phi r i : sensible_emt c -> Forall good_op l -> Forall (sized (length phi)) l -> Forall fraction phi -> (i < length phi)%nat ->
  let st := em_run (em_new c) l in snd (sc_transform st phi) = Ok r ->
  (nth i phi 0 = 0 -> nth i r 0 = sig0 (em_c st)) /\ (nth i phi 0 = 1 -> nth i r 0 = sig1 (em_c st)).
Proof. exact (c56_pure c l phi r i). Qed.
Print Assumptions C56_ends.
(** A transform started at the exact conductivity returns it. *)
Theorem C56_fixed c phi s : sensible_emt c -> 0 < rel_tol c -> fraction phi -> exact c phi s -> snd (sc_transform (em_run (em_new c) [EmStart (Some s)]) [phi]) = Ok [s].
Proof. exact (c56_fixed c phi s). Qed.
Print Assumptions C56_fixed.
(** For spheres, given enough iterations, the result of a new map differs from the exact
    conductivities by at most the tolerance times the difference of the conductivities. *)
Theorem C56_spheres c phi : sensible_emt c -> spheres c -> 0 < rel_tol c -> Forall fraction phi -> phi <> [] ->
  exists K, forall k, (K <= k)%nat -> exists r, snd (sc_transform (em_new (mkEmt (sig0 c) (sig1 c) (alpha0 c) (alpha1 c) (rel_tol c) k)) phi) = Ok r /\ length r = length phi /\
    forall i x, (i < length phi)%nat -> exact c (nth i phi 0) x -> Rabs (nth i r 0 - x) <= rel_tol c * (high c - low c).
Proof. exact (c56_spheres c phi). Qed.
Print Assumptions C56_spheres.
(** But the accuracy is that for the conductivities of the first transform ... *)
Theorem C56_tolerance_refuted : exists c l phi r x, sensible_emt c /\ spheres c /\ Forall good_op l /\ fraction phi /\
  let st := em_run (em_new c) l in
  snd (sc_transform st [phi]) = Ok r /\ exact (em_c st) phi x /\ rel_tol (em_c st) * (high (em_c st) - low (em_c st)) < Rabs (nth 0 r 0 - x).
Proof. exact c56_tolerance. Qed.
Print Assumptions C56_tolerance_refuted.
(** ... the result depends on the fractions of earlier transforms ... *)
Theorem C56_history_refuted : exists c phi phi' r r', sensible_emt c /\ Forall good_op [EmT phi'] /\ Forall fraction phi /\
  snd (sc_transform (em_new c) phi) = Ok r /\ snd (sc_transform (em_run (em_new c) [EmT phi']) phi) = Ok r' /\ r <> r'.
Proof. exact c56_history. Qed.
Print Assumptions C56_history_refuted.
(** ... one fraction outside [0, 1] makes the result a single number ... *)
Theorem C56_outside_refuted c phi p : (0 < max_iter c)%nat -> In p phi -> ~ fraction p -> exists r, snd (sc_transform (em_new c) phi) = Ok r /\ length r = 1%nat.
Proof.
  intros HK HI HN. refine (c56_outside (em_new c) phi _ HK eq_refl). apply not_true_iff_false. intros H. rewrite forallb_forall in H. specialize (H p HI). unfold in_unit, fraction in *. destruct (Rle_dec 0 p); [|discriminate]. destruct (Rle_dec p 1); [|discriminate]. lra.
Qed.
Print Assumptions C56_outside_refuted.
(** ... and without iterations it fails. *)
Theorem C56_no_iterations_refuted c phi : max_iter c = 0%nat -> snd (sc_transform (em_new c) phi) = Err GenericException.
Proof. exact (c56_no_iterations c phi). Qed.
Print Assumptions C56_no_iterations_refuted.
