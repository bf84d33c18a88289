(** Proofs about coordinate conversions. *)
From Coq Require Import ZArith.
From Verif Require Import Py Vec VecDeriv Frechet Coords SpecCoords.
Local Open Scope R_scope.

Lemma row_eta (r : row) : (c0 r, c1 r, c2 r) = r.
Proof. destruct r as [[a b] c]; reflexivity. Qed.

(** ** stack / unstack *)
Lemma stack_length rows : length (stack rows) = (length rows + (length rows + length rows))%nat.
Proof. unfold stack. rewrite !app_length, !map_length. reflexivity. Qed.
Lemma unstack_len n m : length m = (n + (n + n))%nat ->
  unstack m = Ok (map (fun i => (nth i m 0, nth (n + i) m 0, nth (n + n + i) m 0)) (seq 0 n)).
Proof.
  intros L. unfold unstack. rewrite L. replace (n + (n + n))%nat with (n * 3)%nat by lia.
  rewrite Nat.mod_mul, Nat.div_mul by lia. reflexivity.
Qed.
Lemma unstack_stack rows : unstack (stack rows) = Ok rows.
Proof.
  rewrite (unstack_len (length rows)) by apply stack_length. f_equal.
  unfold stack.
  apply (nth_ext _ _ (0,0,0) (0,0,0)); [rewrite map_length, seq_length; reflexivity|].
  intros i Hi. rewrite map_length, seq_length in Hi.
  set (g := fun i => _).
  rewrite (nth_indep _ (0,0,0) (g O)) by (rewrite map_length, seq_length; assumption).
  rewrite (map_nth g), seq_nth by assumption. unfold g. cbn [plus].
  assert (E : forall (f : row -> R) k, (k < length rows)%nat -> nth k (map f rows) 0 = f (nth k rows (0,0,0))).
  { intros f k Hk. rewrite (nth_indep _ 0 (f (0,0,0))) by (rewrite map_length; assumption). apply map_nth. }
  rewrite app_nth1 by (rewrite map_length; assumption).
  rewrite (app_nth2 (map c0 rows)) by (rewrite map_length; lia). rewrite map_length.
  replace (length rows + i - length rows)%nat with i by lia.
  rewrite app_nth1 by (rewrite map_length; assumption).
  rewrite (app_nth2 (map c0 rows)) by (rewrite map_length; lia). rewrite map_length.
  rewrite app_nth2 by (rewrite map_length; lia). rewrite map_length.
  replace (length rows + length rows + i - length rows - length rows)%nat with i by lia.
  rewrite !E by assumption. apply row_eta.
Qed.
Lemma nth_mapseq {B} (g : nat -> B) n i d : (i < n)%nat -> nth i (map g (seq 0 n)) d = g i.
Proof.
  intros H. rewrite (nth_indep _ d (g O)) by (rewrite map_length, seq_length; assumption).
  rewrite (map_nth g), seq_nth by assumption. reflexivity.
Qed.
Lemma stack_unstack m rows : unstack m = Ok rows -> stack rows = m.
Proof.
  intros H. unfold unstack in H. destruct (Nat.eqb_spec (length m mod 3) 0) as [E|]; [|discriminate].
  set (n := (length m / 3)%nat) in *.
  assert (L : length m = (n + (n + n))%nat).
  { pose proof (Nat.div_mod (length m) 3 ltac:(lia)). fold n in H0. lia. }
  injection H as <-. unfold stack. rewrite !map_map. cbn [c0 c1 c2 fst snd].
  apply vec_ext; [rewrite !app_length, !map_length, seq_length; lia|].
  intros i Hi. rewrite !app_length, !map_length, seq_length in Hi.
  destruct (Nat.lt_ge_cases i n).
  - rewrite app_nth1 by (rewrite map_length, seq_length; assumption). apply (nth_mapseq (fun x => nth x m 0)). assumption.
  - rewrite app_nth2 by (rewrite map_length, seq_length; assumption). rewrite map_length, seq_length.
    destruct (Nat.lt_ge_cases (i - n) n).
    + rewrite app_nth1 by (rewrite map_length, seq_length; assumption). rewrite (nth_mapseq (fun x => nth (n + x) m 0)) by assumption.
      f_equal. lia.
    + rewrite app_nth2 by (rewrite map_length, seq_length; assumption). rewrite map_length, seq_length.
      rewrite (nth_mapseq (fun x => nth (n + n + x) m 0)) by lia. f_equal. lia.
Qed.
Lemma unstack_bad m : (length m mod 3 <> 0)%nat -> unstack m = Err ValueError.
Proof. intros H. unfold unstack. destruct (Nat.eqb_spec (length m mod 3) 0); [contradiction|reflexivity]. Qed.

(** ** atan2 *)
Lemma PIp : 0 < PI. Proof. exact PI_RGT_0. Qed.
Lemma sqrt_1u x y : x <> 0 -> sqrt (1 + (y / x)²) = sqrt (x ^ 2 + y ^ 2) / Rabs x.
Proof.
  intros Hx. assert (0 < Rabs x) by (apply Rabs_pos_lt; assumption).
  apply Rsqr_inj; [apply sqrt_pos| |].
  - apply Rmult_le_pos; [apply sqrt_pos|left; apply Rinv_0_lt_compat; assumption].
  - assert (P : 0 <= 1 + (y / x)²) by (pose proof (Rle_0_sqr (y / x)); lra).
    rewrite Rsqr_sqrt by exact P. unfold Rdiv at 2. rewrite Rsqr_mult, Rsqr_sqrt by nra.
    rewrite Rsqr_inv'. rewrite <- Rsqr_abs. unfold Rsqr. field. assumption.
Qed.
Lemma atan2_bound y x : - PI < atan2 y x <= PI.
Proof.
  unfold atan2. pose proof PIp. pose proof (atan_bound (y / x)).
  destruct (Rlt_dec 0 x); [lra|]. destruct (Rlt_dec x 0).
  - destruct (Rle_dec 0 y).
    + assert (atan (y / x) <= 0).
      { destruct (Rle_lt_or_eq_dec 0 y r0) as [Hy| <-].
        - left. rewrite <- atan_0. apply atan_increasing. unfold Rdiv. pose proof (Rinv_lt_0_compat x r). nra.
        - unfold Rdiv. rewrite Rmult_0_l, atan_0. lra. }
      lra.
    + assert (0 < atan (y / x)).
      { rewrite <- atan_0. apply atan_increasing. unfold Rdiv. pose proof (Rinv_lt_0_compat x r). nra. }
      lra.
  - destruct (Rlt_dec 0 y); [lra|]. destruct (Rlt_dec y 0); lra.
Qed.
Lemma atan2_polar y x : sqrt (x ^ 2 + y ^ 2) * cos (atan2 y x) = x /\ sqrt (x ^ 2 + y ^ 2) * sin (atan2 y x) = y.
Proof.
  unfold atan2.
  assert (S : x <> 0 -> sqrt (x ^ 2 + y ^ 2) <> 0).
  { intros Hx E. apply sqrt_eq_0 in E; nra. }
  destruct (Rlt_dec 0 x).
  - rewrite cos_atan, sin_atan, sqrt_1u by lra. rewrite Rabs_pos_eq by lra.
    specialize (S ltac:(lra)). split; field; split; lra.
  - destruct (Rlt_dec x 0).
    + specialize (S ltac:(lra)).
      destruct (Rle_dec 0 y).
      * rewrite neg_cos, neg_sin, cos_atan, sin_atan, sqrt_1u by lra. rewrite Rabs_left by lra. split; field; split; lra.
      * replace (atan (y / x) - PI) with (- (- atan (y / x) + PI)) by ring. rewrite cos_neg, sin_neg, neg_cos, neg_sin, cos_neg, sin_neg.
        rewrite cos_atan, sin_atan, sqrt_1u by lra. rewrite Rabs_left by lra. split; field; split; lra.
    + assert (x = 0) by lra. subst x. replace (0 ^ 2 + y ^ 2) with (Rsqr y) by (unfold Rsqr; ring). rewrite sqrt_Rsqr_abs.
      destruct (Rlt_dec 0 y).
      * rewrite cos_PI2, sin_PI2, Rabs_pos_eq by lra. split; ring.
      * destruct (Rlt_dec y 0).
        -- replace (- PI / 2) with (- (PI / 2)) by field. rewrite cos_neg, sin_neg, cos_PI2, sin_PI2, Rabs_left by lra. split; ring.
        -- assert (y = 0) by lra. subst y. rewrite Rabs_R0. split; ring.
Qed.
Lemma angle_unique a b : cos a = cos b -> sin a = sin b -> exists k : Z, a - b = 2 * PI * IZR k.
Proof.
  intros Hc Hs. assert (C : cos (a - b) = 1).
  { rewrite cos_minus, Hc, Hs. pose proof (sin2_cos2 b). unfold Rsqr in H. lra. }
  assert (S : sin ((a - b) / 2) = 0).
  { replace (a - b) with (2 * ((a - b) / 2)) in C by field. rewrite cos_2a_sin in C. nra. }
  destruct (sin_eq_0_0 _ S) as [k Hk]. exists k. lra.
Qed.
Lemma angle_unique_range a b : cos a = cos b -> sin a = sin b -> - PI < a <= PI -> - PI < b <= PI -> a = b.
Proof.
  intros Hc Hs Ha Hb. destruct (angle_unique a b Hc Hs) as [k Hk]. pose proof PIp.
  assert (k = 0)%Z.
  { destruct (Z.eq_dec k 0) as [|N]; [assumption|exfalso].
    assert (IZR k <= -1 \/ 1 <= IZR k) as [HH|HH].
    { destruct (Z_lt_ge_dec k 0); [left; apply (IZR_le k (-1)); lia|right; apply (IZR_le 1 k); lia]. }
    all: nra. }
  subst k. lra.
Qed.
Lemma atan2_scaled r p : 0 < r -> - PI < p <= PI -> atan2 (r * sin p) (r * cos p) = p.
Proof.
  intros Hr Hp. destruct (atan2_polar (r * sin p) (r * cos p)) as [Hc Hs].
  replace ((r * cos p) ^ 2 + (r * sin p) ^ 2) with (Rsqr r) in Hc, Hs.
  2:{ pose proof (sin2_cos2 p). unfold Rsqr in *. nra. }
  rewrite sqrt_Rsqr in Hc, Hs by lra.
  apply angle_unique_range; [| |apply atan2_bound|assumption]; nra.
Qed.

(** ** Spherical *)
Lemma c2s_correct v : spherical_coordinates v (c2s_row v).
Proof.
  destruct v as [[x y] z]. unfold c2s_row. set (a := sqrt (x ^ 2 + y ^ 2 + z ^ 2)).
  assert (Ha : 0 <= a) by apply sqrt_pos.
  assert (Ha2 : a * a = x ^ 2 + y ^ 2 + z ^ 2) by (apply sqrt_sqrt; nra).
  pose proof PIp. destruct (Rlt_dec 0 a) as [Hp|Hn].
  - assert (Hz : -1 <= z / a <= 1).
    { split; [apply (Rmult_le_reg_r a); [assumption|]|apply (Rmult_le_reg_r a); [assumption|]];
        unfold Rdiv; rewrite Rmult_assoc, Rinv_l by lra; nra. }
    split.
    + split; [exact Ha|]. split; [apply asin_bound|apply atan2_bound].
    + unfold vector_of. cbn [c0 c1 c2 fst snd]. rewrite sin_asin, cos_asin by assumption.
      assert (E : a * sqrt (1 - (z / a)²) = sqrt (x ^ 2 + y ^ 2)).
      { rewrite <- (sqrt_Rsqr a) at 1 by lra. rewrite <- sqrt_mult.
        - f_equal. unfold Rsqr. field_simplify; [|lra]. nra.
        - apply Rle_0_sqr.
        - unfold Rsqr. nra. }
      rewrite E. destruct (atan2_polar y x) as [-> ->]. f_equal. field. lra.
  - assert (x = 0 /\ y = 0 /\ z = 0) as (-> & -> & ->) by (repeat split; nra).
    split; [split; [exact Ha|]; cbn [c0 c1 c2 fst snd]; lra|].
    unfold vector_of. cbn [c0 c1 c2 fst snd]. assert (a = 0) as -> by lra. repeat (f_equal; try ring).
Qed.
Lemma s2c_vector r : s2c_row r = vector_of (c0 r + 1e-8) (c1 r) (c2 r).
Proof. destruct r as [[a t] p]. reflexivity. Qed.
Lemma length3_vector a t p : length3 (vector_of a t p) = Rabs a.
Proof.
  unfold length3, vector_of. cbn [c0 c1 c2 fst snd].
  replace ((a * cos t * cos p) ^ 2 + (a * cos t * sin p) ^ 2 + (a * sin t) ^ 2) with (Rsqr a); [apply sqrt_Rsqr_abs|].
  pose proof (sin2_cos2 t) as H1. pose proof (sin2_cos2 p) as H2. unfold Rsqr in *.
  replace ((a * cos t * cos p) ^ 2 + (a * cos t * sin p) ^ 2 + (a * sin t) ^ 2)
    with (a * a * (cos t * cos t * (sin p * sin p + cos p * cos p) + sin t * sin t)) by ring.
  rewrite H2. replace (cos t * cos t * 1 + sin t * sin t) with (sin t * sin t + cos t * cos t) by ring. rewrite H1. ring.
Qed.
Lemma distance3_vector a b t p : distance3 (vector_of a t p) (vector_of b t p) = Rabs (a - b).
Proof.
  rewrite <- (length3_vector (a - b) t p). unfold distance3, length3, vector_of. cbn [c0 c1 c2 fst snd]. f_equal. ring.
Qed.
Lemma c2s_of_vector a t p : 0 < a -> - (PI / 2) < t < PI / 2 -> - PI < p <= PI -> c2s_row (vector_of a t p) = (a, t, p).
Proof.
  intros Ha Ht Hp. unfold c2s_row, vector_of.
  change (sqrt ((a * cos t * cos p) ^ 2 + (a * cos t * sin p) ^ 2 + (a * sin t) ^ 2)) with (length3 (vector_of a t p)).
  rewrite length3_vector, Rabs_pos_eq by lra. destruct (Rlt_dec 0 a); [|lra].
  assert (0 < cos t) by (apply cos_gt_0; lra).
  f_equal; [f_equal|].
  - replace (a * sin t / a) with (sin t) by (field; lra). apply asin_sin. lra.
  - apply atan2_scaled; [nra|assumption].
Qed.

Lemma c38_spherical m : exists rows, unstack (cartesian2spherical m) = Ok rows /\ Forall2 spherical_coordinates m rows.
Proof.
  exists (map c2s_row m). split; [apply unstack_stack|].
  induction m as [|v m IH]; cbn; constructor; [apply c2s_correct|assumption].
Qed.
(** Round trip *)
Lemma c38_round_trip m : exists sph xyz, unstack (cartesian2spherical m) = Ok sph /\ unstack (spherical2cartesian sph) = Ok xyz /\
  Forall2 (fun v w => distance3 v w = 1e-8 /\ length3 w = length3 v + 1e-8 /\
             (0 < length3 v -> exists s, 0 < s /\ w = (s * c0 v, s * c1 v, s * c2 v))) m xyz.
Proof.
  exists (map c2s_row m), (map s2c_row (map c2s_row m)). split; [apply unstack_stack|]. split; [apply unstack_stack|].
  induction m as [|v m IH]; cbn [map]; constructor; [|assumption].
  destruct (c2s_correct v) as [[Ha _] E]. rewrite s2c_vector. set (q := c2s_row v) in *. clearbody q. subst v.
  rewrite distance3_vector, !length3_vector.
  rewrite (Rabs_pos_eq (c0 q)) by assumption. rewrite (Rabs_pos_eq (c0 q + 1e-8)) by lra.
  rewrite Rabs_minus_sym. replace (c0 q + 1e-8 - c0 q) with 1e-8 by ring. rewrite (Rabs_pos_eq 1e-8) by lra.
  split; [reflexivity|]. split; [reflexivity|]. intros Hp. exists ((c0 q + 1e-8) / c0 q). split.
  - apply Rdiv_lt_0_compat; lra.
  - unfold vector_of. cbn [c0 c1 c2 fst snd]. f_equal; [f_equal|]; field; lra.
Qed.
Lemma c38_other_way m : Forall (fun r => 0 <= c0 r /\ - (PI / 2) < c1 r < PI / 2 /\ - PI < c2 r <= PI) m ->
  exists xyz, unstack (spherical2cartesian m) = Ok xyz /\ unstack (cartesian2spherical xyz) = Ok (map (fun r => (c0 r + 1e-8, c1 r, c2 r)) m).
Proof.
  intros H. exists (map s2c_row m). split; [apply unstack_stack|]. unfold cartesian2spherical. rewrite unstack_stack. f_equal.
  rewrite map_map. apply map_ext_in. intros r Hr. rewrite Forall_forall in H. destruct (H r Hr) as (Ha & Ht & Hp).
  rewrite s2c_vector. apply c2s_of_vector; [lra|assumption|assumption].
Qed.
Lemma c38_refuted : ~ forall m sph xyz, unstack (cartesian2spherical m) = Ok sph -> unstack (spherical2cartesian sph) = Ok xyz -> xyz = m.
Proof.
  intros H. destruct (c38_round_trip [(1, 0, 0)]) as (sph & xyz & E1 & E2 & F).
  specialize (H _ _ _ E1 E2). subst xyz. inversion F as [|? ? ? ? [D _]]; subst. unfold distance3 in D. cbn [c0 c1 c2 fst snd] in D.
  replace ((1 - 1) ^ 2 + (0 - 0) ^ 2 + (0 - 0) ^ 2) with 0 in D by ring. rewrite sqrt_0 in D. lra.
Qed.
Lemma c38_direct m out : c2s_call (D2 m) = Ok out -> s2c_call out = Err IndexError.
Proof. intros H. injection H as <-. reflexivity. Qed.

(** ** pymod and angles *)
Lemma pymod_range x m : 0 < m -> 0 <= pymod x m < m.
Proof.
  intros Hm. unfold pymod. destruct (base_Int_part (x / m)) as [H1 H2].
  assert (E : x / m * m = x) by (field; lra). split; nra.
Qed.
Lemma pymod_turns x m : exists k : Z, x - pymod x m = m * IZR k.
Proof. exists (Int_part (x / m)). unfold pymod. ring. Qed.
Lemma sin_turn x k : sin (x + 2 * PI * IZR k) = sin x.
Proof.
  destruct (Z_le_gt_dec 0 k).
  - rewrite <- (Z2Nat.id k) by assumption. rewrite <- INR_IZR_INZ. replace (2 * PI * INR (Z.to_nat k)) with (2 * INR (Z.to_nat k) * PI) by ring. apply sin_period.
  - rewrite <- (sin_period (x + 2 * PI * IZR k) (Z.to_nat (- k))). f_equal. rewrite INR_IZR_INZ, Z2Nat.id by lia. rewrite opp_IZR. ring.
Qed.
Lemma cos_turn x k : cos (x + 2 * PI * IZR k) = cos x.
Proof.
  destruct (Z_le_gt_dec 0 k).
  - rewrite <- (Z2Nat.id k) by assumption. rewrite <- INR_IZR_INZ. replace (2 * PI * INR (Z.to_nat k)) with (2 * INR (Z.to_nat k) * PI) by ring. apply cos_period.
  - rewrite <- (cos_period (x + 2 * PI * IZR k) (Z.to_nat (- k))). f_equal. rewrite INR_IZR_INZ, Z2Nat.id by lia. rewrite opp_IZR. ring.
Qed.
Lemma c38_coterminal theta : - PI <= coterminal theta < PI /\ coterminal_angles theta (coterminal theta).
Proof.
  pose proof PIp. unfold coterminal. pose proof (pymod_range (theta + PI) (2 * PI) ltac:(lra)). split; [lra|].
  destruct (pymod_turns (theta + PI) (2 * PI)) as [k Hk]. exists k. lra.
Qed.
Lemma c38_coterminal_unique theta g : - PI <= g < PI -> coterminal_angles theta g -> coterminal theta = g.
Proof.
  intros Hg [k Hk]. destruct (c38_coterminal theta) as [Hr [j Hj]]. pose proof PIp.
  assert (E : coterminal theta - g = 2 * PI * IZR (k - j)) by (rewrite minus_IZR; lra).
  assert (k - j = 0)%Z.
  { destruct (Z.eq_dec (k - j) 0) as [|N]; [assumption|exfalso].
    assert (IZR (k - j) <= -1 \/ 1 <= IZR (k - j)) as [HH|HH].
    { destruct (Z_lt_ge_dec (k - j) 0); [left; apply (IZR_le (k - j) (-1)); lia|right; apply (IZR_le 1 (k - j)); lia]. }
    all: nra. }
  rewrite H0 in E. lra.
Qed.
Lemma dip_row_direction dip azm : dip_row dip azm = dip_direction dip azm.
Proof.
  unfold dip_row, dip_direction, deg2rad. rewrite cos_neg, sin_neg.
  destruct (pymod_turns (450 - azm) 360) as [k Hk].
  replace (pymod (450 - azm) 360 * PI / 180) with (PI / 2 - azm * PI / 180 + 2 * PI * IZR (1 - k)).
  2:{ rewrite minus_IZR. replace (pymod (450 - azm) 360) with (450 - azm - 360 * IZR k) by lra. field. }
  rewrite cos_turn, sin_turn.
  replace (cos (PI / 2 - azm * PI / 180)) with (sin (azm * PI / 180)) by (rewrite cos_shift; reflexivity).
  replace (sin (PI / 2 - azm * PI / 180)) with (cos (azm * PI / 180)) by (rewrite sin_shift; reflexivity).
  reflexivity.
Qed.
Lemma dip_direction_unit dip azm : is_unit (dip_direction dip azm).
Proof.
  unfold is_unit, dip_direction. cbn [c0 c1 c2 fst snd].
  set (d := dip * PI / 180). set (z := azm * PI / 180). pose proof (sin2_cos2 d) as H1. pose proof (sin2_cos2 z) as H2. unfold Rsqr in *.
  replace ((cos d * sin z) ^ 2 + (cos d * cos z) ^ 2 + (- sin d) ^ 2)
    with (cos d * cos d * (sin z * sin z + cos z * cos z) + sin d * sin d) by ring.
  rewrite H2. lra.
Qed.
Lemma c38_dip dip azm rows : dip_azimuth2cartesian dip azm = Ok rows ->
  length rows = length azm /\ Forall is_unit rows /\
  forall i, (i < length azm)%nat -> nth i rows (0, 0, 0) = dip_direction (if Nat.eqb (length dip) 1 then nth 0 dip 0 else nth i dip 0) (nth i azm 0).
Proof.
  intros H. unfold dip_azimuth2cartesian in H.
  assert (U : forall {A} (f : A -> row) l, (forall x, is_unit (f x)) -> Forall is_unit (map f l)).
  { intros A f l Hf. apply Forall_map, Forall_forall. intros; apply Hf. }
  destruct (Nat.eqb_spec (length dip) (length azm)) as [E|NE].
  - injection H as <-. split; [rewrite map_length, combine_length; lia|]. split.
    + apply U. intros p. rewrite dip_row_direction. apply dip_direction_unit.
    + intros i Hi. rewrite (nth_indep _ _ (dip_row (fst (0, 0)) (snd (0, 0)))) by (rewrite map_length, combine_length; lia).
      rewrite (map_nth (fun p => dip_row (fst p) (snd p))), combine_nth by assumption. cbn [fst snd].
      rewrite dip_row_direction. destruct (Nat.eqb_spec (length dip) 1) as [E1|]; [|reflexivity]. replace i with O by lia. reflexivity.
  - destruct dip as [|d [|]]; try discriminate. injection H as <-. split; [apply map_length|]. split.
    + apply U. intros p. rewrite dip_row_direction. apply dip_direction_unit.
    + intros i Hi. cbn [length Nat.eqb nth]. rewrite (nth_indep _ _ (dip_row d 0)) by (rewrite map_length; lia).
      rewrite map_nth. apply dip_row_direction.
Qed.
Lemma c38_dip_ok dip azm : (exists rows, dip_azimuth2cartesian dip azm = Ok rows) <-> length dip = length azm \/ length dip = 1%nat.
Proof.
  unfold dip_azimuth2cartesian. destruct (Nat.eqb_spec (length dip) (length azm)) as [E|NE].
  - split; [left; assumption|intros; eexists; reflexivity].
  - destruct dip as [|d [|]]; cbn [length] in *; split; intros H; try (destruct H; discriminate); try (right; reflexivity); try (eexists; reflexivity); exfalso; destruct H; lia.
Qed.

(** ** Planes *)
Lemma norm3_zero r : norm3 r = 0 <-> r = (0, 0, 0).
Proof.
  destruct r as [[x y] z]. unfold norm3. cbn [c0 c1 c2 fst snd]. split.
  - intros H. apply sqrt_eq_0 in H; [|nra]. assert (x = 0) by nra. assert (y = 0) by nra. assert (z = 0) by nra. congruence.
  - intros [= -> -> ->]. replace (0 ^ 2 + 0 ^ 2 + 0 ^ 2) with 0 by ring. apply sqrt_0.
Qed.
Lemma cross_zero_dep u v : cross u v = (0, 0, 0) -> exists s t, (s <> 0 \/ t <> 0) /\
   s * c0 u + t * c0 v = 0 /\ s * c1 u + t * c1 v = 0 /\ s * c2 u + t * c2 v = 0.
Proof.
  destruct u as [[a b] c], v as [[x y] z]. unfold cross. cbn [c0 c1 c2 fst snd]. intros [= H1 H2 H3].
  destruct (Req_dec a 0); [destruct (Req_dec b 0); [destruct (Req_dec c 0)|]|].
  - subst. exists 1, 0. repeat split; try ring. left; lra.
  - subst. exists z, (- c). split; [right; lra|]. repeat split; lra.
  - exists y, (- b). split; [right; lra|]. repeat split; lra.
  - exists x, (- a). split; [right; lra|]. repeat split; lra.
Qed.
Lemma c38_plane p1 p2 p3 n d : define_plane p1 p2 p3 = Some (n, d) ->
  on_plane n d p1 /\ on_plane n d p2 /\ on_plane n d p3 /\ (n = (0, 0, 0) <-> collinear p1 p2 p3).
Proof.
  unfold define_plane. destruct (Req_EM_T (norm3 (sub3 p2 p1)) 0) as [|N1]; [discriminate|].
  destruct (Req_EM_T (norm3 (sub3 p3 p1)) 0) as [|N2]; [discriminate|]. intros [= <- <-].
  set (a := norm3 (sub3 p2 p1)) in *. set (b := norm3 (sub3 p3 p1)) in *. clearbody a b.
  destruct p1 as [[x1 y1] z1], p2 as [[x2 y2] z2], p3 as [[x3 y3] z3].
  unfold on_plane, collinear, cross, div3, sub3. cbn [c0 c1 c2 fst snd].
  split; [ring|]. split; [field; split; assumption|]. split; [field; split; assumption|].
  split.
  - intros [= H1 H2 H3].
    assert (Hm : forall X, X = 0 -> a * b * X = 0) by (intros X ->; ring).
    apply Hm in H1, H2, H3. clear Hm.
    replace (a * b * ((y2 - y1) / a * ((z3 - z1) / b) - (z2 - z1) / a * ((y3 - y1) / b))) with ((y2 - y1) * (z3 - z1) - (z2 - z1) * (y3 - y1)) in H1 by (field; split; assumption).
    replace (a * b * ((z2 - z1) / a * ((x3 - x1) / b) - (x2 - x1) / a * ((z3 - z1) / b))) with ((z2 - z1) * (x3 - x1) - (x2 - x1) * (z3 - z1)) in H2 by (field; split; assumption).
    replace (a * b * ((x2 - x1) / a * ((y3 - y1) / b) - (y2 - y1) / a * ((x3 - x1) / b))) with ((x2 - x1) * (y3 - y1) - (y2 - y1) * (x3 - x1)) in H3 by (field; split; assumption).
    destruct (cross_zero_dep (x2 - x1, y2 - y1, z2 - z1) (x3 - x1, y3 - y1, z3 - z1)) as (s & t & K).
    { unfold cross. cbn [c0 c1 c2 fst snd]. rewrite H1, H2, H3. reflexivity. }
    exists s, t. exact K.
  - intros (s & t & NZ & H1 & H2 & H3).
    set (u := x2 - x1) in *. set (v := y2 - y1) in *. set (w := z2 - z1) in *.
    set (u' := x3 - x1) in *. set (v' := y3 - y1) in *. set (w' := z3 - z1) in *.
    assert (v * w' - w * v' = 0 /\ w * u' - u * w' = 0 /\ u * v' - v * u' = 0) as (E1 & E2 & E3).
    { destruct NZ as [Hs|Ht].
      - repeat split; apply (Rmult_eq_reg_l s); try assumption; rewrite Rmult_0_r.
        + replace (s * (v * w' - w * v')) with ((s * v) * w' - (s * w) * v') by ring. replace (s * v) with (- (t * v')) by lra. replace (s * w) with (- (t * w')) by lra. ring.
        + replace (s * (w * u' - u * w')) with ((s * w) * u' - (s * u) * w') by ring. replace (s * w) with (- (t * w')) by lra. replace (s * u) with (- (t * u')) by lra. ring.
        + replace (s * (u * v' - v * u')) with ((s * u) * v' - (s * v) * u') by ring. replace (s * u) with (- (t * u')) by lra. replace (s * v) with (- (t * v')) by lra. ring.
      - repeat split; apply (Rmult_eq_reg_l t); try assumption; rewrite Rmult_0_r.
        + replace (t * (v * w' - w * v')) with (v * (t * w') - w * (t * v')) by ring. replace (t * w') with (- (s * w)) by lra. replace (t * v') with (- (s * v)) by lra. ring.
        + replace (t * (w * u' - u * w')) with (w * (t * u') - u * (t * w')) by ring. replace (t * u') with (- (s * u)) by lra. replace (t * w') with (- (s * w)) by lra. ring.
        + replace (t * (u * v' - v * u')) with (u * (t * v') - v * (t * u')) by ring. replace (t * v') with (- (s * v)) by lra. replace (t * u') with (- (s * u)) by lra. ring. }
    replace (v / a * (w' / b) - w / a * (v' / b)) with ((v * w' - w * v') / (a * b)) by (field; split; assumption).
    replace (w / a * (u' / b) - u / a * (w' / b)) with ((w * u' - u * w') / (a * b)) by (field; split; assumption).
    replace (u / a * (v' / b) - v / a * (u' / b)) with ((u * v' - v * u') / (a * b)) by (field; split; assumption).
    rewrite E1, E2, E3. unfold Rdiv. rewrite Rmult_0_l. reflexivity.
Qed.
Lemma c38_plane_defined p1 p2 p3 : define_plane p1 p2 p3 = None <-> p2 = p1 \/ p3 = p1.
Proof.
  assert (Z : forall p q, norm3 (sub3 p q) = 0 <-> p = q).
  { intros p q. rewrite norm3_zero. destruct p as [[a b] c], q as [[x y] z]. unfold sub3. cbn [c0 c1 c2 fst snd]. split.
    - intros [= H1 H2 H3]. f_equal; [f_equal|]; lra.
    - intros [= -> -> ->]. f_equal; [f_equal|]; ring. }
  unfold define_plane. destruct (Req_EM_T (norm3 (sub3 p2 p1)) 0) as [E|N].
  - apply Z in E. split; [left; assumption|reflexivity].
  - destruct (Req_EM_T (norm3 (sub3 p3 p1)) 0) as [E2|N2].
    + apply Z in E2. split; [right; assumption|reflexivity].
    + split; [discriminate|]. intros [H|H]; apply Z in H; contradiction.
Qed.
