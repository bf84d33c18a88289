(** Counterexamples: weights of the diagonal, the magnetization and the sign of the amplitude. *)
From Verif Require Import Pf SpecPf PfFacts PfFacts2 PfFacts3 PfFacts4 PfFacts5 PfFacts6.
Local Open Scope R_scope.

Lemma unit_value F : cell_value F unit_cell origin [0%nat; 1%nat; 2%nat; 3%nat; 4%nat; 5%nat; 6%nat; 7%nat]
  = - (F 1 1 1 - F 0 1 1 - F 1 0 1 + F 0 0 1 - F 1 1 0 + F 0 1 0 + F 1 0 0 - F 0 0 0).
Proof.
  unfold cell_value, corner, unit_cell, origin. cbn -[IZR Rplus Rmult Rinv Rminus Rdiv Ropp].
  replace (0 - 0) with 0 by ring. replace (1 - 0) with 1 by ring. ring.
Qed.
Lemma unit_cells : snd unit_cell = [[0; 1; 2; 3; 4; 5; 6; 7]%nat].
Proof. reflexivity. Qed.
Lemma unit_good : good_mesh unit_cell.
Proof. exact (tcells_good [0; 1] [0; 1] [0; 1]). Qed.
Lemma toy_row c : (c = Gx \/ c = Gy) -> grav_crow toy_ckern 1 unit_cell c origin = [- 10 ^ 8].
Proof.
  intros H. rewrite (grav_crow_ok toy_gkern) by (try apply unit_good; apply toy_gravity).
  unfold gravity_response. rewrite unit_cells. cbn [map]. rewrite unit_value.
  destruct H as [-> | ->]; cbn [gravity_function gravity_units toy_gkern fz fzx fzy fzz]; f_equal; ring.
Qed.
Lemma toy_len c l : length (grav_crow toy_ckern 1 unit_cell c l) = 1%nat.
Proof. rewrite grav_crow_length. reflexivity. Qed.
Lemma c68_gtg_bad_components : choclo_gtg (grav_crow toy_ckern 1 unit_cell) [1; 4] [([Gx; Gy], [origin])] (vzero 1)
  <> weighted_diagonal 1 (choclo_matrix (grav_crow toy_ckern 1 unit_cell) [([Gx; Gy], [origin])] [[]; []]) [1; 4].
Proof.
  rewrite choclo_matrix_ok by reflexivity. rewrite choclo_gtg_read by apply toy_len.
  unfold by_location; cbn [flat_map map fst snd app]. rewrite !toy_row by auto.
  unfold weights_read; cbn -[IZR Rplus Rmult Ropp pow]. intros E. apply (f_equal (hd 0)) in E. cbn [hd] in E. assert (P : 0 < 10 ^ 8) by (apply pow_lt; lra). set (q := 10 ^ 8) in *. nra.
Qed.
Lemma c68_gtg_bad_receivers : choclo_gtg (grav_crow toy_ckern 1 unit_cell) [1; 4] [([Gx], [origin]); ([Gx], [origin])] (vzero 1)
  <> weighted_diagonal 1 (choclo_matrix (grav_crow toy_ckern 1 unit_cell) [([Gx], [origin]); ([Gx], [origin])] [[]; []]) [1; 4].
Proof.
  rewrite choclo_matrix_ok by reflexivity. rewrite choclo_gtg_read by apply toy_len.
  unfold by_location; cbn [flat_map map fst snd app]. rewrite !toy_row by auto.
  unfold weights_read; cbn -[IZR Rplus Rmult Ropp pow]. intros E. apply (f_equal (hd 0)) in E. cbn [hd] in E. assert (P : 0 < 10 ^ 8) by (apply pow_lt; lra). set (q := 10 ^ 8) in *. nra.
Qed.
Lemma toy_scalar a : magnetic_scalar_response toy_gkern east [times a east] unit_cell Tmi origin = [- (/ (4 * PI) * a)].
Proof.
  unfold magnetic_scalar_response. rewrite unit_cells. cbn [combine map fst snd]. unfold along. rewrite !unit_value.
  unfold magnetic_function, along, toy_gkern, times, east. cbn [tensor2 px py pz fzz fzy fzx]. f_equal. ring.
Qed.
Lemma east_unit : is_unit east.
Proof. unfold is_unit, east; cbn [px py pz]; ring. Qed.
Lemma toy_choclo : choclo_matrix (mag_crow toy_ckern true (times 1 east) unit_cell) [([Tmi], [origin])] [[]] = [[- (/ (4 * PI) * 1)]].
Proof.
  rewrite (c68_mag_choclo_scalar toy_gkern) by (try apply unit_good; try apply east_unit; try reflexivity; try lra; intros; apply toy_magnetic).
  unfold by_location; cbn [flat_map map fst snd app]. rewrite unit_cells. cbn [length repeat]. rewrite toy_scalar. reflexivity.
Qed.
Lemma c68_M_bad : geoana_fill (mag_integral toy_gkern (MScalar [times 2 east]) east unit_cell) [([Tmi], [origin])] [[]] 0
  <> Ok (choclo_matrix (mag_crow toy_ckern true (times 1 east) unit_cell) [([Tmi], [origin])] [[]]).
Proof.
  rewrite c68_mag_geoana by (try apply unit_good; reflexivity). rewrite toy_choclo.
  unfold by_location; cbn [flat_map map fst snd app mag_response]. rewrite toy_scalar. intros E.
  assert (E' : - (/ (4 * PI) * 2) = - (/ (4 * PI) * 1)).
  { exact (f_equal (fun r => match r with Ok [[x]] => x | _ => 0 end) E). }
  assert (P : 0 < / (4 * PI)) by (apply Rinv_0_lt_compat; pose proof PI_RGT_0; lra). lra.
Qed.
(** A negative amplitude: the projection direction of geoana is the given one, that
    of choclo is the direction of the field, the opposite. *)
Lemma neg_east : times (-1) east = times 1 (times (-1) east).
Proof. unfold times, east; cbn [px py pz]. f_equal; ring. Qed.
Lemma c68_sign_bad : geoana_fill (mag_integral toy_gkern (MScalar [times (-1) east]) east unit_cell) [([Tmi], [origin])] [[]] 0
  <> Ok (choclo_matrix (mag_crow toy_ckern true (times (-1) east) unit_cell) [([Tmi], [origin])] [[]]).
Proof.
  rewrite c68_mag_geoana by (try apply unit_good; reflexivity). rewrite neg_east at 2.
  rewrite (c68_mag_choclo_scalar toy_gkern) by (try apply unit_good; try reflexivity; try lra; try (intros; apply toy_magnetic); unfold is_unit, times, east; cbn [px py pz]; ring).
  unfold by_location; cbn [flat_map map fst snd app mag_response]. rewrite toy_scalar, unit_cells. cbn [length repeat].
  unfold magnetic_scalar_response. rewrite unit_cells. cbn [combine map fst snd]. unfold along. rewrite !unit_value.
  unfold magnetic_function, along, toy_gkern, times, east. cbn [tensor2 px py pz fzz fzy fzx]. intros E.
  assert (P : 0 < / (4 * PI)) by (apply Rinv_0_lt_compat; pose proof PI_RGT_0; lra).
  set (q := / (4 * PI)) in *.
  pose proof (f_equal (fun r => match r with Ok [[x]] => x | _ => 0 end) E) as E'. cbv beta iota in E'. clear E. nra.
Qed.
