(** The block and ellipsoid maps, the circle, and the bounds of the values. *)
From Coq Require Import Lia Lra.
From Verif Require Import Py Vec VecDeriv Param SpecParam ParamFacts.
Local Open Scope R_scope.

Lemma pow2_gt_0 x : x <> 0 -> 0 < x ^ 2.
Proof. intros H. replace (x ^ 2) with (x²) by (unfold Rsqr; ring). apply Rsqr_pos_lt, H. Qed.

Lemma dpl_fpow f x f' e : (forall t, 0 < f t) -> derivable_pt_lim f x f' ->
  derivable_pt_lim (fun t => fpow (f t) e) x (e * fpow (f x) (e - 1) * f').
Proof.
  intros Hf H.
  assert (E : forall b e', 0 < b -> fpow b e' = Rpower b e').
  { intros b e' Hb. unfold fpow. destruct (Req_EM_T b 0); [lra|reflexivity]. }
  rewrite (E _ _ (Hf x)).
  apply (dpl_ext (fun t => Rpower (f t) e)); [intros t; symmetry; apply E, Hf|].
  eapply dpl_eq; [|apply (dpl_comp f (fun b => Rpower b e)); [exact H|apply derivable_pt_lim_power, Hf]].
  ring.
Qed.

Lemma fpow_1 b : 0 <= b -> fpow b 1 = b.
Proof. intros H. unfold fpow. destruct (Req_EM_T b 0); [destruct (Req_EM_T 1 0); lra|apply Rpower_1; lra]. Qed.
Lemma fpow_0 b : 0 <= b -> fpow b 0 = 1.
Proof. intros H. unfold fpow. destruct (Req_EM_T b 0); [destruct (Req_EM_T 0 0); lra|apply Rpower_O; lra]. Qed.

Lemma dpl_ekblom eps p v x v' : eps <> 0 \/ p = 2 -> derivable_pt_lim v x v' ->
  derivable_pt_lim (fun t => ekblom eps p (v t)) x (ekblomDeriv eps p (v x) * v').
Proof.
  intros Hp Hv.
  assert (Hb : derivable_pt_lim (fun t => v t ^ 2 + eps ^ 2) x (2 * v x * v')).
  { apply (dpl_ext (fun t => v t * v t + eps ^ 2)); [intros t; ring|].
    eapply dpl_eq; [|apply dpl_plus; [apply dpl_mult; exact Hv|apply dpl_const]]. ring. }
  destruct Hp as [He|Hp].
  - unfold ekblom, ekblomDeriv.
    eapply dpl_eq; [|apply (dpl_fpow (fun t => v t ^ 2 + eps ^ 2)); [|exact Hb]].
    + cbv beta. ring.
    + intros t. pose proof (pow2_ge_0 (v t)). assert (0 < eps ^ 2) by (apply pow2_gt_0; exact He). lra.
  - subst p. assert (N : forall t, 0 <= v t ^ 2 + eps ^ 2).
    { intros t. pose proof (pow2_ge_0 (v t)). pose proof (pow2_ge_0 eps). lra. }
    apply (dpl_ext (fun t => v t ^ 2 + eps ^ 2)).
    { intros t. unfold ekblom. replace (2 / 2) with 1 by field. rewrite fpow_1 by apply N. reflexivity. }
    unfold ekblomDeriv. replace (2 / 2) with 1 by field. replace (1 - 1) with 0 by ring. rewrite fpow_0 by apply N.
    eapply dpl_eq; [|exact Hb]. ring.
Qed.

Lemma dpl_axis eps p c x0 w h k : eps <> 0 \/ p = 2 -> w <> 0 ->
  derivable_pt_lim (fun t => ekblom eps p ((c - (x0 + t * h)) / (1 / 2 * (w + t * k)))) 0
    (ekblomDeriv eps p ((c - x0) / (1 / 2 * w)) * (- h / (1 / 2 * w) + - (c - x0) / (1 / 2 * w ^ 2) * k)).
Proof.
  intros Hp Hw.
  assert (H : derivable_pt_lim (fun t => (c - (x0 + t * h)) / (1 / 2 * (w + t * k))) 0
    (- h / (1 / 2 * w) + - (c - x0) / (1 / 2 * w ^ 2) * k)).
  { eapply dpl_eq; [|apply (derivable_pt_lim_div (fun t => c - (x0 + t * h)) (fun t => 1 / 2 * (w + t * k)) 0 (- h) (1 / 2 * k))].
    - cbv beta. unfold Rsqr. field. assumption.
    - eapply dpl_eq; [|dd]. ring.
    - eapply dpl_eq; [|dd]. ring.
    - cbv beta. intros E. apply Hw. lra. }
  eapply dpl_eq; [|apply (dpl_ekblom eps p _ 0 _ Hp H)]. cbv beta.
  replace (x0 + 0 * h) with x0 by ring. replace (w + 0 * k) with w by ring. reflexivity.
Qed.

Lemma block_gradient eps p s cs m : eps <> 0 \/ p = 2 -> (1 <= length cs <= 3)%nat -> length m = block_nP (length cs) ->
  (forall k, (k < length cs)%nat -> nth (3 + 2 * k) m 0 <> 0) ->
  has_gradient (block_nP (length cs)) (block_cell eps p s cs) m (block_row eps p s cs m).
Proof.
  intros Hp Hc Lm Hw.
  destruct cs as [|c0 [|c1 [|c2 [|? ?]]]]; cbn [length] in Hc; try lia; (split; [reflexivity|]); intros h Lh.
  - pose proof (Hw 0%nat ltac:(cbn; lia)) as W0. cbn in Lm, Lh.
    do 4 (destruct m as [|? m]; [discriminate Lm|]). destruct m; [|discriminate Lm].
    do 4 (destruct h as [|? h]; [discriminate Lh|]). destruct h; [|discriminate Lh].
    unfold block_row, deriv_center_block, deriv_width_block.
    cbn -[atanfct atanfctDeriv ekblom ekblomDeriv].
    unfold block_cell, blockND, blk_center, blk_width, at_.
    cbn -[atanfct atanfctDeriv ekblom ekblomDeriv].
    eapply dpl_eq; [|dd; apply dpl_axis; [exact Hp|exact W0]].
    at0. unfold blockND, blk_center, blk_width, at_. cbn -[atanfct atanfctDeriv ekblom ekblomDeriv].
    field. exact W0.
  - pose proof (Hw 0%nat ltac:(cbn; lia)) as W0. pose proof (Hw 1%nat ltac:(cbn; lia)) as W1. cbn in Lm, Lh.
    do 6 (destruct m as [|? m]; [discriminate Lm|]). destruct m; [|discriminate Lm].
    do 6 (destruct h as [|? h]; [discriminate Lh|]). destruct h; [|discriminate Lh].
    unfold block_row, deriv_center_block, deriv_width_block.
    cbn -[atanfct atanfctDeriv ekblom ekblomDeriv].
    unfold block_cell, blockND, blk_center, blk_width, at_.
    cbn -[atanfct atanfctDeriv ekblom ekblomDeriv].
    eapply dpl_eq; [|dd; apply dpl_axis; solve [exact Hp|exact W0|exact W1]].
    at0. unfold blockND, blk_center, blk_width, at_. cbn -[atanfct atanfctDeriv ekblom ekblomDeriv].
    field. split; assumption.
  - pose proof (Hw 0%nat ltac:(cbn; lia)) as W0. pose proof (Hw 1%nat ltac:(cbn; lia)) as W1.
    pose proof (Hw 2%nat ltac:(cbn; lia)) as W2. cbn in Lm, Lh.
    do 8 (destruct m as [|? m]; [discriminate Lm|]). destruct m; [|discriminate Lm].
    do 8 (destruct h as [|? h]; [discriminate Lh|]). destruct h; [|discriminate Lh].
    unfold block_row, deriv_center_block, deriv_width_block.
    cbn -[atanfct atanfctDeriv ekblom ekblomDeriv].
    unfold block_cell, blockND, blk_center, blk_width, at_.
    cbn -[atanfct atanfctDeriv ekblom ekblomDeriv].
    eapply dpl_eq; [|dd; apply dpl_axis; solve [exact Hp|exact W0|exact W1|exact W2]].
    at0. unfold blockND, blk_center, blk_width, at_. cbn -[atanfct atanfctDeriv ekblom ekblomDeriv].
    field. repeat split; assumption.
Qed.

(** Circle. *)
Lemma dpl_sqrt f x f' : 0 < f x -> derivable_pt_lim f x f' -> derivable_pt_lim (fun t => sqrt (f t)) x (f' / (2 * sqrt (f x))).
Proof.
  intros Hf H. eapply dpl_eq; [|apply (dpl_comp f sqrt); [exact H|apply derivable_pt_lim_sqrt, Hf]].
  field. apply Rgt_not_eq, sqrt_lt_R0, Hf.
Qed.

Lemma dist_deriv X Y x y h k : X <> x \/ Y <> y ->
  derivable_pt_lim (fun t => sqrt ((X - (x + t * h)) ^ 2 + (Y - (y + t * k)) ^ 2)) 0
    ((- (X - x) * h - (Y - y) * k) / sqrt ((X - x) ^ 2 + (Y - y) ^ 2)).
Proof.
  intros N.
  assert (P : 0 < (X - x) ^ 2 + (Y - y) ^ 2).
  { pose proof (pow2_ge_0 (X - x)). pose proof (pow2_ge_0 (Y - y)).
    destruct N as [N|N]; [assert (0 < (X - x) ^ 2) by (apply pow2_gt_0; lra)|assert (0 < (Y - y) ^ 2) by (apply pow2_gt_0; lra)]; lra. }
  assert (H : derivable_pt_lim (fun t => (X - (x + t * h)) ^ 2 + (Y - (y + t * k)) ^ 2) 0 (2 * (- (X - x) * h - (Y - y) * k))).
  { apply (dpl_ext (fun t => (X - (x + t * h)) * (X - (x + t * h)) + (Y - (y + t * k)) * (Y - (y + t * k)))); [intros t; ring|].
    eapply dpl_eq; [|dd]. ring. }
  eapply dpl_eq; [|eapply dpl_sqrt; [|exact H]]; cbv beta; rewrite ?Rmult_0_l, ?Rplus_0_r.
  - field. apply Rgt_not_eq, sqrt_lt_R0, P.
  - exact P.
Qed.

Lemma dpl_phys log f x f' : derivable_pt_lim f x f' -> derivable_pt_lim (fun t => phys log (f t)) x ((if log then phys log (f x) else 1) * f').
Proof.
  intros H. destruct log; cbn [phys].
  - apply (dpl_eq _ _ (exp (f x) * f')); [ring|]. eapply dpl_eq; [|apply (dpl_comp f exp); [exact H|apply derivable_pt_lim_exp]]. ring.
  - eapply dpl_eq; [|exact H]. ring.
Qed.

Lemma circle_gradient log a X Y m : length m = 5%nat -> X <> nth 2 m 0 \/ Y <> nth 3 m 0 ->
  has_gradient 5 (circle_cell log a X Y) m (circle_row log a X Y m).
Proof.
  intros Lm N. split; [reflexivity|]. intros h Lh.
  do 5 (destruct m as [|? m]; [discriminate Lm|]). destruct m; [|discriminate Lm].
  do 5 (destruct h as [|? h]; [discriminate Lh|]). destruct h; [|discriminate Lh].
  cbn [nth] in N. unfold vadd, vscale. cbn [map zipw].
  unfold circle_cell, circle_dist, at_. cbn [nth].
  match goal with |- derivable_pt_lim _ _ (dot (circle_row _ _ _ _ [?p0; ?p1; ?p2; ?p3; ?p4]) [?q0; ?q1; ?q2; ?q3; ?q4]) =>
    rename p0 into s1, p1 into s2, p2 into x, p3 into y, p4 into r, q0 into d1, q1 into d2, q2 into dx, q3 into dy, q4 into dr end.
  assert (P : 0 < sqrt ((X - x) ^ 2 + (Y - y) ^ 2)).
  { apply sqrt_lt_R0. pose proof (pow2_ge_0 (X - x)). pose proof (pow2_ge_0 (Y - y)).
    destruct N as [N|N]; [assert (0 < (X - x) ^ 2) by (apply pow2_gt_0; lra)|assert (0 < (Y - y) ^ 2) by (apply pow2_gt_0; lra)]; lra. }
  pose proof (dist_deriv X Y x y dx dy N) as HD.
  pose proof (dpl_phys log (fun t => s1 + t * d1) 0 d1 ltac:(eapply dpl_eq; [|dd]; ring)) as H1.
  pose proof (dpl_phys log (fun t => s2 + t * d2) 0 d2 ltac:(eapply dpl_eq; [|dd]; ring)) as H2.
  cbv beta in H1, H2. rewrite Rmult_0_l, Rplus_0_r in H1, H2.
  eapply dpl_eq; [|eapply dpl_plus; [exact H1|]; eapply (dpl_mult (fun t => phys log (s2 + t * d2) - phys log (s1 + t * d1))
    (fun t => atan (a * (sqrt ((X - (x + t * dx)) ^ 2 + (Y - (y + t * dy)) ^ 2) - (r + t * dr))) / PI + 1 / 2)); [eapply dpl_minus; [exact H2|exact H1]|];
    eapply dpl_plus; [|eapply dpl_const]; eapply (dpl_mult _ (fun _ => / PI)); [|eapply dpl_const];
    eapply dpl_atan; eapply dpl_scal; eapply dpl_minus; [exact HD|dd]].
  cbv beta. rewrite ?Rmult_0_l, ?Rplus_0_r.
  unfold circle_row, circle_dist, at_. cbn [nth]. set (d := sqrt _) in *. clearbody d.
  replace (- r + d) with (d - r) by ring. cbn [dot].
  set (A := atan _).
  assert (Q : 1 + (a * (d - r)) ^ 2 <> 0) by apply one_sq.
  assert (Q2 : a ^ 2 * (d - r) ^ 2 + 1 <> 0) by (replace (a ^ 2 * (d - r) ^ 2 + 1) with (1 + (a * (d - r)) ^ 2) by ring; exact Q).
  assert (dn : d <> 0) by lra.
  pose proof PI_nz. destruct log; cbn [phys]; (field; repeat split; try assumption). all: rewrite Rplus_comm; exact Q.
Qed.

(** Bounds. *)
Lemma atanfct_range v s : 0 < atanfct v s < 1.
Proof.
  unfold atanfct. pose proof (atan_bound (s * v)) as [B1 B2]. pose proof PI_RGT_0.
  assert (E : PI / 2 * / PI = 1 / 2) by (field; lra). assert (IP : 0 < / PI) by (apply Rinv_0_lt_compat; lra).
  assert (L : - (PI / 2) * / PI < atan (s * v) * / PI) by (apply Rmult_lt_compat_r; lra).
  assert (U : atan (s * v) * / PI < PI / 2 * / PI) by (apply Rmult_lt_compat_r; lra).
  unfold Rdiv at 1 3. lra.
Qed.

Lemma mul_range a b : 0 < a < 1 -> 0 < b < 1 -> 0 < a * b < 1.
Proof. intros A B. split; [apply Rmult_lt_0_compat; lra|]. apply Rle_lt_trans with (a * 1); [apply Rmult_le_compat_l; lra|lra]. Qed.

Lemma mix2 a b w : 0 <= w <= 1 -> within (a + (b - a) * w) [a; b].
Proof.
  intros W. destruct (Rle_dec a b) as [H|H].
  - split; [exists a|exists b]; (split; [cbn; auto|]).
    + assert (0 <= (b - a) * w) by (apply Rmult_le_pos; lra). lra.
    + assert ((b - a) * w <= (b - a) * 1) by (apply Rmult_le_compat_l; lra). lra.
  - split; [exists b|exists a]; (split; [cbn; auto|]).
    + assert ((a - b) * w <= (a - b) * 1) by (apply Rmult_le_compat_l; lra). lra.
    + assert (0 <= (a - b) * w) by (apply Rmult_le_pos; lra). lra.
Qed.

Lemma within_trans v w ls ls' : within v (w :: ls) -> within w ls' -> incl ls ls' -> within v ls'.
Proof.
  intros [[lo [[<-|I] H]] [hi [[<-|I'] H']]] [[lo' [J K]] [hi' [J' K']]] S; split; eauto.
  all: try (eexists; split; [exact J|lra]). all: try (eexists; split; [exact J'|lra]).
Qed.

Lemma within_incl v ls ls' : within v ls -> incl ls ls' -> within v ls'.
Proof. intros [[lo [I H]] [hi [I' H']]] S. split; [exists lo|exists hi]; auto. Qed.

Lemma atanLayer_range s z c t : 0 < atanLayer s z c t < 1.
Proof. unfold atanLayer. apply mul_range; apply atanfct_range. Qed.
Lemma window_range s z c t : 0 < window s z c t < 1.
Proof. unfold window. apply mul_range; apply atanfct_range. Qed.

Lemma layer_within s z m : within (layer_cell s z m) [nth 0 m 0; nth 1 m 0].
Proof. unfold layer_cell, layer_cont. pose proof (atanLayer_range s z (at_ m 2) (at_ m 3)). apply mix2. lra. Qed.

Lemma block_within eps p s cs m : within (block_cell eps p s cs m) [nth 0 m 0; nth 1 m 0].
Proof. unfold block_cell. pose proof (atanfct_range (blockND eps p cs m) s). apply mix2. lra. Qed.

Lemma bil2_within s x z m : within (bil_cell2 s x z m) [nth 0 m 0; nth 1 m 0; nth 2 m 0].
Proof.
  unfold bil_cell2, bil_value.
  assert (0 < bil_ind2 s x z m < 1) by (apply mul_range; [apply atanLayer_range|apply window_range]).
  eapply within_trans; [apply mix2; lra| |intros q [<-|[]]; cbn; auto].
  pose proof (atanLayer_range s z (at_ m 3) (at_ m 4)).
  apply (within_incl _ [nth 0 m 0; nth 1 m 0]); [apply mix2; lra|intros q; cbn; tauto].
Qed.
Lemma bil3_within s x y z m : within (bil_cell3 s x y z m) [nth 0 m 0; nth 1 m 0; nth 2 m 0].
Proof.
  unfold bil_cell3, bil_value.
  assert (0 < bil_ind3 s x y z m < 1) by (apply mul_range; [apply mul_range; [apply atanLayer_range|apply window_range]|apply window_range]).
  eapply within_trans; [apply mix2; lra| |intros q [<-|[]]; cbn; auto].
  pose proof (atanLayer_range s z (at_ m 3) (at_ m 4)).
  apply (within_incl _ [nth 0 m 0; nth 1 m 0]); [apply mix2; lra|intros q; cbn; tauto].
Qed.

Lemma atanfct_opp v s : atanfct v (- s) = 1 - atanfct v s.
Proof. unfold atanfct. replace (- s * v) with (- (s * v)) by ring. rewrite atan_opp. field. apply PI_nz. Qed.

Lemma mix3 a b c u v : 0 <= u -> 0 <= v -> u + v <= 1 -> within (a + (b - a) * u + (c - a) * v) [a; b; c].
Proof.
  intros Hu Hv Hs.
  assert (G : forall lo, lo <= a -> lo <= b -> lo <= c -> lo <= a + (b - a) * u + (c - a) * v).
  { intros lo A B C. assert (0 <= (a - lo) * (1 - u - v)) by (apply Rmult_le_pos; lra).
    assert (0 <= (b - lo) * u) by (apply Rmult_le_pos; lra). assert (0 <= (c - lo) * v) by (apply Rmult_le_pos; lra). lra. }
  assert (K : forall hi, a <= hi -> b <= hi -> c <= hi -> a + (b - a) * u + (c - a) * v <= hi).
  { intros hi A B C. assert (0 <= (hi - a) * (1 - u - v)) by (apply Rmult_le_pos; lra).
    assert (0 <= (hi - b) * u) by (apply Rmult_le_pos; lra). assert (0 <= (hi - c) * v) by (apply Rmult_le_pos; lra). lra. }
  split.
  - destruct (Rle_dec a b), (Rle_dec a c), (Rle_dec b c);
    solve [exists a; split; [cbn; auto|apply G; lra]|exists b; split; [cbn; auto|apply G; lra]|exists c; split; [cbn; auto|apply G; lra]].
  - destruct (Rle_dec a b), (Rle_dec a c), (Rle_dec b c);
    solve [exists a; split; [cbn; auto|apply K; lra]|exists b; split; [cbn; auto|apply K; lra]|exists c; split; [cbn; auto|apply K; lra]].
Qed.

Lemma casing_within s x z m : within (casing_cell s x z m) [nth 0 m 0; nth 1 m 0; nth 2 m 0; nth 3 m 0].
Proof.
  unfold casing_cell.
  pose proof (atanfct_range (x - casing_a m) s) as A1. pose proof (atanfct_range (x - casing_b m) (- s)) as A2.
  assert (Len : 0 < atanCasingLength s z m < 1) by (apply mul_range; apply atanfct_range).
  assert (C : 0 < atanCasing s x z m < 1) by (apply mul_range; [apply mul_range; assumption|assumption]).
  assert (I : 0 < atanInsideCasing s x z m < 1) by (apply mul_range; [assumption|apply atanfct_range]).
  assert (S : atanCasing s x z m + atanInsideCasing s x z m <= 1).
  { unfold atanCasing, atanInsideCasing. rewrite (atanfct_opp (x - casing_a m) s).
    set (l := atanCasingLength s z m) in *. set (p := atanfct (x - casing_a m) s) in *. set (q := atanfct (x - casing_b m) (- s)) in *.
    assert (0 < p * (1 - q)) by (apply Rmult_lt_0_compat; lra).
    assert (l * (p * q + (1 - p)) <= l * 1) by (apply Rmult_le_compat_l; lra). lra. }
  eapply within_trans; [apply mix3; lra| |intros q Hq; cbn in Hq |- *; unfold at_ in Hq; tauto].
  pose proof (atanLayer_range s z (at_ m 4) (at_ m 5)).
  apply (within_incl _ [nth 0 m 0; nth 1 m 0]); [apply mix2; lra|intros q; cbn; tauto].
Qed.

Lemma block_rows eps p s d m cells : eps <> 0 \/ p = 2 -> (1 <= d <= 3)%nat ->
  length m = (2 + 2 * d)%nat -> (forall k, (k < d)%nat -> nth (3 + 2 * k) m 0 <> 0) -> Forall (fun c => length c = d) cells ->
  rows_are_derivative (2 + 2 * d) (block_cell eps p s) (block_row eps p s) m cells.
Proof.
  intros He Hd L Hw Hc. apply cells_jacobian. intros c Hin. rewrite Forall_forall in Hc. specialize (Hc c Hin). subst d.
  exact (block_gradient eps p s c m He Hd L Hw).
Qed.
