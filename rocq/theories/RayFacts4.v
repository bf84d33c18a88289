From Verif Require Import Py Vec VecDeriv PropsM LinSim SpecLinSim LinSimFacts Ray SpecRay RayFacts RayFacts2 RayFacts3.
From Coq Require Import Lra.
Local Open Scope R_scope.

Lemma dist2_horizontal a b y : a <= b -> dist2 (a, y) (b, y) = b - a.
Proof. intros. unfold dist2. cbn [fst snd]. replace ((b - a) * (b - a) + (y - y) * (y - y)) with (Rsqr (b - a)) by (unfold Rsqr; ring). apply sqrt_Rsqr. lra. Qed.
Lemma c60_gridline : exists m P Q h, good_mesh m /\ 0 < dist2 P Q /\ inside m P /\ inside m Q /\ line_integral m P Q = Ok h /\
  vsum (row_of (ncells m) h) = 2 * dist2 P Q.
Proof.
  set (m := mkMesh2 [0; 1] [0; 1; 2]). assert (G : good_mesh m) by (unfold good_mesh, m; cbn; repeat split; try lra; lia).
  assert (D : dist2 (0, 1) (1, 1) = 1) by (rewrite dist2_horizontal; lra).
  assert (P1 : inside m (0, 1)) by (unfold inside, in_rect, first_node, last_node, m; cbn; lra).
  assert (P2 : inside m (1, 1)) by (unfold inside, in_rect, first_node, last_node, m; cbn; lra).
  assert (HM : 0 < dist2 (0, 1) (1, 1)) by lra.
  assert (MT : meets m ((0, 1), (1, 1))).
  { split; [exact HM|]. exists 0. split; [cbn [fst snd]; lra|]. unfold point_at. cbn [fst snd].
    unfold inside, in_rect, first_node, last_node, m; cbn. rewrite !Rmult_0_l. lra. }
  destruct (meets_ok m _ _ G MT) as [h Hh]. exists m, (0, 1), (1, 1), h. split; [exact G|]. split; [exact HM|]. split; [exact P1|]. split; [exact P2|]. split; [exact Hh|].
  pose proof (line_is_row _ _ _ _ G HM Hh) as HR.
  pose proof (row_len m _ _ _ 0 0 G HM HR) as R0. pose proof (row_len m _ _ _ 0 1 G HM HR) as R1.
  specialize (R0 ltac:(cbn; lia) ltac:(cbn; lia)). specialize (R1 ltac:(cbn; lia) ltac:(cbn; lia)).
  rewrite len_whole in R0, R1 by (try exact HM; unfold in_rect; cbn; lra).
  pose proof (proj1 HR) as L. set (r := row_of (ncells m) h) in *. clearbody r. unfold ncells, ncx, ncy, m in *. cbn in L, R0, R1.
  destruct r as [|a [|b [|c r]]]; cbn in L; try lia. cbn in R0, R1. cbn [vsum]. lra.
Qed.
(** One cell, identity mapping. *)
Definition one_cell := mkMesh2 [0; 1] [0; 1].
Lemma one_good : good_mesh one_cell.
Proof. unfold good_mesh, one_cell; cbn; repeat split; try lra; lia. Qed.
Lemma half_len b : 0 < b <= 1 -> 0 < dist2 (0, 1/2) (b, 1/2) /\ meets one_cell ((0, 1/2), (b, 1/2)) /\
  forall r, is_ray_row one_cell (0, 1/2) (b, 1/2) r -> r = [b].
Proof.
  intros Hb. assert (D : dist2 (0, 1/2) (b, 1/2) = b) by (rewrite dist2_horizontal; lra).
  split; [lra|]. split.
  - split; [cbn [fst snd]; lra|]. exists 0. split; [cbn [fst snd]; lra|]. unfold point_at. cbn [fst snd].
    unfold inside, in_rect, first_node, last_node, one_cell; cbn. rewrite !Rmult_0_l. lra.
  - intros r HR. assert (HM : 0 < dist2 (0, 1/2) (b, 1/2)) by lra.
    pose proof (row_len one_cell _ _ _ 0 0 one_good HM HR ltac:(cbn; lia) ltac:(cbn; lia)) as R0.
    rewrite len_whole in R0 by (try exact HM; unfold in_rect; cbn; lra). pose proof (proj1 HR) as L.
    unfold ncells, ncx, ncy, one_cell in *. cbn in L, R0. destruct r as [|a [|c r]]; cbn in L; try lia. cbn in R0. f_equal. lra.
Qed.
Lemma cached_survey s rays' x d : snd (rfields s x) = Ok d -> snd (rfields (set_survey (fst (rfields s x)) rays') x) = Ok d.
Proof.
  unfold rfields, get_A. destruct (r_A s) as [A|] eqn:E; cbn [fst snd set_survey r_A r_map].
  - rewrite E. auto.
  - destruct (fill (r_mesh s) (r_rays s)) as [A [e|]] eqn:F; cbn; [discriminate|auto].
Qed.
Lemma cached_mesh s m' x d : snd (rfields s x) = Ok d -> snd (rfields (set_mesh (fst (rfields s x)) m') x) = Ok d.
Proof.
  unfold rfields, get_A. destruct (r_A s) as [A|] eqn:E; cbn [fst snd set_mesh r_A r_map].
  - rewrite E. auto.
  - destruct (fill (r_mesh s) (r_rays s)) as [A [e|]] eqn:F; cbn; [discriminate|auto].
Qed.
Lemma c60_stale : exists m rays rays' x d, good_mesh m /\ Forall (meets m) rays /\ Forall (meets m) rays' /\
  snd (rfields (rrun (rinit m rays id1) [RFields x; RSurvey rays']) x) = Ok d /\
  forall A, is_ray_matrix m rays' A -> d <> mv A x.
Proof.
  exists one_cell, [((0, 1/2), (1, 1/2))], [((0, 1/2), (1/2, 1/2))], [1], [1].
  destruct (half_len 1 ltac:(lra)) as (D1 & M1 & R1). destruct (half_len (1/2) ltac:(lra)) as (D2 & M2 & R2).
  split; [apply one_good|]. split; [constructor; [exact M1|constructor]|]. split; [constructor; [exact M2|constructor]|]. split.
  - cbn [rrun fold_left rstep]. apply cached_survey. unfold rfields, get_A. cbn [rinit r_A r_mesh r_rays].
    destruct (fill_ok one_cell [((0, 1/2), (1, 1/2))] one_good ltac:(constructor; [exact M1|constructor])) as (A & -> & [L HA]).
    cbn [snd bind]. specialize (HA 0%nat ltac:(cbn; lia)). cbn [nth fst snd] in HA. destruct A as [|a [|b A]]; cbn in L; try lia. cbn [nth] in HA.
    rewrite (R1 a HA). cbn. repeat f_equal. ring.
  - intros A [L HA] E. specialize (HA 0%nat ltac:(cbn; lia)). cbn [nth fst snd] in HA. destruct A as [|a [|b A]]; cbn in L; try lia. cbn [nth] in HA.
    rewrite (R2 a HA) in E. cbn in E. injection E as E. lra.
Qed.
(** A ray that misses the mesh. *)
Lemma far_misses : ~ meets one_cell ((2, 3), (4, 5)).
Proof.
  intros [HM (t & Ht & [I _])]. cbn [fst snd] in *. unfold point_at, first_node, last_node, one_cell in I. cbn [nodes_x nth length Nat.sub fst snd] in I.
  assert (0 <= t * ((4 - 2) / dist2 (2, 3) (4, 5))); [|lra].
  apply Rmult_le_pos; [lra|]. apply Rmult_le_pos; [lra|left; apply Rinv_0_lt_compat; assumption].
Qed.
Lemma c60_partial_fill : exists m rays x d, good_mesh m /\ (exists ray, In ray rays /\ meets m ray) /\
  snd (rfields (rinit m rays id1) x) = Err TypeError /\
  snd (rfields (rrun (rinit m rays id1) [RFields x]) x) = Ok d /\
  forall A, is_ray_matrix m rays A -> d <> mv A x.
Proof.
  exists one_cell, [((2, 3), (4, 5)); ((0, 1/2), (1, 1/2))], [1], [0; 0].
  destruct (half_len 1 ltac:(lra)) as (D1 & M1 & R1).
  assert (E : line_integral one_cell (2, 3) (4, 5) = Err TypeError) by (apply not_meets; [apply one_good|apply far_misses]).
  split; [apply one_good|]. split; [exists ((0, 1/2), (1, 1/2)); split; [right; left; reflexivity|exact M1]|].
  split; [|split].
  - unfold rfields, get_A. cbn [rinit r_A r_mesh r_rays fill]. rewrite E. reflexivity.
  - cbn [rrun fold_left rstep]. unfold rfields, get_A. cbn [rinit r_A r_mesh r_rays fill]. rewrite E. cbn. repeat f_equal; ring.
  - intros A [L HA] F. specialize (HA 1%nat ltac:(cbn; lia)). cbn [nth fst snd] in HA. destruct A as [|a [|b [|c A]]]; cbn in L; try lia. cbn [nth] in HA.
    rewrite (R1 b HA) in F. cbn in F. injection F as _ F. lra.
Qed.
Lemma ex22 : good_mesh mesh22 /\ off_grid mesh22 (0, 1) (3, 2) /\ inside mesh22 (0, 1) /\ inside mesh22 (3, 2) /\ 0 < dist2 (0, 1) (3, 2) /\ meets mesh22 ((0, 1), (3, 2)).
Proof.
  assert (0 < dist2 (0, 1) (3, 2)) by (unfold dist2; apply sqrt_lt_R0; cbn; lra).
  split; [unfold good_mesh, mesh22; cbn; repeat split; try lra; lia|].
  split; [split; cbn; intros; lra|]. split; [unfold inside, in_rect, first_node, last_node, mesh22; cbn; lra|].
  split; [unfold inside, in_rect, first_node, last_node, mesh22; cbn; lra|]. split; [assumption|].
  split; [assumption|]. exists 0. split; [cbn [fst snd]; lra|]. unfold point_at. cbn [fst snd].
  unfold inside, in_rect, first_node, last_node, mesh22; cbn. rewrite !Rmult_0_l. lra.
Qed.
