(** Splitting a survey into lines: examples. *)
From Verif Require Import Py Vec Abmn SpecAbmn AbmnFacts Lines2d SpecLines2d Lines2dFacts Lines2dFacts2 Lines2dFacts3 Lines2dFacts4.
From Coq Require Import ZArith Permutation Sorted.
Local Open Scope R_scope.

Lemma dist_ten y : distance [0; y] [10; y] = 10.
Proof. rewrite distance2. replace ((0 - 10) ^ 2 + (y - y) ^ 2) with (10 * 10) by ring. apply sqrt_square. lra. Qed.
Lemma dir_ten y : vscale (/ distance [0; y] [10; y]) (vsub [10; y] [0; y]) = [1; 0].
Proof. rewrite dist_ten. unfold vscale, vsub. cbn. f_equal; [lra|f_equal; lra]. Qed.
Lemma on_same n z j : on_line (repeat z n) z j <-> (j < n)%nat.
Proof. unfold on_line. rewrite repeat_length. split; [tauto|]. intros H. split; [exact H|pose proof (fun k => @nth_In Z k (repeat z n) 0%Z) as Q; rewrite repeat_length in Q; specialize (Q j H); apply repeat_spec in Q; exact Q]. Qed.
Lemma before_at p a b x y : a < b -> before (p ++ a :: x) (p ++ b :: y).
Proof. intros H. exists p, a, b, x, y. auto. Qed.
Lemma allz n (z : Z) : Forall (fun x => x = z) (repeat z n).
Proof. apply Forall_forall. intros x H. apply repeat_spec in H. exact H. Qed.

Lemma frame_ten rows n y f l : (f < n)%nat -> (l < n)%nat ->
  (forall j, (j < n)%nat -> (ab (row rows f) = ab (row rows j) \/ before (ab (row rows f)) (ab (row rows j))) /\ (ab (row rows j) = ab (row rows l) \/ before (ab (row rows j)) (ab (row rows l)))) ->
  plan (qa (row rows f)) = [0; y] -> plan (qa (row rows l)) = [10; y] -> frame rows (repeat 0%Z n) 0%Z [0; y] [1; 0].
Proof.
  intros Hf Hl O E0 E1. exists f, l. split; [apply on_same, Hf|]. split; [apply on_same, Hl|]. split; [intros j Hj; apply O; apply on_same in Hj; exact Hj|]. split; [now rewrite E0|]. rewrite E1, dist_ten. split; [lra|]. pose proof (dir_ten y) as Q. rewrite dist_ten in Q. symmetry. exact Q.
Qed.
Lemma holes_frame : frame (locations holes) (repeat 0%Z 3) 0%Z [0; 0] [1; 0].
Proof.
  apply (frame_ten _ _ _ 0%nat 2%nat); [lia|lia| |reflexivity|reflexivity].
  intros j Hj. destruct j as [|[|[|]]]; [| | |lia]; cbn.
  - split; [auto|right]. apply (before_at [] 0 10). lra.
  - split; [right; apply (before_at [0; 0] (-10) 0); lra|right; apply (before_at [] 0 10); lra].
  - split; [right; apply (before_at [] 0 10); lra|auto].
Qed.
Lemma all3_poles m l : len m = 3%nat -> Forall (fun a => len a = 3%nat) l -> all3 (locations (poles_at m l)).
Proof. intros Hm F. unfold poles_at, locations. induction F as [|a l Ha F IH]; [constructor|]. cbn. constructor; [cbn; auto|exact IH]. Qed.
Lemma together_refl x : together x x.
Proof. apply close1_iff, close1_refl. Qed.
Lemma holes_bad : exists s out, convert holes 1 (repeat 0%Z 3) true = Ok [Line s out] /\ ~ NoDup out /\
  exists q, In (q, 0%nat) (combine (locations s) out) /\ qa q = [0; 0] /\ qa (row (locations holes) 0) = [0; 0; -10].
Proof.
  destruct (one_line holes (repeat 0%Z 3) 0%Z [0; 0] [1; 0] true) as (s & out & H); [discriminate|apply all3_poles; [reflexivity|repeat constructor]|reflexivity|apply allz|exact holes_frame|]. exists s, out. split; [exact H|].
  assert (T : forall x y, x = y -> together x y) by (intros x y ->; apply together_refl).
  split.
  - intros N. destruct (lines_once _ _ _ _ _ H) as (zs & _ & Iz & F). inversion F as [|z0 l0 zs' ls' P0 F' E1 E2]; subst. inversion F'; subst. assert (z0 = 0%Z) by (assert (Q : In z0 (repeat 0%Z 3)) by (apply Iz; left; reflexivity); apply repeat_spec in Q; exact Q). subst z0.
    apply P0 in N. refine (N _ _ holes_frame 0%nat 1%nat _ _ _ _); [apply on_same; lia|apply on_same; lia| |].
    + cbn. intros E. injection E as E1 E2. lra.
    + split; apply T; unfold profile; cbn; ring.
  - destruct (line_reported _ _ _ _ _ _ _ _ _ 0%nat 1%nat H (allz 3 0%Z) holes_frame) as (q & Hq & Ea & _); [apply on_same; lia|apply on_same; lia|apply T; unfold profile; cbn; ring|apply T; unfold profile; cbn; ring|].
    exists q. split; [exact Hq|]. split; [|reflexivity]. rewrite Ea. unfold profile. cbn. f_equal; ring.
Qed.

Lemma across_frame : frame (locations across) (repeat 0%Z 2) 0%Z [0; -5] [1; 0].
Proof.
  apply (frame_ten _ _ _ 0%nat 1%nat); [lia|lia| |reflexivity|reflexivity].
  intros j Hj. destruct j as [|[|]]; [| |lia]; cbn.
  - split; [auto|right]. apply (before_at [] 0 10). lra.
  - split; [right; apply (before_at [] 0 10); lra|auto].
Qed.
Lemma across_bad : exists s out q, convert across 1 (repeat 0%Z 2) true = Ok [Line s out] /\ In (q, 0%nat) (combine (locations s) out) /\ qb q = qa q /\ qn q = qm q /\
  qa (row (locations across) 0) <> qb (row (locations across) 0) /\ qm (row (locations across) 0) <> qn (row (locations across) 0).
Proof.
  destruct (one_line across (repeat 0%Z 2) 0%Z [0; -5] [1; 0] true) as (s & out & H); [discriminate| |reflexivity|apply allz|exact across_frame|].
  { unfold all3, across, locations. cbn. repeat constructor. }
  destruct (line_reported _ _ _ _ _ _ _ _ _ 0%nat 0%nat H (allz 2 0%Z) across_frame) as (q & Hq & Ea & Eb & Em & En); [apply on_same; lia|apply on_same; lia|apply together_refl|apply together_refl|].
  exists s, out, q. split; [exact H|]. split; [exact Hq|].
  assert (M : forall v w, profile [0; -5] [1; 0] v = profile [0; -5] [1; 0] w -> merged (profile [0; -5] [1; 0] v) (profile [0; -5] [1; 0] w)).
  { intros v w ->. unfold merged, profile. constructor; [|constructor; [|constructor]]; apply together_refl. }
  split; [|split; [|split]].
  - destruct Eb as [[_ E]|[Q _]]; [congruence|]. exfalso. apply Q, M. unfold profile. cbn. f_equal. ring.
  - destruct En as [[_ E]|[Q _]]; [congruence|]. exfalso. apply Q, M. unfold profile. cbn. f_equal. ring.
  - cbn. intros E. injection E. lra.
  - cbn. intros E. injection E. lra.
Qed.
Lemma two_frame : frame (locations two) (repeat 0%Z 2) 0%Z [0; 0] [1; 0].
Proof.
  apply (frame_ten _ _ _ 1%nat 0%nat); [lia|lia| |reflexivity|reflexivity].
  intros j Hj. destruct j as [|[|]]; [| |lia]; cbn.
  - split; [right; apply (before_at [] 0 10); lra|auto].
  - split; [auto|right]. apply (before_at [] 0 10). lra.
Qed.
Lemma origin_bad : exists s out q, convert two 1 (repeat 0%Z 2) true = Ok [Line s out] /\ In (q, 0%nat) (combine (locations s) out) /\ qa q = [10; 0].
Proof.
  destruct (one_line two (repeat 0%Z 2) 0%Z [0; 0] [1; 0] true) as (s & out & H); [discriminate|apply all3_poles; [reflexivity|repeat constructor]|reflexivity|apply allz|exact two_frame|].
  destruct (line_reported _ _ _ _ _ _ _ _ _ 0%nat 0%nat H (allz 2 0%Z) two_frame) as (q & Hq & Ea & _); [apply on_same; lia|apply on_same; lia|apply together_refl|apply together_refl|].
  exists s, out, q. split; [exact H|]. split; [exact Hq|]. rewrite Ea. unfold profile. cbn. f_equal; ring.
Qed.
Lemma two_apart : pairs_apart (locations two) (repeat 0%Z 2) 0%Z.
Proof.
  intros r0 u F. destruct (frame_unique (locations two) (repeat 0%Z 2) 0%Z r0 u [0; 0] [1; 0] (all3_poles [5; 0; 0] [[10; 0; 0]; [0; 0; 0]] eq_refl ltac:(repeat constructor)) eq_refl F two_frame) as [-> ->]. intros i j Hi Hj Ne [Ta _]. apply on_same in Hi. apply on_same in Hj.
  unfold together in Ta. destruct i as [|[|]], j as [|[|]]; try lia; try (apply Ne; reflexivity); unfold profile in Ta; cbn in Ta; revert Ta.
  - replace ((10 - 0) * 1 + (0 - 0) * 0 - ((0 - 0) * 1 + (0 - 0) * 0)) with 10 by ring. replace ((0 - 0) * 1 + (0 - 0) * 0) with 0 by ring. rewrite Rabs_R0, Rabs_pos_eq; lra.
  - replace ((0 - 0) * 1 + (0 - 0) * 0 - ((10 - 0) * 1 + (0 - 0) * 0)) with (- (10)) by ring. replace ((10 - 0) * 1 + (0 - 0) * 0) with 10 by ring. rewrite Rabs_Ropp, Rabs_pos_eq; lra.
Qed.
