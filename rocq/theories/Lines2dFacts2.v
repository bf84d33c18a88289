(** Splitting a survey into lines: the data of a line. *)
From Verif Require Import Py Vec Abmn SpecAbmn AbmnFacts Lines2d SpecLines2d Lines2dFacts.
From Coq Require Import ZArith Permutation Sorted.
Local Open Scope R_scope.

Lemma close1_iff x y : close1 x y = true <-> together x y.
Proof. unfold close1, together. destruct (Rle_dec _ _); split; auto; try discriminate. Qed.
Lemma close1_refl x : close1 x x = true.
Proof. apply close1_iff. unfold together. rewrite Rminus_diag_eq, Rabs_R0 by reflexivity. pose proof (Rabs_pos x). lra. Qed.

Section Line.
Variable rows : list quad.
Variable firsts : list nat.
Notation n := (len rows).
Definition lmembers (i : nat) : list nat := l_poles rows i ++ l_dipoles rows i.
Lemma lmembers_perm i : Permutation (lmembers i) (rx_of rows i).
Proof. apply filter_split. Qed.
Lemma lmembers_in i j : In j (lmembers i) <-> (j < n)%nat /\ same_s rows i j = true.
Proof.
  split; intros H.
  - apply (Permutation_in _ (lmembers_perm i)) in H. apply filter_In in H. destruct H as [H1 H2]. apply in_seq in H1. split; [lia|exact H2].
  - apply (Permutation_in _ (Permutation_sym (lmembers_perm i))). apply filter_In. destruct H. split; [apply in_seq; lia|assumption].
Qed.
Lemma l_out_in j : (exists i, In i firsts /\ same_s rows i j = true) -> (j < n)%nat -> In j (l_out rows firsts).
Proof. intros (i & Hi & S) Hj. apply in_flat_map. exists i. split; [exact Hi|]. apply lmembers_in. auto. Qed.
Lemma l_out_lt j : In j (l_out rows firsts) -> (j < n)%nat.
Proof. intros H. apply in_flat_map in H. destruct H as (i & _ & H). apply lmembers_in in H. apply H. Qed.
(** What the survey of the line reports for datum [j] under source [i]. *)
Definition lview (i j : nat) : quad :=
  {| qa := qa (row rows i); qb := if closev (qa (row rows i)) (qb (row rows i)) then qa (row rows i) else qb (row rows i);
     qm := qm (row rows j); qn := if pole_rx rows j then qm (row rows j) else qn (row rows j) |}.
Lemma l_rx_rows a b i : flat_map (rx_rows a b) (l_rx_list rows i) =
  map (fun j => {| qa := a; qb := b; qm := qm (row rows j); qn := if pole_rx rows j then qm (row rows j) else qn (row rows j) |}) (lmembers i).
Proof.
  unfold l_rx_list, lmembers. rewrite flat_map_app, map_app. f_equal.
  - assert (H : forall j, In j (l_poles rows i) -> pole_rx rows j = true) by (intros j Hj; apply filter_In in Hj; apply Hj).
    destruct (l_poles rows i) as [|j0 l] eqn:E; [reflexivity|]. rewrite <- E in *. cbn. rewrite app_nil_r, zipmn_map. apply map_ext_in. intros j Hj. rewrite (H j Hj). reflexivity.
  - assert (H : forall j, In j (l_dipoles rows i) -> pole_rx rows j = false) by (intros j Hj; apply filter_In in Hj; destruct Hj as [_ Hj]; now apply negb_true_iff in Hj).
    destruct (l_dipoles rows i) as [|j0 l] eqn:E; [reflexivity|]. rewrite <- E in *. cbn. rewrite app_nil_r, zipmn_map. apply map_ext_in. intros j Hj. rewrite (H j Hj). reflexivity.
Qed.
Lemma l_source_rows i : src_rows (l_source rows i) = map (lview i) (lmembers i).
Proof. unfold l_source, lview. destruct (closev _ _); cbn [src_rows]; apply l_rx_rows. Qed.
Lemma l_locations : locations (map (l_source rows) firsts) = flat_map (fun i => map (lview i) (lmembers i)) firsts.
Proof. unfold locations. induction firsts as [|i l IH]; [reflexivity|]. cbn. rewrite l_source_rows, IH. reflexivity. Qed.
Lemma l_rx_nD i : fold_right (fun r k => (rx_nD r + k)%nat) 0%nat (l_rx_list rows i) = len (lmembers i).
Proof.
  unfold l_rx_list, lmembers. rewrite app_length. destruct (l_poles rows i) as [|p l], (l_dipoles rows i) as [|d l']; cbn; rewrite ?map_length; lia.
Qed.
Lemma l_nD : survey_nD (map (l_source rows) firsts) = len (l_out rows firsts).
Proof.
  unfold l_out. induction firsts as [|i l IH]; [reflexivity|]. cbn. rewrite app_length. fold (lmembers i). rewrite <- l_rx_nD, <- IH. f_equal. unfold l_source. destruct (closev _ _); reflexivity.
Qed.
Lemma l_locations_len : len (locations (map (l_source rows) firsts)) = len (l_out rows firsts).
Proof. rewrite l_locations. unfold l_out. induction firsts as [|i l IH]; [reflexivity|]. cbn. rewrite !app_length, map_length, IH. unfold lmembers. rewrite app_length. reflexivity. Qed.
(** In general the A and B electrodes are those of a source at the same position. *)
Lemma l_pairs : Forall2 (fun q j => exists i, In i firsts /\ same_s rows i j = true /\ q = lview i j) (locations (map (l_source rows) firsts)) (l_out rows firsts).
Proof.
  rewrite l_locations. unfold l_out. assert (G : forall fs, incl fs firsts -> Forall2 (fun q j => exists i, In i firsts /\ same_s rows i j = true /\ q = lview i j) (flat_map (fun i => map (lview i) (lmembers i)) fs) (flat_map (fun i => l_poles rows i ++ l_dipoles rows i) fs)).
  { intros fs. induction fs as [|i l IH]; intros Hi; [constructor|]. cbn. apply Forall2_app; [|apply IH; intros x Hx; apply Hi; right; exact Hx].
    fold (lmembers i). assert (S : forall j, In j (lmembers i) -> same_s rows i j = true) by (intros j Hj; apply lmembers_in in Hj; apply Hj).
    induction (lmembers i) as [|j m IHm]; [constructor|]. cbn. constructor; [|apply IHm; intros x Hx; apply S; right; exact Hx]. exists i. split; [apply Hi; left; reflexivity|]. split; [apply S; left; reflexivity|reflexivity]. }
  apply G, incl_refl.
Qed.
Lemma l_nodup : NoDup firsts -> (forall i i' j, In i firsts -> In i' firsts -> (j < n)%nat -> same_s rows i j = true -> same_s rows i' j = true -> i = i') -> NoDup (l_out rows firsts).
Proof.
  intros N D. apply concat_nodup; [exact N| |].
  - intros i _. apply (Permutation_NoDup (Permutation_sym (lmembers_perm i))). apply NoDup_filter, seq_NoDup.
  - intros i i' j Hi Hi' H H'. apply lmembers_in in H. apply lmembers_in in H'. destruct H as [H1 H2], H' as [_ H3]. apply (D i i' j); assumption.
Qed.
End Line.

(** ** Geometry *)
Lemma project_profile r0 u v : List.length v = 3%nat -> List.length r0 = 2%nat -> List.length u = 2%nat -> project r0 u v = profile r0 u v.
Proof.
  destruct v as [|x [|y [|z [|]]]]; try discriminate. destruct r0 as [|x0 [|y0 [|]]]; try discriminate. destruct u as [|a [|b [|]]]; try discriminate. intros _ _ _.
  unfold project, profile, xy. cbn. f_equal. ring.
Qed.
Lemma xy_plan v : List.length v = 3%nat -> xy v = plan v.
Proof. destruct v as [|x [|y [|z [|]]]]; try discriminate. reflexivity. Qed.
Lemma norm_distance x y : norm (vsub x y) = distance x y.
Proof. reflexivity. Qed.
Lemma distance_sym x : forall y, List.length x = List.length y -> distance x y = distance y x.
Proof. intros y L. unfold distance. f_equal. revert y L. induction x as [|a x IH]; intros [|b y] L; try discriminate; [reflexivity|]. injection L as L. specialize (IH y L). unfold dot, vsub in *. cbn in *. rewrite IH. ring. Qed.
Lemma distance3 a b c x y z : distance [a; b; c] [x; y; z] = sqrt ((a - x) ^ 2 + (b - y) ^ 2 + (c - z) ^ 2).
Proof. unfold distance, dot, vsub. cbn. f_equal. ring. Qed.
Lemma distance2 a b x y : distance [a; b] [x; y] = sqrt ((a - x) ^ 2 + (b - y) ^ 2).
Proof. unfold distance, dot, vsub. cbn. f_equal. ring. Qed.
Lemma profile_shrinks r0 u v w : List.length u = 2%nat -> dot u u = 1 -> List.length v = 3%nat -> List.length w = 3%nat ->
  distance (profile r0 u v) (profile r0 u w) <= distance v w.
Proof.
  destruct u as [|a [|b [|]]]; try discriminate. destruct v as [|x [|y [|z [|]]]]; try discriminate. destruct w as [|x' [|y' [|z' [|]]]]; try discriminate. intros _ U _ _.
  unfold profile. rewrite distance2, distance3. cbn [nth]. apply sqrt_le_1_alt. unfold dot in U. cbn in U.
  assert (b ^ 2 = 1 - a ^ 2) by lra. set (p := x - x'). set (q := y - y').
  replace ((x - nth 0 r0 0) * a + (y - nth 1 r0 0) * b - ((x' - nth 0 r0 0) * a + (y' - nth 1 r0 0) * b)) with (p * a + q * b) by (unfold p, q; ring).
  assert (0 <= (p * b - q * a) ^ 2) by apply pow2_ge_0. assert ((p * a + q * b) ^ 2 + (p * b - q * a) ^ 2 = p ^ 2 + q ^ 2); [|lra].
  replace ((p * a + q * b) ^ 2 + (p * b - q * a) ^ 2) with ((p ^ 2 + q ^ 2) * (a ^ 2 + b ^ 2)) by ring. rewrite H. ring.
Qed.
Lemma profile_keeps r0 u v w t : List.length u = 2%nat -> dot u u = 1 -> List.length v = 3%nat -> List.length w = 3%nat -> vsub (plan v) (plan w) = vscale t u ->
  distance (profile r0 u v) (profile r0 u w) = distance v w.
Proof.
  destruct u as [|a [|b [|]]]; try discriminate. destruct v as [|x [|y [|z [|]]]]; try discriminate. destruct w as [|x' [|y' [|z' [|]]]]; try discriminate. intros _ U _ _ P.
  unfold profile. rewrite distance2, distance3. cbn [nth]. f_equal. unfold plan, vsub, vscale in P. cbn in P. injection P as P1 P2. unfold dot in U. cbn in U.
  assert (E1 : x = x' + t * a) by lra. assert (E2 : y = y' + t * b) by lra. subst x y. assert (B : b ^ 2 = 1 - a ^ 2) by lra.
  replace ((x' + t * a - nth 0 r0 0) * a + (y' + t * b - nth 1 r0 0) * b - ((x' - nth 0 r0 0) * a + (y' - nth 1 r0 0) * b)) with (t * (a ^ 2 + b ^ 2)) by ring.
  replace ((x' + t * a - x') ^ 2 + (y' + t * b - y') ^ 2) with (t ^ 2 * (a ^ 2 + b ^ 2)) by ring. rewrite B. ring.
Qed.
Lemma profile_end r0 r1 z : List.length r0 = 2%nat -> List.length r1 = 2%nat -> 0 < distance r0 r1 ->
  profile r0 (vscale (/ distance r0 r1) (vsub r1 r0)) (r0 ++ [z]) = [0; z] /\ profile r0 (vscale (/ distance r0 r1) (vsub r1 r0)) (r1 ++ [z]) = [distance r0 r1; z].
Proof.
  destruct r0 as [|a [|b [|]]]; try discriminate. destruct r1 as [|x [|y [|]]]; try discriminate. intros _ _ P. unfold profile. cbn [nth app]. split; [f_equal; ring|]. f_equal.
  set (d := distance [a; b] [x; y]) in *. unfold vsub, vscale. cbn.
  assert (D : d * d = (a - x) ^ 2 + (b - y) ^ 2).
  { unfold d. rewrite distance2. apply sqrt_sqrt. pose proof (pow2_ge_0 (a - x)). pose proof (pow2_ge_0 (b - y)). lra. }
  replace ((x - a) * (/ d * (x - a)) + (y - b) * (/ d * (y - b))) with (/ d * ((a - x) ^ 2 + (b - y) ^ 2)) by ring. rewrite <- D. field. lra.
Qed.
Lemma unit_dir r0 r1 : List.length r0 = 2%nat -> List.length r1 = 2%nat -> 0 < distance r0 r1 -> dot (vscale (/ distance r0 r1) (vsub r1 r0)) (vscale (/ distance r0 r1) (vsub r1 r0)) = 1.
Proof.
  destruct r0 as [|a [|b [|]]]; try discriminate. destruct r1 as [|x [|y [|]]]; try discriminate. intros _ _ P.
  set (d := distance [a; b] [x; y]) in *. unfold vsub, vscale, dot. cbn.
  assert (D : d * d = (a - x) ^ 2 + (b - y) ^ 2).
  { unfold d. rewrite distance2. apply sqrt_sqrt. pose proof (pow2_ge_0 (a - x)). pose proof (pow2_ge_0 (b - y)). lra. }
  match goal with |- ?l = 1 => replace l with (/ (d * d) * ((a - x) ^ 2 + (b - y) ^ 2)) by (field; lra) end. rewrite <- D. field. lra.
Qed.
