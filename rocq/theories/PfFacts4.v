(** Products with the transpose and the diagonal of [G^T W G]. *)
From Verif Require Import Pf SpecPf PfFacts PfFacts2 PfFacts3.
Local Open Scope R_scope.

Lemma nth_zip f (a b : vec) k : length a = length b -> f 0 0 = 0 -> nth k (zipw f a b) 0 = f (nth k a 0) (nth k b 0).
Proof.
  intros L F. revert b k L; induction a as [|x a IH]; intros [|y b] [|k] L; cbn in *; try lia; auto.
Qed.
Lemma nth_add (a b : vec) k : length a = length b -> nth k (vadd a b) 0 = nth k a 0 + nth k b 0.
Proof. intros. apply (nth_zip Rplus); [assumption|ring]. Qed.
Lemma nth_scale c (a : vec) k : nth k (vscale c a) 0 = c * nth k a 0.
Proof. unfold vscale. revert k; induction a as [|x a IH]; intros [|k]; cbn; try ring; auto. Qed.
Lemma nth_zeros n k : nth k (vzero n) 0 = 0.
Proof. unfold vzero, vconst. revert k; induction n as [|n IH]; intros [|k]; cbn; auto. Qed.
Lemma nth_map0 (g : R -> R) (a : vec) k : g 0 = 0 -> nth k (map g a) 0 = g (nth k a 0).
Proof. intros E. revert k; induction a as [|x a IH]; intros [|k]; cbn; auto. Qed.
Lemma list_nth_ext (a b : vec) : length a = length b -> (forall k, nth k a 0 = nth k b 0) -> a = b.
Proof.
  revert b; induction a as [|x a IH]; intros [|y b] L H; cbn in *; try lia; auto.
  f_equal; [exact (H 0%nat)|]. apply IH; [lia|]. intros k. exact (H (S k)).
Qed.
Lemma vsum_ext_in {A} (f g : A -> R) l : (forall x, In x l -> f x = g x) -> vsum (map f l) = vsum (map g l).
Proof. intros H. f_equal. apply map_ext_in. exact H. Qed.
Lemma vsum_zero {A} (l : list A) : vsum (map (fun _ => 0) l) = 0.
Proof. induction l as [|x l IH]; cbn; [reflexivity|]. rewrite IH. ring. Qed.
Lemma vsum_swap {A B} (g : A -> B -> R) : forall la lb,
  vsum (map (fun a => vsum (map (fun b => g a b) lb)) la) = vsum (map (fun b => vsum (map (fun a => g a b) la)) lb).
Proof.
  induction la as [|a la IH]; intros lb; [cbn [map vsum]; rewrite vsum_zero; reflexivity|].
  cbn [map vsum]. rewrite IH. rewrite <- vsum_map_add. reflexivity.
Qed.

(** A fold of row additions, entry by entry. *)
Lemma fold_rows {B} (n : nat) (g : B -> vec) : forall (l : list B) acc, (forall x, In x l -> length (g x) = n) -> length acc = n ->
  length (fold_left (fun acc x => vadd acc (g x)) l acc) = n /\
  forall k, nth k (fold_left (fun acc x => vadd acc (g x)) l acc) 0 = nth k acc 0 + vsum (map (fun x => nth k (g x) 0) l).
Proof.
  induction l as [|x l IH]; intros acc H L; cbn [fold_left map vsum].
  - split; [exact L|intros; ring].
  - assert (Lg : length (g x) = n) by (apply H; left; reflexivity).
    assert (La : length (vadd acc (g x)) = n) by (rewrite vadd_length; lia).
    destruct (IH (vadd acc (g x)) (fun y Hy => H y (or_intror Hy)) La) as [L2 N2].
    split; [exact L2|]. intros k. rewrite N2, nth_add by lia. ring.
Qed.
Lemma fold_folds {B} (n : nat) (F : vec -> B -> vec) (g : nat -> B -> R) : forall (l : list B),
  (forall x acc, In x l -> length acc = n -> length (F acc x) = n /\ forall k, nth k (F acc x) 0 = nth k acc 0 + g k x) ->
  forall acc, length acc = n ->
  length (fold_left F l acc) = n /\ forall k, nth k (fold_left F l acc) 0 = nth k acc 0 + vsum (map (g k) l).
Proof.
  induction l as [|x l IH]; intros H acc L; cbn [fold_left map vsum].
  - split; [exact L|intros; ring].
  - destruct (H x acc (or_introl eq_refl) L) as [L1 N1].
    destruct (IH (fun y a Hy => H y a (or_intror Hy)) (F acc x) L1) as [L2 N2].
    split; [exact L2|]. intros k. rewrite N2, N1. ring.
Qed.

Section T.
  Context {Cmp : Type} (row : Cmp -> pt -> vec) (n : nat) (Hrow : forall c l, length (row c l) = n).
  Notation rx := (list Cmp * list pt)%type.

  Lemma comp_tdot_ok v off nc i c locs acc : length acc = n ->
    length (comp_tdot row v off nc i c locs acc) = n /\
    forall k, nth k (comp_tdot row v off nc i c locs acc) 0
      = nth k acc 0 + vsum (map (fun rl => nth (off + i + fst rl * nc) v 0 * nth k (row c (snd rl)) 0) (combine (seq 0 (length locs)) locs)).
  Proof.
    intros L. unfold comp_tdot.
    destruct (fold_rows n (fun rl : nat * pt => vscale (nth (off + i + fst rl * nc) v 0) (row c (snd rl))) (combine (seq 0 (length locs)) locs) acc) as [L1 N1].
    - intros x _. rewrite vscale_length. apply Hrow.
    - exact L.
    - split; [exact L1|]. intros k. rewrite N1. f_equal. apply vsum_ext_in. intros x _. apply nth_scale.
  Qed.
  Lemma rx_tdot_ok v off (r : rx) acc : length acc = n ->
    length (rx_tdot row v off r acc) = n /\
    forall k, nth k (rx_tdot row v off r acc) 0
      = nth k acc 0 + vsum (map (fun ic => vsum (map (fun rl => nth (off + fst ic + fst rl * length (fst r)) v 0 * nth k (row (snd ic) (snd rl)) 0)
            (combine (seq 0 (length (snd r))) (snd r)))) (combine (seq 0 (length (fst r))) (fst r))).
  Proof.
    intros L. unfold rx_tdot.
    apply (fold_folds n (fun acc ic => comp_tdot row v off (length (fst r)) (fst ic) (snd ic) (snd r) acc)); [|exact L].
    intros ic a _ La. apply comp_tdot_ok. exact La.
  Qed.
  Lemma dot_rows k (cs : list Cmp) : forall locs v off r0,
    dot (flat_map (fun l => map (fun c => nth k (row c l) 0) cs) locs) (skipn (off + r0 * length cs) v)
    = vsum (map (fun rl => vsum (map (fun ic => nth (off + fst ic + fst rl * length cs) v 0 * nth k (row (snd ic) (snd rl)) 0)
            (combine (seq 0 (length cs)) cs))) (combine (seq r0 (length locs)) locs)).
  Proof.
    induction locs as [|l locs IH]; intros v off r0; [reflexivity|].
    cbn [flat_map length seq combine map vsum fst snd].
    rewrite dot_app_skip, map_length, skipn_skipn'.
    replace (length cs + (off + r0 * length cs))%nat with (off + S r0 * length cs)%nat by lia.
    rewrite IH. f_equal.
    rewrite dot_nth. apply vsum_ext_in. intros [i c] _; cbn [fst snd].
    replace (i + (off + r0 * length cs))%nat with (off + i + r0 * length cs)%nat by lia. ring.
  Qed.
  Lemma choclo_tdot_ok v : forall s off acc, length acc = n ->
    length (choclo_tdot row v s off acc) = n /\
    forall k, nth k (choclo_tdot row v s off acc) 0 = nth k acc 0 + dot (by_location (fun c l => nth k (row c l) 0) s) (skipn off v).
  Proof.
    induction s as [|r s IH]; intros off acc L; cbn [choclo_tdot].
    - split; [exact L|]. intros k. cbn [by_location flat_map dot]. ring.
    - destruct (rx_tdot_ok v off r acc L) as [L1 N1].
      destruct (IH (off + rx_nD r)%nat _ L1) as [L2 N2]. split; [exact L2|].
      intros k. rewrite N2, N1, by_location_cons, dot_app_skip.
      rewrite (rx_rows_length (fun c l => nth k (row c l) 0) r), skipn_skipn', (Nat.add_comm (rx_nD r) off).
      rewrite Rplus_assoc. f_equal. f_equal.
      pose proof (dot_rows k (fst r) (snd r) v off 0%nat) as D. rewrite Nat.mul_0_l, Nat.add_0_r in D. rewrite D.
      apply (vsum_swap (fun (ic : nat * Cmp) (rl : nat * pt) => nth (off + fst ic + fst rl * length (fst r)) v 0 * nth k (row (snd ic) (snd rl)) 0)).
  Qed.
  Lemma nth_mtv (M : mat) : Forall (fun r => length r = n) M -> forall v k, nth k (mtv n M v) 0 = dot (map (fun r => nth k r 0) M) v.
  Proof.
    induction 1 as [|r M Hr HM IH]; intros v k; [apply nth_zeros|].
    destruct v as [|x v]; cbn [mtv map dot]; [apply nth_zeros|].
    rewrite nth_add, nth_scale, IH; [ring|].
    rewrite vscale_length, (mtv_length (length M) n M v) by (split; auto). exact Hr.
  Qed.
  Lemma by_location_rows s : Forall (fun r => length r = n) (by_location row s).
  Proof.
    induction s as [|[cs ls] s IH]; [constructor|]. rewrite by_location_cons; cbn [fst snd]. apply Forall_app. split; [|exact IH].
    apply Forall_flat_map, Forall_forall. intros l _. apply Forall_forall. intros x Hx. apply in_map_iff in Hx. destruct Hx as (c & <- & _). apply Hrow.
  Qed.
  Lemma choclo_tdot_mtv v s : choclo_tdot row v s 0 (vzero n) = mtv n (by_location row s) v.
  Proof.
    destruct (choclo_tdot_ok v s 0%nat (vzero n) (vzero_length n)) as [L N].
    apply list_nth_ext.
    - rewrite L. symmetry. apply (mtv_length (length (by_location row s))). split; [reflexivity|apply by_location_rows].
    - intros k. rewrite N, nth_zeros, nth_mtv by apply by_location_rows. cbn [skipn].
      rewrite (by_location_map (fun r => nth k r 0) row s). ring.
  Qed.

  (** The weight numba reads for each datum. *)
  Definition weights_read (w : vec) (s : list rx) : vec :=
    flat_map (fun r => flat_map (fun i => repeat (nth i w 0) (length (fst r))) (seq 0 (length (snd r)))) s.
  Lemma nth_wdiag (M : mat) : Forall (fun r => length r = n) M -> forall w,
    length (weighted_diagonal n M w) = n /\
    forall k, nth k (weighted_diagonal n M w) 0 = dot (map (fun r => nth k r 0 * nth k r 0) M) w.
  Proof.
    induction 1 as [|r M Hr HM IH]; intros w; [split; [apply vzero_length|intros; apply nth_zeros]|].
    destruct w as [|x w]; cbn [weighted_diagonal map dot]; [split; [apply vzero_length|intros; apply nth_zeros]|].
    destruct (IH w) as [L N]. split.
    - rewrite vadd_length; rewrite map_length; lia.
    - intros k. rewrite nth_add by (rewrite map_length; lia). rewrite N, (nth_map0 (fun g => x * (g * g))) by ring. ring.
  Qed.
  Lemma comp_gtg_ok w c locs acc : length acc = n ->
    length (comp_gtg row w c locs acc) = n /\
    forall k, nth k (comp_gtg row w c locs acc) 0
      = nth k acc 0 + vsum (map (fun rl => nth (fst rl) w 0 * (nth k (row c (snd rl)) 0 * nth k (row c (snd rl)) 0)) (combine (seq 0 (length locs)) locs)).
  Proof.
    intros L. unfold comp_gtg.
    destruct (fold_rows n (fun rl : nat * pt => map (fun g => nth (fst rl) w 0 * (g * g)) (row c (snd rl))) (combine (seq 0 (length locs)) locs) acc) as [L1 N1].
    - intros x _. rewrite map_length. apply Hrow.
    - exact L.
    - split; [exact L1|]. intros k. rewrite N1. f_equal. apply vsum_ext_in. intros x _.
      rewrite (nth_map0 (fun g => nth (fst x) w 0 * (g * g))) by ring. reflexivity.
  Qed.
  Lemma dot_repeat (a : vec) x m : dot a (repeat x (length a) ++ m) = vsum (map (fun y => x * y) a).
  Proof. induction a as [|y a IH]; cbn; [reflexivity|]. rewrite IH. ring. Qed.
  Lemma dot_read k w (cs : list Cmp) : forall locs r0,
    dot (flat_map (fun l => map (fun c => nth k (row c l) 0 * nth k (row c l) 0) cs) locs) (flat_map (fun i => repeat (nth i w 0) (length cs)) (seq r0 (length locs)))
    = vsum (map (fun rl => vsum (map (fun c => nth (fst rl) w 0 * (nth k (row c (snd rl)) 0 * nth k (row c (snd rl)) 0)) cs)) (combine (seq r0 (length locs)) locs)).
  Proof.
    induction locs as [|l locs IH]; intros r0; [reflexivity|].
    cbn [flat_map length seq combine map vsum fst snd].
    rewrite dot_app_skip, map_length. rewrite skipn_app, repeat_length, Nat.sub_diag.
    rewrite skipn_all2 by (rewrite repeat_length; lia). cbn [app skipn].
    rewrite IH. f_equal.
    rewrite <- (map_length (fun c => nth k (row c l) 0 * nth k (row c l) 0) cs) at 1. rewrite dot_repeat, map_map. reflexivity.
  Qed.
  Lemma read_length w (r : rx) : length (flat_map (fun i => repeat (nth i w 0) (length (fst r))) (seq 0 (length (snd r)))) = rx_nD r.
  Proof.
    unfold rx_nD. rewrite <- (seq_length (length (snd r)) 0) at 2. generalize (seq 0 (length (snd r))) as l.
    induction l as [|i l IH]; cbn; [lia|]. rewrite app_length, repeat_length, IH. nia.
  Qed.
  Lemma dot_app_same (a a' b b' : vec) : length a = length b -> dot (a ++ a') (b ++ b') = dot a b + dot a' b'.
  Proof. revert b; induction a as [|x a IH]; intros [|y b]; cbn; intros; try lia; [ring|]. rewrite IH by lia. ring. Qed.
  Lemma choclo_gtg_ok w : forall s acc, length acc = n ->
    length (choclo_gtg row w s acc) = n /\
    forall k, nth k (choclo_gtg row w s acc) 0 = nth k acc 0 + dot (by_location (fun c l => nth k (row c l) 0 * nth k (row c l) 0) s) (weights_read w s).
  Proof.
    intros s acc L. unfold choclo_gtg.
    destruct (fold_folds n (fun acc (r : rx) => fold_left (fun acc c => comp_gtg row w c (snd r) acc) (fst r) acc)
      (fun k r => vsum (map (fun c => vsum (map (fun rl => nth (fst rl) w 0 * (nth k (row c (snd rl)) 0 * nth k (row c (snd rl)) 0)) (combine (seq 0 (length (snd r))) (snd r)))) (fst r))) s) with (acc := acc) as [L1 N1].
    - intros r a _ La.
      apply (fold_folds n (fun acc c => comp_gtg row w c (snd r) acc)
        (fun k c => vsum (map (fun rl => nth (fst rl) w 0 * (nth k (row c (snd rl)) 0 * nth k (row c (snd rl)) 0)) (combine (seq 0 (length (snd r))) (snd r))))); [|exact La].
      intros c b _ Lb. apply comp_gtg_ok. exact Lb.
    - exact L.
    - split; [exact L1|]. intros k. rewrite N1. f_equal. clear.
      induction s as [|r s IH]; [reflexivity|].
      cbn [map vsum]. rewrite IH. rewrite by_location_cons. unfold weights_read; cbn [flat_map]. fold (weights_read w s).
      rewrite dot_app_same.
      + f_equal. rewrite dot_read.
        apply (vsum_swap (fun (c : Cmp) (rl : nat * pt) => nth (fst rl) w 0 * (nth k (row c (snd rl)) 0 * nth k (row c (snd rl)) 0))).
      + rewrite read_length. apply (rx_rows_length (fun c l => nth k (row c l) 0 * nth k (row c l) 0)).
  Qed.
  Lemma choclo_gtg_read w s : choclo_gtg row w s (vzero n) = weighted_diagonal n (by_location row s) (weights_read w s).
  Proof.
    destruct (choclo_gtg_ok w s (vzero n) (vzero_length n)) as [L N].
    destruct (nth_wdiag (by_location row s) (by_location_rows s) (weights_read w s)) as [L2 N2].
    apply list_nth_ext; [lia|]. intros k. rewrite N, N2, nth_zeros.
    rewrite (by_location_map (fun r => nth k r 0 * nth k r 0) row s). ring.
  Qed.
  (** Same weight everywhere. *)
  Lemma read_const a m : forall s, (forall r, In r s -> (length (snd r) <= m)%nat) -> weights_read (repeat a m) s = repeat a (survey_nD s).
  Proof.
    induction s as [|r s IH]; intros H; [reflexivity|].
    unfold weights_read in *; cbn [flat_map]. rewrite survey_nD_cons, repeat_app, IH by (intros; apply H; right; assumption).
    f_equal. unfold rx_nD.
    assert (Hm : (length (snd r) <= m)%nat) by (apply H; left; reflexivity).
    assert (G : forall r0, (r0 + length (snd r) <= m)%nat -> flat_map (fun i => repeat (nth i (repeat a m) 0) (length (fst r))) (seq r0 (length (snd r))) = repeat a (length (fst r) * length (snd r))).
    { induction (length (snd r)) as [|q IHq]; intros r0 Hr0; [rewrite Nat.mul_0_r; reflexivity|].
      cbn [seq flat_map]. rewrite IHq by lia.
      assert (E : nth r0 (repeat a m) 0 = a).
      { rewrite (nth_indep _ 0 a) by (rewrite repeat_length; lia). apply nth_repeat. }
      rewrite E, <- repeat_app. f_equal. lia. }
    apply G. lia.
  Qed.
  (** One receiver object with one component. *)
  Lemma read_single w c locs : length w = length locs -> weights_read w [([c], locs)] = w.
  Proof.
    intros L. unfold weights_read; cbn [flat_map fst snd]. rewrite app_nil_r. rewrite <- L. cbn [length].
    assert (G : forall (w1 w2 : vec), flat_map (fun i => repeat (nth i (w1 ++ w2) 0) 1) (seq (length w1) (length w2)) = w2).
    { intros w1 w2; revert w1; induction w2 as [|x w2 IH]; intros w1; [reflexivity|]. cbn [length seq flat_map repeat app].
      rewrite app_nth2, Nat.sub_diag by lia. cbn [nth]. f_equal.
      specialize (IH (w1 ++ [x])). rewrite app_length, Nat.add_1_r, <- app_assoc in IH. exact IH. }
    exact (G [] w).
  Qed.
End T.
