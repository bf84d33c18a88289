(** Facts about discrete topography. *)
From Verif Require Import Py Vec Abmn Drape SpecDrape LinSimFacts.
From Coq Require Import Lia Lra.
Local Open Scope R_scope.

Lemma gmap_nth {A B} (g : A -> B) l i (d : B) (d' : A) : (i < List.length l)%nat -> nth i (map g l) d = g (nth i l d').
Proof. intros H. rewrite (nth_indep _ d (g d')) by (now rewrite map_length). apply map_nth. Qed.
Lemma centres_length h : forall x0, List.length (centres x0 h) = List.length h.
Proof. induction h; intros; cbn; auto. Qed.
Lemma face_S x0 h k : (k < List.length h)%nat -> face x0 h (S k) = face x0 h k + nth k h 0.
Proof.
  unfold face. revert x0 k. induction h as [|w h IH]; intros x0 k L; [cbn in L; lia|]. destruct k; [cbn; lra|].
  cbn [List.length] in L. specialize (IH x0 k ltac:(lia)). rewrite !firstn_cons. cbn [vsum nth]. cbn [vsum] in IH. lra.
Qed.
Lemma face_cons x0 w h k : face x0 (w :: h) (S k) = face (x0 + w) h k.
Proof. unfold face. cbn [firstn vsum]. lra. Qed.
Lemma face_0 x0 h : face x0 h 0 = x0.
Proof. unfold face. cbn. lra. Qed.
Lemma centre_face h : forall x0 k, (k < List.length h)%nat -> nth k (centres x0 h) 0 = (face x0 h k + face x0 h (S k)) / 2.
Proof.
  induction h as [|w h IH]; intros x0 k L; [cbn in L; lia|]. destruct k; cbn [centres nth].
  - rewrite face_cons, !face_0. lra.
  - rewrite !face_cons. apply IH. cbn in L. lia.
Qed.
Lemma face_mono h : thick h -> forall x0 i j, (i < j <= List.length h)%nat -> face x0 h i < face x0 h j.
Proof.
  intros T. induction h as [|w h IH]; intros x0 i j L; [cbn in L; lia|]. destruct j; [lia|]. pose proof (Forall_inv T) as W. cbn beta in W. specialize (IH (Forall_inv_tail T)).
  cbn [List.length] in L. rewrite face_cons. destruct i.
  - rewrite face_0. destruct j; [rewrite face_0; lra|]. specialize (IH (x0 + w) 0%nat (S j) ltac:(lia)). rewrite face_0 in IH. lra.
  - rewrite face_cons. apply IH. lia.
Qed.
Lemma centre_mono h : thick h -> forall x0 i j, (i < j < List.length h)%nat -> nth i (centres x0 h) 0 < nth j (centres x0 h) 0.
Proof.
  intros T x0 i j L. rewrite !centre_face by lia. pose proof (face_mono h T x0 i j ltac:(lia)). pose proof (face_mono h T x0 (S i) (S j) ltac:(lia)). lra.
Qed.

(** The highest of the chosen cells. *)
Lemma highest_in l : forall b, In (highest b l) (b :: l) /\ fst b <= fst (highest b l) /\ Forall (fun p => fst p <= fst (highest b l)) l.
Proof.
  induction l as [|p l IH]; intros b; cbn [highest]; [split; [now left|split; [lra|constructor]]|].
  destruct (Rlt_dec (fst b) (fst p)) as [H|H].
  - destruct (IH p) as (A & B & C). split; [right; exact A|split; [lra|constructor; [exact B|exact C]]].
  - destruct (IH b) as (A & B & C). split; [destruct A as [A|A]; [left; exact A|right; right; exact A]|split; [exact B|constructor; [lra|exact C]]].
Qed.
Lemma chosen_in zc hz a p : List.length hz = List.length zc -> List.length a = List.length zc -> In p (chosen zc hz a) <-> exists k, (k < List.length zc)%nat /\ nth k a false = true /\ p = (nth k zc 0, nth k hz 0).
Proof.
  intros LH LA. unfold chosen. rewrite in_map_iff. split.
  - intros ((q, bb) & E & I). cbn in E. subst q. apply filter_In in I as (I & B). cbn in B. subst bb.
    destruct (In_nth _ _ ((0, 0), false) I) as (k & L & E). rewrite !combine_length in L. exists k. split; [lia|]. rewrite !combine_nth in E by (rewrite ?combine_length; lia). injection E as <- ->. auto.
  - intros (k & L & B & ->). exists ((nth k zc 0, nth k hz 0), true). split; [reflexivity|]. apply filter_In. split; [|reflexivity].
    rewrite <- B. rewrite <- !combine_nth by (rewrite ?combine_length; lia). apply nth_In. rewrite !combine_length. lia.
Qed.
Lemma topo_at_spec cut z0 hz a z : thick hz -> List.length a = List.length hz -> topo_at cut (centres z0 hz) hz a = Ok z ->
  exists k, (k < List.length hz)%nat /\ nth k a false = true /\ (forall k', (k < k' < List.length hz)%nat -> nth k' a false = false) /\
    match cut with Top => z = face z0 hz (S k) | Center => z = (face z0 hz k + face z0 hz (S k)) / 2 | OtherCutoff => False end.
Proof.
  intros T LA H. unfold topo_at in H. destruct (chosen (centres z0 hz) hz a) as [|p l] eqn:E; [discriminate|].
  destruct (highest_in l p) as (I & H1 & H2). rewrite <- E in I. assert (LC : List.length hz = List.length (centres z0 hz)) by (now rewrite centres_length).
  assert (LA' : List.length a = List.length (centres z0 hz)) by (now rewrite centres_length).
  apply (chosen_in _ _ _ _ LC LA') in I as (k & L & B & Q). rewrite centres_length in L. exists k. split; [exact L|split; [exact B|split]].
  - intros k' K. destruct (nth k' a false) eqn:B'; [|reflexivity]. exfalso.
    assert (I : In (nth k' (centres z0 hz) 0, nth k' hz 0) (p :: l)) by (rewrite <- E; apply (chosen_in _ _ _ _ LC LA'); exists k'; rewrite centres_length; repeat split; [lia|exact B']).
    assert (LE : nth k' (centres z0 hz) 0 <= fst (highest p l)).
    { destruct I as [I|I]; [apply (f_equal fst) in I; cbn [fst] in I; rewrite <- I; exact H1|]. rewrite Forall_forall in H2. exact (H2 _ I). }
    rewrite Q in LE. cbn [fst] in LE. pose proof (centre_mono hz T z0 k k' ltac:(lia)). lra.
  - cbn zeta in H. rewrite Q in H. cbn [fst snd] in H. rewrite (centre_face hz z0 k L) in H.
    destruct cut; [| |discriminate]; injection H as <-; [|reflexivity]. rewrite (face_S z0 hz k L). lra.
Qed.
Lemma topo_at_ok cut z0 hz a : List.length a = List.length hz -> (exists k, (k < List.length hz)%nat /\ nth k a false = true) -> cut <> OtherCutoff -> exists z, topo_at cut (centres z0 hz) hz a = Ok z.
Proof.
  intros LA (k & L & B) C. unfold topo_at. destruct (chosen (centres z0 hz) hz a) as [|p l] eqn:E; [|destruct cut; eauto; congruence].
  exfalso. assert (I : In (nth k (centres z0 hz) 0, nth k hz 0) []); [|destruct I]. rewrite <- E. apply chosen_in; rewrite ?centres_length; eauto.
Qed.
Lemma topo_at_none cut z0 hz a : List.length a = List.length hz -> (forall k, (k < List.length hz)%nat -> nth k a false = false) -> topo_at cut (centres z0 hz) hz a = Err ValueError.
Proof.
  intros LA N. unfold topo_at. destruct (chosen (centres z0 hz) hz a) as [|p l] eqn:E; [reflexivity|]. exfalso.
  assert (I : In p (chosen (centres z0 hz) hz a)) by (rewrite E; now left). apply chosen_in in I; rewrite ?centres_length; try lia. destruct I as (k & L & B & _). rewrite centres_length in L. rewrite (N k L) in B. discriminate.
Qed.
Lemma col_active_nth nc nz b i k : (k < nz)%nat -> nth k (col_active nc nz b i) false = nth (i + nc * k) b false.
Proof. intros K. unfold col_active. rewrite (gmap_nth _ (seq 0 nz) k false 0%nat) by (now rewrite seq_length). now rewrite seq_nth. Qed.
Lemma col_active_length nc nz b i : List.length (col_active nc nz b i) = nz.
Proof. unfold col_active. now rewrite map_length, seq_length. Qed.

Section Topo.
Variables (m : tmesh) (b : list bool) (cut : cutoff).
Hypothesis T : thick (m_hz m).
Let nc := List.length (horizontal m).
Let nz := List.length (m_hz m).
Lemma topography_rows Ts : get_topography m (ABool b) cut = Ok Ts -> List.length Ts = nc /\ map fst Ts = horizontal m /\
  forall i, (i < nc)%nat -> match cut with Top => surface_of m b i (snd (nth i Ts ([], 0))) | Center => surface_centre m b i (snd (nth i Ts ([], 0))) | OtherCutoff => False end.
Proof.
  intros H. unfold get_topography in H. destruct (negb _); [discriminate|]. fold nc nz in H.
  assert (L : List.length Ts = nc) by (rewrite (mapM_ok_length _ _ _ H); apply seq_length).
  assert (ROW : forall i, (i < nc)%nat -> exists z, topo_at cut (centres (m_z0 m) (m_hz m)) (m_hz m) (col_active nc nz b i) = Ok z /\ nth i Ts ([], 0) = (nth i (horizontal m) [], z)).
  { intros i I. destruct (mapM_ok_nth _ _ _ i i H) as (y & Y1 & Y2); [rewrite (nth_error_nth' _ 0%nat) by (now rewrite seq_length); now rewrite seq_nth|].
    destruct (topo_at _ _ _ _) as [z|]; [|discriminate]. cbn in Y2. injection Y2 as <-. exists z. split; [reflexivity|]. now apply nth_error_nth with (d := ([], 0)) in Y1. }
  split; [exact L|split].
  - apply nth_ext with (d := []) (d' := []); [rewrite map_length; exact L|]. intros i I. rewrite map_length, L in I. rewrite (gmap_nth fst Ts i [] ([], 0)) by lia. destruct (ROW i I) as (z & _ & ->). reflexivity.
  - intros i I. destruct (ROW i I) as (z & Z & ->). cbn [snd]. apply topo_at_spec in Z; [|exact T|apply col_active_length]. destruct Z as (k & K & A & U & Z). fold nz in K, U.
    assert (HA : highest_active m b i k).
    { split; [exact K|split]; [unfold is_active; fold nc; now rewrite <- (col_active_nth nc nz b i k K)|]. intros k' K'. unfold is_active. fold nc. rewrite <- (col_active_nth nc nz b i k') by (apply K'). rewrite U by exact K'. discriminate. }
    destruct cut; [exists k; auto|exists k; auto|exact Z].
Qed.
Lemma topography_accepted : cut <> OtherCutoff -> (exists Ts, get_topography m (ABool b) cut = Ok Ts) <-> List.length b = (nc * nz)%nat /\ forall i, (i < nc)%nat -> some_active m b i.
Proof.
  intros C. unfold get_topography. fold nc nz. destruct (Nat.eqb_spec (List.length b) (nc * nz)) as [E|E]; cbn [negb].
  2:{ split; [intros (? & ?); discriminate|intros (? & _); contradiction]. }
  split.
  - intros (Ts & H). split; [exact E|]. intros i I. destruct (mapM_ok_nth _ _ _ i i H) as (y & Y1 & Y2); [rewrite (nth_error_nth' _ 0%nat) by (now rewrite seq_length); now rewrite seq_nth|].
    destruct (topo_at _ _ _ _) as [z|] eqn:Z; [|discriminate]. apply topo_at_spec in Z; [|exact T|apply col_active_length]. destruct Z as (k & K & A & _). exists k. split; [exact K|]. unfold is_active. fold nc. now rewrite <- (col_active_nth nc nz b i k K).
  - intros (_ & A).
    assert (X : forall l, (forall i, In i l -> (i < nc)%nat) -> exists Ts, mapM (fun i => do z <- topo_at cut (centres (m_z0 m) (m_hz m)) (m_hz m) (col_active nc nz b i); Ok (nth i (horizontal m) [], z)) l = Ok Ts).
    { induction l as [|i l IH]; intros H; [cbn; eauto|]. cbn [mapM].
      destruct (topo_at_ok cut (m_z0 m) (m_hz m) (col_active nc nz b i)) as (z & ->); [apply col_active_length| |exact C|].
      - destruct (A i (H i (or_introl eq_refl))) as (k & K & AA). exists k. split; [exact K|]. rewrite col_active_nth by exact K. exact AA.
      - cbn [bind]. destruct IH as (Ts & ->); [intros j J; apply H; now right|]. cbn. eauto. }
    apply X. intros i I. apply in_seq in I. lia.
Qed.
End Topo.
Lemma topography_indices m l cut : List.length l <> (List.length (horizontal m) * List.length (m_hz m))%nat -> get_topography m (AInt l) cut = Err ValueError.
Proof. intros H. unfold get_topography. destruct (Nat.eqb_spec (List.length l) (List.length (horizontal m) * List.length (m_hz m))); [contradiction|reflexivity]. Qed.

(** The nearest column. *)
Lemma argmin_first ds : forall best bd i, (argmin best bd i ds = best \/ exists k, (k < List.length ds)%nat /\ argmin best bd i ds = (i + k)%nat /\ nth k ds 0 < bd) /\
  forall k, (k < List.length ds)%nat -> nth k ds 0 < bd -> (forall j, (j < List.length ds)%nat -> j <> k -> nth k ds 0 < nth j ds 0) -> argmin best bd i ds = (i + k)%nat.
Proof.
  induction ds as [|d ds IH]; intros best bd i; cbn [argmin List.length]; [split; [now left|intros; lia]|].
  destruct (Rlt_dec d bd) as [H|H].
  - destruct (IH i d (S i)) as (A & B). split.
    + right. destruct A as [A|(k & K & A & L)]; [exists 0%nat; rewrite A; repeat split; cbn; lia || lra|exists (S k); rewrite A; repeat split; cbn; lia || lra].
    + intros [|k] K L M; cbn [nth] in *.
      * destruct A as [A|(k & K' & A & L')]; [rewrite A; lia|]. pose proof (M (S k) ltac:(lia) ltac:(lia)). cbn in H0. lra.
      * rewrite (B k); [lia|lia| |]; [pose proof (M 0%nat ltac:(lia) ltac:(lia)); cbn in H0; lra|]. intros j J N. exact (M (S j) ltac:(lia) ltac:(lia)).
  - destruct (IH best bd (S i)) as (A & B). split.
    + destruct A as [A|(k & K & A & L)]; [now left|right; exists (S k); rewrite A; repeat split; cbn; lia || lra].
    + intros [|k] K L M; cbn [nth] in *; [lra|]. rewrite (B k); [lia|lia|exact L|]. intros j J N. exact (M (S j) ltac:(lia) ltac:(lia)).
Qed.
Lemma argmin0_unique ds k : (k < List.length ds)%nat -> (forall j, (j < List.length ds)%nat -> j <> k -> nth k ds 0 < nth j ds 0) -> argmin0 ds = k.
Proof.
  intros K M. destruct ds as [|d ds]; [cbn in K; lia|]. cbn [argmin0]. destruct (argmin_first ds 0%nat d 1%nat) as (A & B). cbn [List.length] in *. destruct k.
  - destruct A as [A|(k & K' & A & L)]; [exact A|]. pose proof (M (S k) ltac:(lia) ltac:(lia)). cbn in H. lra.
  - rewrite (B k); [lia|lia|exact (M 0%nat ltac:(lia) ltac:(lia))|]. intros j J N. exact (M (S j) ltac:(lia) ltac:(lia)).
Qed.
Lemma closest_unique grid p k : (2 <= List.length grid \/ exists x, p = [x])%nat -> (k < List.length grid)%nat -> (forall j, (j < List.length grid)%nat -> j <> k -> dist2 (nth k grid []) p < dist2 (nth j grid []) p) -> closest grid p = Ok k.
Proof.
  intros G K M. assert (E : argmin0 (map (fun g => dist2 g p) grid) = k).
  { apply argmin0_unique; [now rewrite map_length|]. intros j J N. rewrite map_length in J. rewrite !(gmap_nth (fun g => dist2 g p) grid _ 0 []) by assumption. now apply M. }
  unfold closest. rewrite E. destruct grid as [|g1 [|g2 gg]]; [reflexivity| |destruct g1 as [|? [|? [|]]]; reflexivity].
  destruct G as [G|(x & ->)]; [cbn in G; lia|]. destruct g1 as [|? [|? [|]]]; reflexivity.
Qed.
