(** Splitting a survey into lines: whole lines. *)
From Verif Require Import Py Vec Abmn SpecAbmn AbmnFacts Lines2d SpecLines2d Lines2dFacts Lines2dFacts2.
From Coq Require Import ZArith Permutation Sorted.
Local Open Scope R_scope.

Lemma nodup_map {A B} (f : A -> B) l : (forall x y, In x l -> In y l -> f x = f y -> x = y) -> NoDup l -> NoDup (map f l).
Proof.
  intros I N. induction N as [|x l Hx N IH]; [constructor|]. cbn. constructor.
  - intros H. apply in_map_iff in H. destruct H as (y & E & Hy). apply Hx. rewrite (I x y); auto; [left; reflexivity|right; exact Hy].
  - apply IH. intros a b Ha Hb. apply I; right; assumption.
Qed.
Section Whole.
Variable rows : list quad.
Variable ids : list Z.
Variable z : Z.
Hypothesis A3 : all3 rows.
Hypothesis L : len ids = len rows.
Hypothesis Iz : In z ids.
Notation idx := (line_index ids z).
Notation lr := (line_rows rows idx).
Notation fs := (line_firsts lr).
Notation r0 := (line_r0 lr).
Notation rN := (line_rN lr).
Notation u := (line_u lr).
Notation pr := (map (project_row r0 u) lr).
Lemma len_lr : len lr = len idx.
Proof. apply map_length. Qed.
Lemma len_pr : len pr = len idx.
Proof. rewrite map_length. apply len_lr. Qed.
Lemma idx_on j : (j < len idx)%nat -> on_line ids z (nth j idx 0%nat).
Proof. intros H. apply line_index_in, nth_In, H. Qed.
Lemma idx_pos : (0 < len idx)%nat.
Proof.
  destruct (In_nth _ _ 0%Z Iz) as (j & Hj & E). assert (H : In j idx) by (apply line_index_in; split; assumption). destruct idx; [destruct H|cbn; lia].
Qed.
Lemma row_lr j : (j < len idx)%nat -> row lr j = row rows (nth j idx 0%nat).
Proof. intros H. unfold row at 1, line_rows. rewrite (nth_indep _ _ (row rows 0%nat)) by (rewrite map_length; exact H). apply map_nth. Qed.
Lemma row_pr j : (j < len idx)%nat -> row pr j = project_row r0 u (row lr j).
Proof. intros H. unfold row at 1. rewrite (nth_indep _ _ (project_row r0 u {| qa := []; qb := []; qm := []; qn := [] |})) by (rewrite len_pr; exact H). apply (map_nth (project_row r0 u)). Qed.
Lemma key_lr j : (j < len idx)%nat -> nth j (map pair_key lr) [] = ab (row rows (nth j idx 0%nat)).
Proof. intros H. rewrite <- row_lr by exact H. rewrite (nth_indep _ _ (pair_key {| qa := []; qb := []; qm := []; qn := [] |})) by (rewrite map_length, len_lr; exact H). apply (map_nth pair_key). Qed.
Lemma len_keys : len (map pair_key lr) = len idx.
Proof. rewrite map_length. apply len_lr. Qed.
Lemma fs_lt i : In i fs -> (i < len idx)%nat.
Proof. intros H. apply uidx_lt in H. now rewrite len_keys in H. Qed.
Lemma row3 j : (j < len rows)%nat -> len (qa (row rows j)) = 3%nat /\ len (qb (row rows j)) = 3%nat /\ len (qm (row rows j)) = 3%nat /\ len (qn (row rows j)) = 3%nat.
Proof. intros H. unfold all3 in A3. rewrite Forall_forall in A3. apply A3. apply nth_In, H. Qed.
Lemma on_lt j : on_line ids z j -> (j < len rows)%nat.
Proof. intros [H _]. now rewrite <- L. Qed.
Lemma idx_lt j : (j < len idx)%nat -> (nth j idx 0 < len rows)%nat.
Proof. intros H. apply on_lt, idx_on, H. Qed.
Lemma ab_inj i j : (i < len rows)%nat -> (j < len rows)%nat -> ab (row rows i) = ab (row rows j) -> qa (row rows i) = qa (row rows j) /\ qb (row rows i) = qb (row rows j).
Proof.
  intros Hi Hj. unfold ab. destruct (row3 i Hi) as (La & _), (row3 j Hj) as (La' & _).
  destruct (qa (row rows i)) as [|a [|b [|c [|]]]]; try discriminate. destruct (qa (row rows j)) as [|a' [|b' [|c' [|]]]]; try discriminate. cbn. intros E. injection E as -> -> -> E. auto.
Qed.
Definition fj : nat := nth (hd 0%nat fs) idx 0%nat.
Definition lj : nat := nth (last fs 0%nat) idx 0%nat.
Lemma fs_hd : In (hd 0%nat fs) fs.
Proof. apply (uidx_hd (map pair_key lr) 0%nat). rewrite len_keys. apply idx_pos. Qed.
Lemma fs_last : In (last fs 0%nat) fs.
Proof. apply (uidx_last (map pair_key lr) 0%nat). rewrite len_keys. apply idx_pos. Qed.
Lemma r0_eq : r0 = plan (qa (row rows fj)).
Proof. unfold line_r0. rewrite row_lr by apply fs_lt, fs_hd. apply xy_plan. apply row3, idx_lt, fs_lt, fs_hd. Qed.
Lemma rN_eq : rN = plan (qa (row rows lj)).
Proof. unfold line_rN. rewrite row_lr by apply fs_lt, fs_last. apply xy_plan. apply row3, idx_lt, fs_lt, fs_last. Qed.
Lemma len_r0 : len r0 = 2%nat. Proof. rewrite r0_eq. reflexivity. Qed.
Lemma len_rN : len rN = 2%nat. Proof. rewrite rN_eq. reflexivity. Qed.
Lemma u_eq : u = vscale (/ distance r0 rN) (vsub rN r0).
Proof. unfold line_u. rewrite norm_distance, (distance_sym rN r0) by now rewrite len_r0, len_rN. reflexivity. Qed.
Lemma len_u : len u = 2%nat.
Proof. rewrite u_eq, r0_eq, rN_eq. reflexivity. Qed.
Lemma on_idx j : on_line ids z j -> exists k, (k < len idx)%nat /\ nth k idx 0%nat = j.
Proof. intros H. apply line_index_in in H. apply In_nth, H. Qed.
Lemma ab_len i j : (i < len rows)%nat -> (j < len rows)%nat -> len (ab (row rows i)) = len (ab (row rows j)).
Proof. intros Hi Hj. unfold ab. rewrite !app_length. destruct (row3 i Hi) as (-> & -> & _), (row3 j Hj) as (-> & -> & _). reflexivity. Qed.
Lemma order j : on_line ids z j -> (ab (row rows fj) = ab (row rows j) \/ before (ab (row rows fj)) (ab (row rows j))) /\
                                (ab (row rows j) = ab (row rows lj) \/ before (ab (row rows j)) (ab (row rows lj))).
Proof.
  intros Hj. destruct (on_idx j Hj) as (k & Hk & <-).
  assert (Hk' : (k < len (map pair_key lr))%nat) by now rewrite len_keys.
  destruct (uidx_hd _ k Hk') as [_ Q1]. destruct (uidx_last _ k Hk') as [_ Q2].
  change (uidx (map pair_key lr)) with fs in *.
  rewrite (key_lr _ (fs_lt _ fs_hd)), (key_lr k Hk) in Q1. rewrite (key_lr _ (fs_lt _ fs_last)), (key_lr k Hk) in Q2. fold fj in Q1. fold lj in Q2.
  assert (B1 : (fj < len rows)%nat) by apply idx_lt, fs_lt, fs_hd. assert (B2 : (lj < len rows)%nat) by apply idx_lt, fs_lt, fs_last. pose proof (idx_lt k Hk) as B3.
  split; [destruct Q1 as [Q|Q]; [left; exact Q|right; apply lex_before; [apply ab_len; assumption|exact Q]]|destruct Q2 as [Q|Q]; [left; exact Q|right; apply lex_before; [apply ab_len; assumption|exact Q]]].
Qed.
Lemma frame_ok : distance r0 rN <> 0 -> frame rows ids z r0 u.
Proof.
  intros D. exists fj, lj. split; [apply idx_on, fs_lt, fs_hd|]. split; [apply idx_on, fs_lt, fs_last|]. split; [exact order|]. split; [exact r0_eq|]. rewrite <- rN_eq. split.
  - pose proof (sqrt_pos (dot (vsub r0 rN) (vsub r0 rN))) as P. unfold distance in *. destruct P as [P|P]; [exact P|congruence].
  - exact u_eq.
Qed.
Lemma proj_prof v : len v = 3%nat -> project r0 u v = profile r0 u v.
Proof. intros H. apply project_profile; [exact H|exact len_r0|exact len_u]. Qed.
Lemma row_profile j : (j < len idx)%nat -> row pr j = profile_row r0 u (row rows (nth j idx 0%nat)).
Proof. intros H. rewrite row_pr, row_lr by exact H. unfold project_row, profile_row. destruct (row3 _ (idx_lt j H)) as (H1 & H2 & H3 & H4). rewrite !proj_prof by assumption. reflexivity. Qed.
Lemma same_s_iff i j : (i < len idx)%nat -> (j < len idx)%nat -> same_s pr i j = true <->
  together (hd 0 (profile r0 u (qa (row rows (nth j idx 0%nat))))) (hd 0 (profile r0 u (qa (row rows (nth i idx 0%nat))))) /\
  together (hd 0 (profile r0 u (qb (row rows (nth j idx 0%nat))))) (hd 0 (profile r0 u (qb (row rows (nth i idx 0%nat))))).
Proof. intros Hi Hj. unfold same_s. rewrite andb_true_iff, !close1_iff, !row_profile by assumption. reflexivity. Qed.
Lemma source_for j : (j < len idx)%nat -> exists i, In i fs /\ same_s pr i j = true.
Proof.
  intros Hj. destruct (uidx_exists (map pair_key lr) j) as (i & Hi & E); [now rewrite len_keys|]. change (uidx (map pair_key lr)) with fs in Hi. pose proof (fs_lt i Hi) as Li. rewrite !key_lr in E by assumption.
  apply ab_inj in E; [|apply idx_lt; assumption|apply idx_lt; assumption]. destruct E as [E1 E2]. exists i. split; [exact Hi|]. apply same_s_iff; [assumption|assumption|]. rewrite E1, E2. split; apply close1_iff, close1_refl.
Qed.
Definition out := map (fun j => nth j idx 0%nat) (l_out pr fs).
Lemma out_members j : In j out <-> on_line ids z j.
Proof.
  unfold out. rewrite in_map_iff. split.
  - intros (k & <- & Hk). apply l_out_lt in Hk. rewrite len_pr in Hk. apply idx_on, Hk.
  - intros H. destruct (on_idx j H) as (k & Hk & <-). exists k. split; [reflexivity|]. apply l_out_in; [apply source_for, Hk|]. now rewrite len_pr.
Qed.
Section Apart.
Hypothesis D : distance r0 rN <> 0.
Hypothesis Ap : pairs_apart rows ids z.
Lemma same_ab i j : (i < len idx)%nat -> (j < len idx)%nat -> same_s pr i j = true -> qa (row rows (nth i idx 0%nat)) = qa (row rows (nth j idx 0%nat)) /\ qb (row rows (nth i idx 0%nat)) = qb (row rows (nth j idx 0%nat)).
Proof.
  intros Hi Hj S. apply same_s_iff in S; [|assumption|assumption].
  destruct (list_eq_dec Req_EM_T (qa (row rows (nth i idx 0%nat))) (qa (row rows (nth j idx 0%nat)))) as [E1|E1], (list_eq_dec Req_EM_T (qb (row rows (nth i idx 0%nat))) (qb (row rows (nth j idx 0%nat)))) as [E2|E2]; [auto| | |];
    exfalso; apply (Ap r0 u (frame_ok D) (nth j idx 0%nat) (nth i idx 0%nat) (idx_on j Hj) (idx_on i Hi)); [congruence|exact S|congruence|exact S|congruence|exact S].
Qed.
Lemma nodup_out : NoDup out.
Proof.
  unfold out. apply nodup_map.
  - intros i j Hi Hj E. apply l_out_lt in Hi. apply l_out_lt in Hj. rewrite len_pr in *. apply (NoDup_nth idx 0%nat); [apply line_index_nodup|assumption|assumption|exact E].
  - apply l_nodup; [apply uidx_nodup|]. intros i i' j Hi Hi' Hj S S'. rewrite len_pr in Hj. pose proof (fs_lt i Hi) as Li. pose proof (fs_lt i' Hi') as Li'.
    apply same_ab in S; [|assumption|assumption]. apply same_ab in S'; [|assumption|assumption]. apply (uidx_differ (map pair_key lr)); [exact Hi|exact Hi'|]. rewrite !key_lr by assumption.
    unfold ab. destruct S as [-> ->], S' as [-> ->]. reflexivity.
Qed.
Lemma electrodes_line : Forall2 recorded (locations (map (l_source pr) fs)) (map (fun j => profile_row r0 u (row rows j)) out).
Proof.
  unfold out. rewrite map_map. pose proof (l_pairs pr fs) as F. assert (B : forall j, In j (l_out pr fs) -> (j < len idx)%nat) by (intros j Hj; apply l_out_lt in Hj; now rewrite len_pr in Hj).
  induction F as [|q j l l' (i & Hi & S & ->) F IH]; [constructor|]. cbn [map]. constructor; [|apply IH; intros k Hk; apply B; right; exact Hk].
  pose proof (B j (or_introl eq_refl)) as Hj. pose proof (fs_lt i Hi) as Li. rewrite <- row_profile by exact Hj. apply same_ab in S; [|assumption|assumption].
  assert (E : lview pr i j = view pr j j).
  { unfold lview, view. rewrite !row_profile by assumption. cbn. destruct S as [-> ->]. reflexivity. }
  rewrite E. apply view_recorded.
Qed.
End Apart.
Lemma line_cases : line rows idx = if Req_EM_T (distance r0 rN) 0 then Lost (len fs) else Line (map (l_source pr) fs) out.
Proof. unfold line. rewrite norm_distance, (distance_sym rN r0) by now rewrite len_r0, len_rN. reflexivity. Qed.
(** Two pairs at the same position: the data of the one are also reported under the other. *)
Lemma rep j : (j < len idx)%nat -> exists i, In i fs /\ qa (row rows (nth i idx 0%nat)) = qa (row rows (nth j idx 0%nat)) /\ qb (row rows (nth i idx 0%nat)) = qb (row rows (nth j idx 0%nat)).
Proof.
  intros Hj. destruct (uidx_exists (map pair_key lr) j) as (i & Hi & E); [now rewrite len_keys|]. change (uidx (map pair_key lr)) with fs in Hi. pose proof (fs_lt i Hi) as Li. rewrite !key_lr in E by assumption.
  apply ab_inj in E; [|apply idx_lt; assumption|apply idx_lt; assumption]. exists i. auto.
Qed.
Lemma reported i j : on_line ids z i -> on_line ids z j ->
  together (hd 0 (profile r0 u (qa (row rows i)))) (hd 0 (profile r0 u (qa (row rows j)))) -> together (hd 0 (profile r0 u (qb (row rows i)))) (hd 0 (profile r0 u (qb (row rows j)))) ->
  exists q, In (q, i) (combine (locations (map (l_source pr) fs)) out) /\ qa q = profile r0 u (qa (row rows j)) /\
    second (profile r0 u (qa (row rows j))) (profile r0 u (qb (row rows j))) (qb q) /\ qm q = profile r0 u (qm (row rows i)) /\ second (profile r0 u (qm (row rows i))) (profile r0 u (qn (row rows i))) (qn q).
Proof.
  intros Hi Hj Ta Tb. destruct (on_idx i Hi) as (k & Hk & <-). destruct (on_idx j Hj) as (k' & Hk' & <-). destruct (rep k' Hk') as (f & Hf & Ea & Eb). pose proof (fs_lt f Hf) as Lf.
  assert (S : same_s pr f k = true) by (apply same_s_iff; [assumption|assumption|]; rewrite Ea, Eb; split; assumption).
  exists (lview pr f k). split.
  - unfold out. rewrite l_locations. unfold l_out.
    assert (G : forall l, In f l -> In (lview pr f k, nth k idx 0%nat) (combine (flat_map (fun i => map (lview pr i) (lmembers pr i)) l) (map (fun j => nth j idx 0%nat) (flat_map (fun i => l_poles pr i ++ l_dipoles pr i) l)))).
    { assert (Cm : forall (A B : Type) (a b : list A) (c d : list B), len a = len c -> combine (a ++ b) (c ++ d) = combine a c ++ combine b d).
      { intros A B a. induction a as [|x a IH]; intros b [|y c] d Q; try discriminate; [reflexivity|]. cbn. f_equal. apply IH. cbn in Q. lia. }
      intros l. induction l as [|g l IH]; intros Hl; [destruct Hl|]. cbn [flat_map]. rewrite map_app. fold (lmembers pr g). rewrite Cm by now rewrite !map_length. apply in_or_app. destruct Hl as [->|Hl]; [left|right; apply IH, Hl].
      assert (M : In k (lmembers pr f)) by (apply lmembers_in; rewrite len_pr; auto). induction (lmembers pr f) as [|y m IHm]; [destruct M|]. cbn. destruct M as [->|M]; [left; reflexivity|right; apply IHm, M]. }
    apply G, Hf.
  - unfold lview, pole_rx. rewrite !row_profile by assumption. cbn [profile_row qa qb qm qn]. rewrite Ea, Eb. split; [reflexivity|]. unfold second. split; [|split; [reflexivity|]].
    + destruct (closev _ _) eqn:E; [left; split; [apply close_iff, E|reflexivity]|right; split; [intros M; apply close_iff in M; congruence|reflexivity]].
    + destruct (closev _ _) eqn:E; [left; split; [apply close_iff, E|reflexivity]|right; split; [intros M; apply close_iff in M; congruence|reflexivity]].
Qed.
Lemma apart_out i j : NoDup out -> on_line ids z i -> on_line ids z j -> (qa (row rows i), qb (row rows i)) <> (qa (row rows j), qb (row rows j)) ->
  together (hd 0 (profile r0 u (qa (row rows i)))) (hd 0 (profile r0 u (qa (row rows j)))) -> together (hd 0 (profile r0 u (qb (row rows i)))) (hd 0 (profile r0 u (qb (row rows j)))) -> False.
Proof.
  intros N Hi Hj Ne Ta Tb. destruct (on_idx i Hi) as (k & Hk & <-). destruct (on_idx j Hj) as (k' & Hk' & <-). destruct (rep k' Hk') as (f & Hf & Ea & Eb). destruct (rep k Hk) as (g & Hg & Ga & Gb).
  pose proof (fs_lt f Hf) as Lf. pose proof (fs_lt g Hg) as Lg.
  assert (S : In k (lmembers pr f)) by (apply lmembers_in; rewrite len_pr; split; [exact Hk|]; apply same_s_iff; [assumption|assumption|]; rewrite Ea, Eb; split; assumption).
  assert (S' : In k (lmembers pr g)) by (apply lmembers_in; rewrite len_pr; split; [exact Hk|]; apply same_s_iff; [assumption|assumption|]; rewrite Ga, Gb; split; apply close1_iff, close1_refl).
  assert (E : f = g).
  { apply (concat_same (lmembers pr) fs) with (x := k); try assumption. unfold out in N. apply NoDup_map_inv in N. exact N. }
  subst g. apply Ne. congruence.
Qed.
End Whole.
