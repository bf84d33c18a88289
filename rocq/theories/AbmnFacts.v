(** Surveys from electrode tables: the order and the electrodes. *)
From Verif Require Import Py Vec Abmn SpecAbmn.
From Coq Require Import Permutation.
Local Open Scope R_scope.

Notation len := List.length.
Lemma self_zero x : dot (vsub x x) (vsub x x) = 0.
Proof. induction x as [|a x IH]; [reflexivity|]. cbn in *. unfold dot, vsub in *. cbn in *. rewrite IH. ring. Qed.
Lemma near_self x : near x x = true.
Proof. unfold near. rewrite self_zero, sqrt_0. destruct (Rlt_dec 0 (/ 1000)); [reflexivity|]. exfalso. apply n. lra. Qed.
Lemma near_iff x y : near x y = true <-> distance x y < / 1000.
Proof. unfold near, distance. destruct (Rlt_dec _ _); split; try reflexivity; try discriminate; auto; contradiction. Qed.
Lemma close_iff x y : closev x y = true <-> merged x y.
Proof.
  unfold closev, merged. rewrite forallb_forall, Forall_forall. split; intros H p Hp; specialize (H p Hp).
  - unfold close1 in H. destruct (Rle_dec _ _) as [L|]; [exact L|discriminate].
  - unfold close1. destruct (Rle_dec _ _); [reflexivity|contradiction].
Qed.
Lemma vec_eqb_iff x y : vec_eqb x y = true <-> x = y.
Proof. unfold vec_eqb. destruct (list_eq_dec Req_EM_T x y); split; congruence. Qed.

(** Concatenations without repetition. *)
Lemma concat_same {A B} (g : A -> list B) us : NoDup (flat_map g us) -> forall u v x, In u us -> In v us -> In x (g u) -> In x (g v) -> u = v.
Proof.
  induction us as [|w us IH]; intros N u v x Hu Hv Xu Xv; [destruct Hu|]. cbn in N. assert (N2 : NoDup (flat_map g us)).
  { clear - N. induction (g w) as [|y l IHl]; [exact N|]. inversion N; auto. }
  assert (D : forall y, In y (g w) -> In y (flat_map g us) -> False).
  { clear - N. induction (g w) as [|z l IHl]; intros y Hy Hf; [destruct Hy|]. inversion N as [|? ? Hz Hl]; subst. destruct Hy as [->|Hy]; [apply Hz, in_or_app; right; exact Hf|apply (IHl Hl y Hy Hf)]. }
  destruct Hu as [<-|Hu], Hv as [<-|Hv]; try reflexivity.
  - exfalso. apply (D x Xu). apply in_flat_map. exists v. split; assumption.
  - exfalso. apply (D x Xv). apply in_flat_map. exists u. split; assumption.
  - apply (IH N2 u v x); assumption.
Qed.
Lemma concat_nodup {A B} (g : A -> list B) us : NoDup us -> (forall u, In u us -> NoDup (g u)) -> (forall u v x, In u us -> In v us -> In x (g u) -> In x (g v) -> u = v) -> NoDup (flat_map g us).
Proof.
  induction us as [|w us IH]; intros N G D; [constructor|]. inversion N as [|? ? Nw Nu]; subst. cbn.
  assert (Nf : NoDup (flat_map g us)) by (apply IH; [exact Nu|intros u Hu; apply G; right; exact Hu|intros u v x Hu Hv; apply D; right; assumption]).
  assert (Nw' : NoDup (g w)) by (apply G; left; reflexivity).
  assert (Dis : forall x, In x (g w) -> ~ In x (flat_map g us)).
  { intros x Hx Hf. apply in_flat_map in Hf. destruct Hf as (v & Hv & Xv). assert (E : w = v) by (apply (D w v x); [left; reflexivity|right; exact Hv|exact Hx|exact Xv]). subst v. contradiction. }
  clear - Nf Nw' Dis. induction (g w) as [|y l IHl]; [exact Nf|]. inversion Nw'; subst. cbn. constructor.
  - intros Hin. apply in_app_or in Hin. destruct Hin as [Hin|Hin]; [contradiction|]. apply (Dis y); [left; reflexivity|exact Hin].
  - apply IHl; [assumption|]. intros x Hx. apply Dis. right. exact Hx.
Qed.
Lemma filter_split {A} (p : A -> bool) l : Permutation (filter p l ++ filter (fun x => negb (p x)) l) l.
Proof.
  induction l as [|x l IH]; [constructor|]. cbn. destruct (p x); cbn; [constructor; exact IH|]. symmetry. apply Permutation_cons_app. symmetry. exact IH.
Qed.
Lemma flat_map_perm {A B} (f g : A -> list B) l : (forall x, Permutation (f x) (g x)) -> Permutation (flat_map f l) (flat_map g l).
Proof. intros H. induction l as [|x l IH]; [constructor|]. cbn. apply Permutation_app; [apply H|exact IH]. Qed.

Section Rows.
Variable rows : list quad.
Notation n := (len rows).
Definition members (i : nat) : list nat := poles rows i ++ dipoles rows i.
Lemma members_perm i : Permutation (members i) (rx_index rows i).
Proof. apply filter_split. Qed.
Lemma members_in i j : In j (members i) <-> (j < n)%nat /\ near_pair rows i j = true.
Proof.
  split; intros H.
  - apply (Permutation_in _ (members_perm i)) in H. unfold rx_index in H. apply filter_In in H. destruct H as [H1 H2]. apply in_seq in H1. split; [lia|exact H2].
  - apply (Permutation_in _ (Permutation_sym (members_perm i))). unfold rx_index. apply filter_In. destruct H. split; [apply in_seq; lia|assumption].
Qed.
Lemma same_iff i j : same_pair rows i j = true <-> qa (row rows i) = qa (row rows j) /\ qb (row rows i) = qb (row rows j).
Proof. unfold same_pair. rewrite andb_true_iff, !vec_eqb_iff. reflexivity. Qed.
Lemma first_exists j : (j < n)%nat -> exists i, In i (firsts rows) /\ (i <= j)%nat /\ same_pair rows i j = true.
Proof.
  induction j as [j IH] using lt_wf_ind. intros Hj. destruct (first_of_pair rows j) eqn:E.
  - exists j. split; [apply filter_In; split; [apply in_seq; lia|exact E]|]. split; [lia|]. apply same_iff. split; reflexivity.
  - assert (X : exists k, In k (seq 0 j) /\ same_pair rows k j = true).
    { unfold first_of_pair in E. clear IH. induction (seq 0 j) as [|k l IHl]; [discriminate|]. cbn in E. destruct (same_pair rows k j) eqn:Ek.
      - exists k. split; [left; reflexivity|exact Ek].
      - cbn in E. destruct (IHl E) as (k' & Hk & Sk). exists k'. split; [right; exact Hk|exact Sk]. }
    destruct X as (k & Hk & Sk). apply in_seq in Hk. destruct (IH k) as (i & Hi & Li & Si); [lia|lia|]. exists i. split; [exact Hi|]. split; [lia|].
    apply same_iff in Sk. apply same_iff in Si. apply same_iff. destruct Sk, Si. split; congruence.
Qed.
Lemma same_near i j : same_pair rows i j = true -> near_pair rows i j = true.
Proof. intros H. apply same_iff in H. destruct H as [H1 H2]. unfold near_pair. rewrite H1, H2, !near_self. reflexivity. Qed.
Lemma out_all : incl (seq 0 n) (out_indices rows).
Proof.
  intros j Hj. apply in_seq in Hj. destruct (first_exists j) as (i & Hi & _ & Si); [lia|]. unfold out_indices. apply in_flat_map. exists i. split; [exact Hi|]. apply members_in. split; [lia|]. apply same_near, Si.
Qed.
Lemma firsts_nodup : NoDup (firsts rows).
Proof. apply NoDup_filter, seq_NoDup. Qed.
Lemma firsts_lt i : In i (firsts rows) -> (i < n)%nat.
Proof. intros H. apply filter_In in H. destruct H as [H _]. apply in_seq in H. lia. Qed.
Lemma firsts_differ i j : In i (firsts rows) -> In j (firsts rows) -> same_pair rows i j = true -> i = j.
Proof.
  assert (W : forall i j, In i (firsts rows) -> In j (firsts rows) -> same_pair rows i j = true -> (i < j)%nat -> False).
  { intros a b Ha Hb Sab Hlt. apply filter_In in Hb. destruct Hb as [_ Hb]. unfold first_of_pair in Hb. rewrite forallb_forall in Hb. specialize (Hb a). rewrite Sab in Hb. cbn in Hb. assert (Q : false = true) by (apply Hb, in_seq; lia). discriminate. }
  intros Hi Hj S. destruct (lt_eq_lt_dec i j) as [[H|H]|H]; [exfalso; apply (W i j); assumption|exact H|].
  exfalso. apply (W j i); try assumption. apply same_iff in S. apply same_iff. destruct S. split; congruence.
Qed.
Lemma first_same j j' i : In i (firsts rows) -> In j (firsts rows) -> same_pair rows i j' = true -> same_pair rows j j' = true -> i = j.
Proof. intros Hi Hj S1 S2. apply firsts_differ; try assumption. apply same_iff in S1. apply same_iff in S2. apply same_iff. destruct S1, S2. split; congruence. Qed.
Section Right.
Hypothesis L : len (out_indices rows) = n.
Lemma out_nodup : NoDup (out_indices rows).
Proof. apply (NoDup_incl_NoDup (l:=seq 0 n)); [apply seq_NoDup|rewrite seq_length; lia|exact out_all]. Qed.
Lemma out_perm : Permutation (out_indices rows) (seq 0 n).
Proof.
  symmetry. apply NoDup_Permutation; [apply seq_NoDup|exact out_nodup|]. intros j. split; [apply out_all|]. intros H. unfold out_indices in H. apply in_flat_map in H. destruct H as (i & _ & H).
  apply members_in in H. apply in_seq. lia.
Qed.
Lemma members_same i j : In i (firsts rows) -> In j (members i) -> same_pair rows i j = true.
Proof.
  intros Hi Hj. pose proof Hj as Hj'. apply members_in in Hj'. destruct Hj' as [Lj _]. destruct (first_exists j Lj) as (i' & Hi' & _ & S').
  assert (E : i = i'); [|subst i'; exact S']. apply (concat_same members (firsts rows) out_nodup i i' j Hi Hi' Hj). apply members_in. split; [exact Lj|apply same_near, S'].
Qed.
End Right.
(** Accepted exactly when different pairs are apart. *)
Lemma row_in j : (j < n)%nat -> In (row rows j) rows.
Proof. intros H. apply nth_In, H. Qed.
Lemma apart_len : apart rows -> len (out_indices rows) = n.
Proof.
  intros A. assert (S : forall i j, (i < n)%nat -> In j (members i) -> same_pair rows i j = true).
  { intros i j Hi Hj. apply members_in in Hj. destruct Hj as [Lj Nj]. unfold near_pair in Nj. apply andb_prop in Nj. destruct Nj as [N1 N2]. apply near_iff in N1. apply near_iff in N2.
    apply same_iff. destruct (list_eq_dec Req_EM_T (qa (row rows i)) (qa (row rows j))) as [E1|E1], (list_eq_dec Req_EM_T (qb (row rows i)) (qb (row rows j))) as [E2|E2]; [split; assumption| | |];
      exfalso; (destruct (A (row rows j) (row rows i)) as [Q|Q]; [apply row_in; exact Lj|apply row_in; exact Hi|congruence|lra|lra]). }
  assert (Nd : NoDup (out_indices rows)).
  { unfold out_indices. apply concat_nodup.
    - exact firsts_nodup.
    - intros u _. apply (Permutation_NoDup (Permutation_sym (members_perm u))). apply NoDup_filter, seq_NoDup.
    - intros u v x Hu Hv Xu Xv. apply (first_same v x u Hu Hv); apply S; try assumption; apply firsts_lt; assumption. }
  apply Nat.le_antisymm; [|pose proof (NoDup_incl_length (seq_NoDup n 0) out_all) as Q; rewrite seq_length in Q; exact Q].
  assert (I : incl (out_indices rows) (seq 0 n)).
  { intros j H. unfold out_indices in H. apply in_flat_map in H. destruct H as (i & _ & H). apply members_in in H. apply in_seq. lia. }
  pose proof (NoDup_incl_length Nd I) as Q. rewrite seq_length in Q. exact Q.
Qed.
Lemma len_apart : len (out_indices rows) = n -> apart rows.
Proof.
  intros L p q Hp Hq D. destruct (In_nth rows p {| qa := []; qb := []; qm := []; qn := [] |} Hp) as (j & Lj & <-). destruct (In_nth rows q {| qa := []; qb := []; qm := []; qn := [] |} Hq) as (i & Li & <-).
  fold (row rows i) in *. fold (row rows j) in *. destruct (Rle_dec (/ 1000) (distance (qa (row rows j)) (qa (row rows i)))) as [H|H]; [left; exact H|].
  destruct (Rle_dec (/ 1000) (distance (qb (row rows j)) (qb (row rows i)))) as [H'|H']; [right; exact H'|]. exfalso. apply D.
  destruct (first_exists i Li) as (f & Hf & _ & Sf). pose proof Sf as Sf'. apply same_iff in Sf'. destruct Sf' as [E1 E2].
  assert (M : same_pair rows f j = true).
  { apply (members_same L f j Hf). apply members_in. split; [exact Lj|]. unfold near_pair. rewrite E1, E2. apply andb_true_intro. split; apply near_iff; lra. }
  apply same_iff in M. destruct M. congruence.
Qed.
(** What the survey reports. *)
Definition view (i j : nat) : quad :=
  {| qa := qa (row rows i); qb := if closev (qa (row rows i)) (qb (row rows i)) then qa (row rows i) else qb (row rows i);
     qm := qm (row rows j); qn := if pole_rx rows j then qm (row rows j) else qn (row rows j) |}.
Lemma zipmn_map a b (f g : nat -> vec) l : zipmn a b (map f l) (map g l) = map (fun j => {| qa := a; qb := b; qm := f j; qn := g j |}) l.
Proof. induction l as [|j l IH]; [reflexivity|]. cbn. f_equal. exact IH. Qed.
Lemma rx_list_rows a b i : flat_map (rx_rows a b) (rx_list rows i) =
  map (fun j => {| qa := a; qb := b; qm := qm (row rows j); qn := if pole_rx rows j then qm (row rows j) else qn (row rows j) |}) (members i).
Proof.
  unfold rx_list, members. rewrite flat_map_app, map_app. f_equal.
  - assert (H : forall j, In j (poles rows i) -> pole_rx rows j = true) by (intros j Hj; apply filter_In in Hj; apply Hj).
    destruct (poles rows i) as [|j0 l0] eqn:E; [reflexivity|]. cbn [flat_map rx_rows]. rewrite app_nil_r, zipmn_map. apply map_ext_in. intros j Hj. rewrite H by exact Hj. reflexivity.
  - assert (H : forall j, In j (dipoles rows i) -> pole_rx rows j = false) by (intros j Hj; apply filter_In in Hj; destruct Hj as [_ Hj]; destruct (pole_rx rows j); [discriminate|reflexivity]).
    destruct (dipoles rows i) as [|j0 l0] eqn:E; [reflexivity|]. cbn [flat_map rx_rows]. rewrite app_nil_r, zipmn_map. apply map_ext_in. intros j Hj. rewrite H by exact Hj. reflexivity.
Qed.
Lemma source_rows i : src_rows (source_of rows i) = map (view i) (members i).
Proof. unfold source_of, view. destruct (closev (qa (row rows i)) (qb (row rows i))); cbn [src_rows]; apply rx_list_rows. Qed.
Lemma locations_members : locations (map (source_of rows) (firsts rows)) = flat_map (fun i => map (view i) (members i)) (firsts rows).
Proof. unfold locations. induction (firsts rows) as [|i l IH]; [reflexivity|]. cbn [map flat_map]. rewrite source_rows, IH. reflexivity. Qed.
Lemma locations_out : len (out_indices rows) = n -> locations (map (source_of rows) (firsts rows)) = map (fun j => view j j) (out_indices rows).
Proof.
  intros L. rewrite locations_members. unfold out_indices.
  assert (G : forall l, incl l (firsts rows) -> flat_map (fun i => map (view i) (members i)) l = map (fun j => view j j) (flat_map (fun i => poles rows i ++ dipoles rows i) l)); [|apply G, incl_refl].
  induction l as [|i l IH]; intros I; [reflexivity|]. cbn [flat_map]. rewrite map_app, IH by (intros x Hx; apply I; right; exact Hx). f_equal. fold (members i). apply map_ext_in. intros j Hj.
  pose proof (members_same L i j (I i (or_introl eq_refl)) Hj) as S. apply same_iff in S. destruct S as [S1 S2]. unfold view. rewrite S1, S2. reflexivity.
Qed.
End Rows.
Lemma view_recorded rows j : recorded (view rows j j) (row rows j).
Proof.
  unfold recorded, view, second. cbn. split; [reflexivity|]. split; [|split; [reflexivity|]].
  - destruct (closev (qa (row rows j)) (qb (row rows j))) eqn:E; [left; split; [apply close_iff, E|reflexivity]|right; split; [intros M; apply close_iff in M; congruence|reflexivity]].
  - unfold pole_rx. destruct (closev (qm (row rows j)) (qn (row rows j))) eqn:E; [left; split; [apply close_iff, E|reflexivity]|right; split; [intros M; apply close_iff in M; congruence|reflexivity]].
Qed.
Lemma from_rows_ok rows s out : from_rows rows = Ok (s, out) -> rows <> [] /\ len (out_indices rows) = len rows /\ s = map (source_of rows) (firsts rows) /\ out = out_indices rows.
Proof.
  unfold from_rows. destruct (len rows =? 0)%nat eqn:E; [discriminate|]. destruct (len (out_indices rows) =? len rows)%nat eqn:E2; [|discriminate]. cbn [negb]. intros H. injection H as <- <-.
  apply Nat.eqb_eq in E2. apply Nat.eqb_neq in E. split; [destruct rows; [contradiction|discriminate]|]. repeat split; assumption.
Qed.
Lemma order_perm rows s out : from_rows rows = Ok (s, out) -> Permutation out (seq 0 (len rows)).
Proof. intros H. apply from_rows_ok in H. destruct H as (_ & L & _ & ->). apply out_perm, L. Qed.
Lemma accepted rows : (exists r, from_rows rows = Ok r) <-> rows <> [] /\ apart rows.
Proof.
  split.
  - intros ([s out] & H). apply from_rows_ok in H. destruct H as (Ne & L & _). split; [exact Ne|apply len_apart, L].
  - intros (Ne & A). unfold from_rows. rewrite (apart_len rows A), Nat.eqb_refl. destruct (len rows =? 0)%nat eqn:E; [apply Nat.eqb_eq in E; destruct rows; [contradiction|discriminate]|]. eexists. reflexivity.
Qed.
Lemma electrodes rows s out : from_rows rows = Ok (s, out) -> Forall2 recorded (locations s) (map (row rows) out).
Proof.
  intros H. apply from_rows_ok in H. destruct H as (_ & L & -> & ->). rewrite (locations_out rows L). clear L. induction (out_indices rows) as [|j l IH]; [constructor|]. cbn. constructor; [apply view_recorded|exact IH].
Qed.
Lemma electrodes_exact rows s out : from_rows rows = Ok (s, out) -> Forall clear_poles rows -> locations s = map (row rows) out.
Proof.
  intros H C. pose proof (order_perm rows s out H) as Pm. pose proof (electrodes rows s out H) as F.
  assert (B : Forall clear_poles (map (row rows) out)).
  { apply Forall_map. apply Forall_forall. intros j Hj. apply (Permutation_in _ Pm) in Hj. apply in_seq in Hj. rewrite Forall_forall in C. apply C, row_in. lia. }
  clear H Pm. induction F as [|q' q l' l R F IH]; [reflexivity|]. inversion B as [|? ? Cq Cl]; subst. f_equal; [|apply IH; exact Cl].
  destruct R as (E1 & E2 & E3 & E4), Cq as [C1 C2]. destruct q', q. cbn in *. subst. f_equal.
  - destruct E2 as [[M ->]|[_ ->]]; [|reflexivity]. destruct C1; [assumption|contradiction].
  - destruct E4 as [[M ->]|[_ ->]]; [|reflexivity]. destruct C2; [assumption|contradiction].
Qed.
(** Counting. *)
Lemma zipmn_len a b : forall ms ns, len ms = len ns -> len (zipmn a b ms ns) = len ms.
Proof. induction ms as [|m ms IH]; intros [|x ns] L; try discriminate; [reflexivity|]. cbn. f_equal. apply IH. injection L. trivial. Qed.
Lemma rx_list_nD rows i : fold_right (fun r k => (rx_nD r + k)%nat) 0%nat (rx_list rows i) = len (members rows i).
Proof.
  unfold rx_list, members. rewrite fold_right_app, app_length. destruct (poles rows i) as [|p ps], (dipoles rows i) as [|q qs]; cbn; rewrite ?map_length; lia.
Qed.
Lemma survey_count rows s out : from_rows rows = Ok (s, out) -> survey_nD s = len rows.
Proof.
  intros H. apply from_rows_ok in H. destruct H as (_ & L & -> & _). rewrite <- L. unfold out_indices, survey_nD. induction (firsts rows) as [|i l IH]; [reflexivity|]. cbn [map fold_right flat_map]. rewrite IH, app_length. f_equal.
  fold (members rows i). rewrite <- rx_list_nD. unfold source_of. destruct (closev _ _); reflexivity.
Qed.
(** One source per pair. *)
Lemma one_source rows s out : from_rows rows = Ok (s, out) -> forall j, (j < len rows)%nat ->
  exists k, (k < len s)%nat /\ nth k s (SrcPole [] []) = source_of rows (nth k (firsts rows) 0%nat) /\ same_pair rows (nth k (firsts rows) 0%nat) j = true /\
    (forall k', (k' < len s)%nat -> same_pair rows (nth k' (firsts rows) 0%nat) j = true -> k' = k).
Proof.
  intros H j Hj. apply from_rows_ok in H. destruct H as (_ & L & -> & _). rewrite map_length. destruct (first_exists rows j Hj) as (i & Hi & _ & S). destruct (In_nth _ _ 0%nat Hi) as (k & Lk & Ek). exists k.
  split; [exact Lk|]. split; [|split].
  - rewrite (nth_indep _ _ (source_of rows 0)) by (rewrite map_length; exact Lk). apply map_nth.
  - rewrite Ek. exact S.
  - intros k' Lk' S'. pose proof (first_same rows (nth k' (firsts rows) 0%nat) j i Hi (nth_In _ _ Lk') S S') as E. apply (proj1 (NoDup_nth (firsts rows) 0%nat) (firsts_nodup rows)); [exact Lk'|exact Lk|congruence].
Qed.
