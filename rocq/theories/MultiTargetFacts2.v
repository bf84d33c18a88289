From Coq Require Import Reals Lra Lia.
From Verif Require Import Py Vec VecDeriv RichardsFacts Scaling ScalingFacts MultiTarget SpecMultiTarget MultiTargetFacts.
Local Open Scope R_scope.

Lemma bounded (l : vec) : exists hi, forall x, In x l -> x <= hi.
Proof. induction l as [|a l [hi H]]; [exists 0; intros x []|]. exists (Rmax a hi). intros x [<-|Hx]; [apply Rmax_l|]. eapply Rle_trans; [apply H, Hx|apply Rmax_r]. Qed.
Lemma median_ge l lo : l <> [] -> (forall x, In x l -> lo <= x) -> lo <= median l.
Proof. intros NE H. destruct (bounded l) as [hi Hh]. apply (median_in_range l lo hi NE). intros x Hx. split; auto. Qed.
Lemma pos_pair dm t p : posv dm -> posv t -> In p (combine dm t) -> 0 < fst p /\ 0 < snd p.
Proof. intros Pd Pt H. destruct p as [a b]. split; [apply (proj1 (Forall_forall _ _) Pd), (in_combine_l _ _ _ _ H)|apply (proj1 (Forall_forall _ _) Pt), (in_combine_r _ _ _ _ H)]. Qed.
Lemma ratio_ge1 c dm t : sane c -> posv dm -> posv t ->
  1 <= match filter (fun p => ltb ((1 + c_tol c) * snd p) (fst p)) (combine dm t) with [] => 1 | _ => if c_ratio c then median (map (fun p => fst p / snd p) (filter (fun p => ltb ((1 + c_tol c) * snd p) (fst p)) (combine dm t))) else 1 end.
Proof.
  intros (T & _) Pd Pt. destruct (filter _ _) as [|p l] eqn:E; [lra|]. destruct (c_ratio c); [|lra]. apply median_ge; [discriminate|]. rewrite <- E. intros x Hx. apply in_map_iff in Hx. destruct Hx as (q & <- & Hq). apply filter_In in Hq. destruct Hq as [Hq L]. apply ltb_true in L. destruct (pos_pair _ _ _ Pd Pt Hq) as [A B].
  apply Rmult_le_reg_r with (snd q); [exact B|]. unfold Rdiv. rewrite Rmult_assoc, Rinv_l by lra. nra.
Qed.
Lemma cool_spec c dm t b : sane c -> posv dm -> posv t -> 0 < b -> 0 < cool c t dm b <= b /\ cool c t dm b <= b / c_cf c /\ (c_ratio c = false -> cool c t dm b = b / c_cf c).
Proof.
  intros SA Pd Pt Hb. pose proof (ratio_ge1 c dm t SA Pd Pt) as G. destruct SA as (T & CF & WF). unfold cool. cbv zeta. set (r := match filter _ _ with [] => 1 | _ => _ end) in *.
  assert (E : b / (c_cf c * r) = b / c_cf c * / r) by (unfold Rdiv; rewrite Rinv_mult; ring). assert (ER : 0 < / r <= 1) by (split; [apply Rinv_0_lt_compat; lra|rewrite <- Rinv_1; apply Rinv_le_contravar; lra]).
  assert (EC : 0 < / c_cf c <= 1) by (split; [apply Rinv_0_lt_compat; lra|rewrite <- Rinv_1; apply Rinv_le_contravar; lra]).
  assert (B : 0 < b / c_cf c <= b) by (unfold Rdiv; nra). repeat split; [rewrite E; apply Rmult_lt_0_compat; lra|rewrite E; nra|rewrite E; nra|].
  intros RF. unfold r. rewrite RF. destruct (filter _ _); rewrite Rmult_1_r; reflexivity.
Qed.
Lemma warm_ge c dm t a : sane c -> posv dm -> posv t -> dm <> [] -> length dm = length t -> all_below dm t -> 0 <= a -> c_wf c * a <= warm c t dm a.
Proof.
  intros (T & CF & WF) Pd Pt NE L AB Ha. unfold warm. assert (M : 1 <= median (map (fun p => snd p / fst p) (combine dm t))).
  { apply median_ge; [destruct dm; [congruence|]; destruct t; discriminate|]. intros x Hx. apply in_map_iff in Hx. destruct Hx as (q & <- & Hq). destruct (pos_pair _ _ _ Pd Pt Hq) as [A B]. destruct (In_nth _ _ (0, 0) Hq) as (i & Hi & E). rewrite combine_length in Hi. rewrite combine_nth in E by exact L. specialize (AB i ltac:(lia)). subst q. cbn [fst snd] in *.
    apply Rmult_le_reg_r with (nth i dm 0); [exact A|]. unfold Rdiv. rewrite Rmult_assoc, Rinv_l by lra. lra. }
  set (m := median _) in *. assert (0 <= c_wf c * a) by (apply Rmult_le_pos; lra). nra.
Qed.
Lemma step_mode c iter dm t st : length dm = length t -> b_mode (step c iter dm t st) = if forallb (fun b => b) (hits dm t) then 2%nat else b_mode st.
Proof. intros L. unfold step, s_end. cbv zeta. repeat (destruct (_ : bool); try reflexivity). Qed.
Lemma step_prev c iter dm t st : b_prev (step c iter dm t st) = dm.
Proof. unfold step, s_end. cbv zeta. repeat (destruct (_ : bool); try reflexivity). Qed.
Lemma step_mono c iter dm t st : sane c -> posv dm -> posv t -> dm <> [] -> length dm = length t -> 0 < b_beta st -> 0 <= b_alpha st ->
  0 < b_beta (step c iter dm t st) <= b_beta st /\ b_alpha st <= b_alpha (step c iter dm t st) /\ (b_beta (step c iter dm t st) = b_beta st \/ b_alpha (step c iter dm t st) = b_alpha st).
Proof.
  intros SA Pd Pt NE L Hb Ha. pose proof (cool_spec c dm t _ SA Pd Pt Hb) as (C & _). pose proof (warm_ge c dm t (b_alpha st) SA Pd Pt NE L) as W. unfold step, s_end. cbv zeta.
  pose proof (hits_all dm t L) as HA. destruct (forallb (fun b => b) (hits dm t)).
  - specialize (W (proj1 HA eq_refl) Ha). destruct SA as (T & CF & WF). assert (b_alpha st <= warm c t dm (b_alpha st)) by nra.
    repeat match goal with |- context [if ?b then _ else _] => destruct b end; cbn [b_beta b_alpha]; repeat split; auto; lra.
  - cbn [andb]. repeat match goal with |- context [if ?b then _ else _] => destruct b end; cbn [b_beta b_alpha]; repeat split; auto; lra.
Qed.
Lemma s_run_cons c iter t dm xs st : s_run c iter t (dm :: xs) st = s_run c (S iter) t xs (step c iter dm t st).
Proof. reflexivity. Qed.
Definition good (t dm : vec) : Prop := posv dm /\ dm <> [] /\ length dm = length t.
Lemma run_mono c t : sane c -> posv t -> forall xs iter st, Forall (fun dm => posv dm /\ dm <> [] /\ length dm = length t) xs -> 0 < b_beta st -> 0 <= b_alpha st ->
  0 < b_beta (s_run c iter t xs st) <= b_beta st /\ b_alpha st <= b_alpha (s_run c iter t xs st).
Proof.
  intros SA Pt. induction xs as [|dm xs IH]; intros iter st F Hb Ha; [cbn; lra|]. rewrite s_run_cons. pose proof (Forall_inv F) as (Pd & NE & L). apply Forall_inv_tail in F. destruct (step_mono c iter dm t st SA Pd Pt NE L Hb Ha) as (A & B & _). destruct (IH (S iter) (step c iter dm t st) F) as (A' & B'); [lra|lra|]. lra.
Qed.
Lemma run_mode c t : forall xs iter st, Forall (fun dm => length dm = length t) xs -> (b_mode st = 1 \/ b_mode st = 2)%nat ->
  (b_mode (s_run c iter t xs st) = 2%nat <-> b_mode st = 2%nat \/ exists dm, In dm xs /\ all_below dm t) /\ (b_mode (s_run c iter t xs st) = 1 \/ b_mode (s_run c iter t xs st) = 2)%nat.
Proof.
  induction xs as [|dm xs IH]; intros iter st F M; [cbn; split; [|exact M]; split; [auto|intros [H|(d & [] & _)]; exact H]|]. rewrite s_run_cons. pose proof (Forall_inv F) as L. apply Forall_inv_tail in F. cbn beta in L. pose proof (step_mode c iter dm t st L) as SM. pose proof (hits_all dm t L) as HA.
  assert (M' : (b_mode (step c iter dm t st) = 1 \/ b_mode (step c iter dm t st) = 2)%nat) by (rewrite SM; destruct (forallb _ _); auto).
  destruct (IH (S iter) _ F M') as [E EM]. split; [|exact EM]. rewrite E, SM. destruct (forallb (fun b => b) (hits dm t)).
  - split; [intros _; right; exists dm; split; [left; reflexivity|exact (proj1 HA eq_refl)]|left; reflexivity].
  - split.
    + intros [H|(d & H & B)]; [left; exact H|right; exists d; split; [right; exact H|exact B]].
    + intros [H|(d & [<-|H] & B)]; [left; exact H|pose proof (proj2 HA B); discriminate|right; exists d; auto].
Qed.
Lemma due_spec c iter : (Nat.eqb iter 0 || negb (Nat.eqb (iter mod c_rate c) 0))%bool = false <-> due c iter.
Proof. unfold due. rewrite orb_false_iff, negb_false_iff, Nat.eqb_neq, Nat.eqb_eq. lia. Qed.
Lemma not_due c iter dm t st : ~ due c iter -> b_beta (step c iter dm t st) = b_beta st /\ b_alpha (step c iter dm t st) = b_alpha st.
Proof. intros N. unfold step, s_end. cbv zeta. destruct (_ || _)%bool eqn:E; [split; reflexivity|]. apply due_spec in E. contradiction. Qed.
Lemma select_In {A} ix (l : list A) x d : length ix = length l -> (In x (select ix l) <-> exists i, (i < length l)%nat /\ nth i ix false = true /\ nth i l d = x).
Proof.
  intros L. unfold select. rewrite in_map_iff. split.
  - intros ([b y] & <- & H). apply filter_In in H. destruct H as [H B]. cbn in B. destruct (In_nth _ _ (false, d) H) as (i & Hi & E). rewrite combine_length in Hi. rewrite combine_nth in E by exact L. exists i. injection E as E1 E2. split; [lia|]. split; [congruence|exact E2].
  - intros (i & Hi & B & E). exists (true, x). split; [reflexivity|]. apply filter_In. split; [|reflexivity]. rewrite <- B, <- E, <- combine_nth by exact L. apply nth_In. rewrite combine_length. lia.
Qed.
Lemma stalled_spec c dm t prev : length dm = length t -> length prev = length t ->
  forallb (fun p => ltb (Rmax ((1 - c_prog c) * snd p) (snd (fst p))) (fst (fst p))) (select (map negb (hits dm t)) (combine (combine dm t) prev)) = true <-> stalled c dm t prev.
Proof.
  intros L Lp. assert (LH : length (hits dm t) = length dm) by (unfold hits; rewrite map_length, combine_length; lia). assert (LC : length (combine (combine dm t) prev) = length dm) by (rewrite !combine_length; lia). rewrite forallb_forall. unfold stalled.
  assert (NN : forall i, (i < length dm)%nat -> nth i (map negb (hits dm t)) false = negb (ltb (nth i dm 0) (nth i t 0))) by (intros i Hi; rewrite <- hits_nth by assumption; rewrite (nth_indep _ false (negb false)) by (rewrite map_length; lia); apply map_nth).
  assert (NC : forall i, nth i (combine (combine dm t) prev) (0, 0, 0) = (nth i dm 0, nth i t 0, nth i prev 0)) by (intros i; rewrite combine_nth by (rewrite combine_length; lia); rewrite combine_nth by exact L; reflexivity).
  split.
  - intros H i Hi G. assert (B : ltb (Rmax ((1 - c_prog c) * nth i prev 0) (nth i t 0)) (nth i dm 0) = true).
    { apply (H (nth i dm 0, nth i t 0, nth i prev 0)). apply (select_In _ _ _ (0, 0, 0)); [rewrite map_length; congruence|]. exists i. split; [congruence|]. split; [|apply NC]. rewrite NN by exact Hi. apply negb_true_iff. unfold ltb. destruct (Rlt_dec _ _); [lra|reflexivity]. }
    apply ltb_true in B. pose proof (Rmax_l ((1 - c_prog c) * nth i prev 0) (nth i t 0)). pose proof (Rmax_r ((1 - c_prog c) * nth i prev 0) (nth i t 0)). lra.
  - intros H p Hp. apply (select_In _ _ _ (0, 0, 0)) in Hp; [|rewrite map_length; congruence]. destruct Hp as (i & Hi & B & <-). rewrite LC in Hi. rewrite NC. cbn [fst snd]. rewrite NN in B by exact Hi. apply negb_true_iff in B. assert (G : nth i t 0 <= nth i dm 0) by (unfold ltb in B; destruct (Rlt_dec _ _); [discriminate|lra]). destruct (H i Hi G). apply ltb_true. apply Rmax_lub_lt; assumption.
Qed.
(** Before all targets have been reached: beta is cooled exactly when the misfits have stalled. *)
Lemma first_mode c iter dm t st : due c iter -> length dm = length t -> length (b_prev st) = length t -> b_mode st = 1%nat -> ~ all_below dm t ->
  b_alpha (step c iter dm t st) = b_alpha st /\
  (stalled c dm t (b_prev st) /\ c_bmin c < b_beta st -> b_beta (step c iter dm t st) = cool c t dm (b_beta st)) /\
  (~ (stalled c dm t (b_prev st) /\ c_bmin c < b_beta st) -> b_beta (step c iter dm t st) = b_beta st).
Proof.
  intros D L Lp M NB. unfold step, s_end. cbv zeta. apply due_spec in D. rewrite D. pose proof (hits_all dm t L) as HA. destruct (forallb (fun b => b) (hits dm t)); [exfalso; exact (NB (proj1 HA eq_refl))|]. rewrite M. pose proof (stalled_spec c dm t (b_prev st) L Lp) as SS. pose proof (ltb_true (c_bmin c) (b_beta st)) as SB.
  destruct (forallb _ _); cbn [negb andb Nat.eqb]; [destruct (ltb (c_bmin c) (b_beta st)); cbn [andb]|]; rewrite ?andb_false_r; cbn [andb b_alpha b_beta]; (split; [reflexivity|]); (split; [intros [A B]|intros N]); try reflexivity.
  - exfalso. apply N. split; [apply SS; reflexivity|apply SB; reflexivity].
  - apply SB in B. discriminate.
  - apply SS in A. discriminate.
Qed.
Lemma all_reached c iter dm t st : due c iter -> sane c -> posv dm -> posv t -> length dm = length t -> all_below dm t ->
  b_mode (step c iter dm t st) = 2%nat /\ b_beta (step c iter dm t st) = b_beta st /\ (b_alpha st < c_amax c -> b_alpha (step c iter dm t st) = b_alpha st * (c_wf c * median (map (fun p => snd p / fst p) (combine dm t)))) /\ (c_amax c <= b_alpha st -> b_alpha (step c iter dm t st) = b_alpha st).
Proof.
  intros D SA Pd Pt L AB. split; [rewrite step_mode by exact L; rewrite (proj2 (hits_all dm t L) AB); reflexivity|]. unfold step, s_end. cbv zeta. apply due_spec in D. rewrite D. rewrite (proj2 (hits_all dm t L) AB). cbn [negb andb Nat.eqb]. rewrite andb_false_r. cbn [andb].
  assert (EX : existsb (fun p => ltb ((1 + c_tol c) * snd p) (fst p)) (combine dm t) = false).
  { apply Bool.not_true_iff_false. intros H. apply existsb_exists in H. destruct H as (q & Hq & B). apply ltb_true in B. destruct (pos_pair _ _ _ Pd Pt Hq) as [X Y]. destruct (In_nth _ _ (0, 0) Hq) as (i & Hi & E). rewrite combine_length in Hi. rewrite combine_nth in E by exact L. specialize (AB i ltac:(lia)). subst q. cbn [fst snd] in *. destruct SA as (T & _). nra. }
  rewrite EX. cbn [andb]. pose proof (ltb_true (b_alpha st) (c_amax c)) as SB. destruct (ltb (b_alpha st) (c_amax c)); cbn [b_beta b_alpha]; (split; [reflexivity|]); split; intros H; try reflexivity.
  - exfalso. assert (b_alpha st < c_amax c) by (apply SB; reflexivity). lra.
  - apply SB in H. discriminate.
Qed.
Lemma second_mode c iter dm t st : due c iter -> length dm = length t -> b_mode st = 2%nat -> ~ all_below dm t ->
  let exceeds := exists i, (i < length dm)%nat /\ (1 + c_tol c) * nth i t 0 < nth i dm 0 in
  b_alpha (step c iter dm t st) = b_alpha st /\ (exceeds /\ c_bmin c < b_beta st -> b_beta (step c iter dm t st) = cool c t dm (b_beta st)) /\ (~ (exceeds /\ c_bmin c < b_beta st) -> b_beta (step c iter dm t st) = b_beta st).
Proof.
  intros D L M NB. cbv zeta. unfold step, s_end. cbv zeta. apply due_spec in D. rewrite D. pose proof (hits_all dm t L) as HA. destruct (forallb (fun b => b) (hits dm t)); [exfalso; exact (NB (proj1 HA eq_refl))|]. rewrite M. cbn [negb andb Nat.eqb]. rewrite !andb_false_r. cbn [andb]. rewrite andb_true_r.
  assert (EX : existsb (fun p => ltb ((1 + c_tol c) * snd p) (fst p)) (combine dm t) = true <-> exists i, (i < length dm)%nat /\ (1 + c_tol c) * nth i t 0 < nth i dm 0).
  { rewrite existsb_exists. split.
    - intros (q & Hq & B). apply ltb_true in B. destruct (In_nth _ _ (0, 0) Hq) as (i & Hi & E). rewrite combine_length in Hi. rewrite combine_nth in E by exact L. subst q. exists i. split; [lia|exact B].
    - intros (i & Hi & B). exists (nth i dm 0, nth i t 0). split; [rewrite <- combine_nth by exact L; apply nth_In; rewrite combine_length; lia|apply ltb_true; exact B]. }
  pose proof (ltb_true (c_bmin c) (b_beta st)) as SB. destruct (existsb _ _); [destruct (ltb (c_bmin c) (b_beta st))|]; cbn [andb b_alpha b_beta]; (split; [reflexivity|]); (split; [intros [A B]|intros N]); try reflexivity.
  - exfalso. apply N. split; [apply EX; reflexivity|apply SB; reflexivity].
  - apply SB in B. discriminate.
  - apply EX in A. discriminate.
Qed.
