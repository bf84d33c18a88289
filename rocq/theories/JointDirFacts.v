(** Directives of joint inversions: the schedule. *)
From Verif Require Import Py Vec JointDir SpecJointDir.
Local Open Scope R_scope.

Notation len := List.length.
Lemma cool_rule g t phi b : 0 < t -> 0 <= set_tol g -> rule g t phi b (cool g phi t b).
Proof.
  intros T Tol. assert (E : forall c, phi / t <= c <-> phi <= c * t).
  { intros c. split; intros H; [apply (Rmult_le_compat_r t) in H; [|lra]; replace (phi / t * t) with phi in H by (field; lra); exact H|].
    apply (Rmult_le_reg_r t); [exact T|]. replace (phi / t * t) with phi by (field; lra). exact H. }
  assert (P : 0 <= set_tol g * t) by (apply Rmult_le_pos; lra).
  unfold rule, cool. split; [|split; [|split; [|split]]]; intros U.
  - intros H. rewrite U. cbn. destruct (Rle_dec (phi / t) (1 + set_tol g)) as [|N]; [|exfalso; apply N, E; lra]. destruct (Rle_dec (phi / t) 1) as [|N]; [reflexivity|exfalso; apply N, E; lra].
  - intros [H1 H2]. rewrite U. cbn. destruct (Rle_dec (phi / t) (1 + set_tol g)) as [|N]; [|exfalso; apply N, E; lra]. destruct (Rle_dec (phi / t) 1) as [N|]; [exfalso; apply E in N; lra|reflexivity].
  - intros H. rewrite U. cbn. destruct (Rle_dec (phi / t) (1 + set_tol g)) as [N|N]; [exfalso; apply E in N; lra|]. destruct (Rlt_dec 1 (phi / t)) as [|N2]; [reflexivity|]. exfalso. apply N2, Rnot_le_lt. rewrite E. lra.
  - intros H. rewrite U. cbn. destruct (Rlt_dec 1 (phi / t)) as [|N2]; [reflexivity|]. exfalso. apply N2, Rnot_le_lt. rewrite E. lra.
  - intros H. rewrite U. cbn. destruct (Rlt_dec 1 (phi / t)) as [N2|]; [|reflexivity]. exfalso. apply (Rlt_not_le _ _ N2). apply E. lra.
Qed.
Lemma rule_unique g t phi b b1 b2 : rule g t phi b b1 -> rule g t phi b b2 -> b1 = b2.
Proof.
  intros (A1 & A2 & A3 & A4 & A5) (B1 & B2 & B3 & B4 & B5). destruct (set_update g).
  - destruct (Rle_dec phi t); [rewrite A1, B1 by auto; reflexivity|]. destruct (Rle_dec phi ((1 + set_tol g) * t)); [rewrite A2, B2 by (auto; lra); reflexivity|]. rewrite A3, B3 by (auto; lra). reflexivity.
  - destruct (Rle_dec phi t); [rewrite A5, B5 by auto; reflexivity|]. rewrite A4, B4 by (auto; lra). reflexivity.
Qed.
(** Consequences of the rule *)
Lemma div_pos_le b x y : 0 <= b -> 0 < x -> x <= y -> b / y <= b / x.
Proof. intros B X Y. unfold Rdiv. apply Rmult_le_compat_l; [exact B|]. apply Rinv_le_contravar; assumption. Qed.
Lemma cool_pos g t phi b : 0 < b -> 0 < t -> 0 <= phi -> 0 < set_factor g -> 0 < cool g phi t b.
Proof.
  intros B T P F. unfold cool. assert (0 <= phi / t) by (apply Rmult_le_pos; [exact P|left; apply Rinv_0_lt_compat; exact T]).
  assert (Q : forall x, 0 < x -> 0 < b / x) by (intros x X; apply Rdiv_lt_0_compat; assumption).
  destruct (set_update g && _).
  - destruct (Rle_dec (phi / t) 1) as [H1|H1]; apply Q; [apply Rlt_le_trans with (3 / 4); [lra|apply Rmax_l]|apply Rmin_glb_lt; lra].
  - destruct (Rlt_dec 1 (phi / t)); [apply Q; exact F|exact B].
Qed.
Lemma cool_reached g t phi b : set_update g = true -> 0 <= set_tol g -> 0 < b -> 0 < t -> 0 <= phi <= t -> b <= cool g phi t b <= 4 / 3 * b.
Proof.
  intros U Tol B T P. destruct (cool_rule g t phi b T Tol) as (H & _). rewrite H by (auto; lra). set (r := phi / t).
  assert (R : r <= 1) by (unfold r; apply (Rmult_le_reg_r t); [exact T|]; replace (phi / t * t) with phi by (field; lra); lra).
  assert (M : 3 / 4 <= Rmax (3 / 4) r <= 1) by (split; [apply Rmax_l|apply Rmax_lub; lra]). split.
  - replace b with (b / 1) at 1 by field. apply div_pos_le; lra.
  - replace (4 / 3 * b) with (b / (3 / 4)) by field. apply div_pos_le; lra.
Qed.
Lemma cool_close g t phi b : set_update g = true -> 0 <= set_tol g -> 0 < b -> 0 < t -> t < phi <= (1 + set_tol g) * t -> 2 / 3 * b <= cool g phi t b < b.
Proof.
  intros U Tol B T P. destruct (cool_rule g t phi b T Tol) as (_ & H & _). rewrite H by auto. set (r := phi / t).
  assert (R : 1 < r) by (unfold r; apply (Rmult_lt_reg_r t); [exact T|]; replace (phi / t * t) with phi by (field; lra); lra).
  assert (M : 1 < Rmin (3 / 2) r <= 3 / 2) by (split; [apply Rmin_glb_lt; lra|apply Rmin_l]). split.
  - replace (2 / 3 * b) with (b / (3 / 2)) by field. apply div_pos_le; lra.
  - apply (Rmult_lt_reg_r (Rmin (3 / 2) r)); [lra|]. replace (b / Rmin (3 / 2) r * Rmin (3 / 2) r) with b by (field; lra). rewrite <- (Rmult_1_r b) at 1. apply Rmult_lt_compat_l; lra.
Qed.
Lemma cool_monotone g t phi phi' b : 0 <= set_tol g -> 0 < b -> 0 < t -> 0 <= phi -> 1 + set_tol g <= set_factor g -> phi <= phi' -> cool g phi' t b <= cool g phi t b.
Proof.
  intros Tol B T P F L. assert (D : phi / t <= phi' / t) by (apply Rmult_le_compat_r; [left; apply Rinv_0_lt_compat; exact T|exact L]). assert (D0 : 0 <= phi / t) by (apply Rmult_le_pos; [exact P|left; apply Rinv_0_lt_compat; exact T]).
  unfold cool. set (r := phi / t) in *. set (r' := phi' / t) in *. set (tol := set_tol g) in *. set (f := set_factor g) in *.
  assert (I1 : b = b / 1) by field.
  destruct (set_update g); cbn.
  - destruct (Rle_dec r' (1 + tol)) as [H'|H'], (Rle_dec r (1 + tol)) as [H|H]; try lra.
    + destruct (Rle_dec r' 1), (Rle_dec r 1); try lra; apply div_pos_le; try lra.
      * apply Rlt_le_trans with (3 / 4); [lra|apply Rmax_l].
      * apply Rmax_lub; [apply Rmax_l|]. apply Rle_trans with r'; [lra|apply Rmax_r].
      * apply Rlt_le_trans with (3 / 4); [lra|apply Rmax_l].
      * apply Rle_trans with 1; [apply Rmax_lub; lra|apply Rmin_glb; lra].
      * apply Rmin_glb_lt; lra.
      * apply Rmin_glb; [apply Rmin_l|]. apply Rle_trans with r; [apply Rmin_r|exact D].
    + destruct (Rlt_dec 1 r'); [|lra]. destruct (Rle_dec r 1); apply div_pos_le; try lra.
      * apply Rlt_le_trans with (3 / 4); [lra|apply Rmax_l].
      * apply Rle_trans with 1; [apply Rmax_lub; lra|lra].
      * apply Rmin_glb_lt; lra.
      * apply Rle_trans with r; [apply Rmin_r|lra].
    + destruct (Rlt_dec 1 r'), (Rlt_dec 1 r); lra.
  - destruct (Rlt_dec 1 r'), (Rlt_dec 1 r); try lra. rewrite I1 at 2. apply div_pos_le; lra.
Qed.

(** ** One iteration *)
Lemma last_vals_all ms vs : Forall (fun c => c <> 0) ms -> len ms = len vs -> last_vals ms vs = vs.
Proof.
  intros F. revert vs. induction F as [|c ms C F IH]; intros [|v vs] L; try discriminate; [reflexivity|]. unfold last_vals in *. cbn. destruct (Req_EM_T c 0); [contradiction|]. cbn. f_equal. apply IH. cbn in L. lia.
Qed.
Lemma last_vals_last ms vs c v : c <> 0 -> len ms = len vs -> last_vals (ms ++ [c]) (vs ++ [v]) = last_vals ms vs ++ [v].
Proof.
  intros C. revert vs. induction ms as [|m ms IH]; intros [|w vs] L; try discriminate; unfold last_vals in *; cbn.
  - destruct (Req_EM_T c 0); [contradiction|reflexivity].
  - cbn in L. destruct (Req_EM_T m 0); cbn; [apply IH; lia|f_equal; apply IH; lia].
Qed.
Lemma cool_all_len g : forall phis ts bs, len (cool_all g phis ts bs) = len bs.
Proof. induction phis as [|p ps IH]; intros [|t ts] [|b bs]; cbn; try reflexivity. f_equal. apply IH. Qed.
Lemma cool_all_nth g : forall phis ts bs k, len phis = len bs -> len ts = len bs -> (k < len bs)%nat -> nth k (cool_all g phis ts bs) 0 = cool g (nth k phis 0) (nth k ts 0) (nth k bs 0).
Proof. induction phis as [|p ps IH]; intros [|t ts] [|b bs] k L1 L2 H; cbn in *; try lia. destruct k; [reflexivity|]. apply IH; lia. Qed.
Lemma met_all_len : forall phis ts m, len (met_all phis ts m) = len m.
Proof. induction phis as [|p ps IH]; intros [|t ts] [|b bs]; cbn; try reflexivity. f_equal. apply IH. Qed.
Lemma store_last h v w : store (len h) w (h ++ [v]) = h ++ [w].
Proof. unfold store. rewrite firstn_app, firstn_all, Nat.sub_diag. cbn [firstn]. rewrite app_nil_r, skipn_all2 by (rewrite app_length; cbn; lia). reflexivity. Qed.
Lemma nth_snoc {A} (l : list A) x d : nth (len l) (l ++ [x]) d = x.
Proof. rewrite app_nth2, Nat.sub_diag by lia. reflexivity. Qed.

Definition dir_eqb (a b : directive) : bool := match a, b with Measure, Measure | Schedule, Schedule | Stopping, Stopping | Save, Save => true | _, _ => false end.
Lemma dir_eqb_iff a b : dir_eqb a b = true <-> a = b.
Proof. destruct a, b; split; intros H; try reflexivity; discriminate. Qed.
Definition has (d : directive) (l : list directive) : bool := existsb (dir_eqb d) l.
Lemma has_iff d l : has d l = true <-> In d l.
Proof. unfold has. rewrite existsb_exists. split; [intros (x & H & E); apply dir_eqb_iff in E; subst; exact H|intros H; exists d; split; [exact H|apply dir_eqb_iff; reflexivity]]. Qed.
Lemma has_app d l l' : has d (l ++ l') = has d l || has d l'.
Proof. apply existsb_app. Qed.
(** whether the schedule comes before the saving *)
Fixpoint before_save (l : list directive) : bool := match l with [] => false | Save :: _ => false | Schedule :: _ => true | _ :: l => before_save l end.

Section Run.
Variable g : settings.
Variable n : nat.
Hypothesis G : proper g n.
Variables chi schi lambda : R.
Hypothesis Hchi : 0 < chi.
Hypothesis Hlam : lambda <> 0.
Definition targets : vec := map (fun c => c * chi) (set_nD g).
Definition stargets : vec := map (fun c => c * schi) (set_nD g).
Definition step_betas (i : step) (bs : vec) : vec := if ((0 <? st_iter i) && (st_iter i mod set_rate g =? 0))%nat then cool_all g (st_d i) targets bs else bs.
Definition settled_b (i : step) : bool := forallb (fun p => within (set_sbtol g) (fst p) (snd p)) (combine (st_d i) stargets) && small_change (set_stol g) (st_x i) (st_last i).
(** what holds between iterations *)
Record good (bs : vec) (s : js) : Prop := {
  gd_len : len bs = n; gd_mults : js_mults s = bs ++ [lambda]; gd_met : len (js_met s) = n; gd_chi : js_chi s = chi; gd_schi : js_schi s = schi;
  gd_t : target_of g (js_chi s) (js_target s) = targets; gd_st : target_of g (js_schi s) (js_starget s) = stargets;
  gd_betas : betas s = bs }.
(** what holds during one *)
Record during (i : step) (bs : vec) (s0 : js) (done : list directive) (s : js) : Prop := {
  du_good : good (if has Schedule done then step_betas i bs else bs) s;
  du_ptr : js_betas s = len (js_heap s0);
  du_heap : js_heap s = js_heap s0 ++ [if has Schedule done then step_betas i bs else bs];
  du_phid : js_phid s = st_d i;
  du_stop : js_stop s = js_stop s0 || (has Stopping done && settled_b i);
  du_saved : js_saved s = js_saved s0 ++ (if has Save done then [len (js_heap s0)] else []);
  du_saved_d : js_saved_d s = js_saved_d s0 ++ (if has Save done then [st_d i] else []);
  du_file : js_file s = js_file s0 ++ (if has Save done && set_disk g then [(if before_save done then step_betas i bs else bs, st_d i)] else []) }.
Lemma len_t : len targets = n.
Proof. unfold targets. rewrite map_length. apply G. Qed.
Lemma step_len i bs : len (step_betas i bs) = len bs.
Proof. unfold step_betas. destruct (_ && _); [apply cool_all_len|reflexivity]. Qed.
Lemma measured i bs s : shaped n i -> good bs s -> exists s', measure g i s = Ok s' /\ during i bs s [] s'.
Proof.
  intros [S1 S2] Gd. destruct Gd as [L M Me C1 C2 T1 T2 B]. pose proof G as (_ & _ & Ld & Fd & _). unfold measure. rewrite M. rewrite (last_vals_all (set_dm g) (st_d i) Fd) by lia.
  assert (Q : exists ini v, st_r i = ini ++ [v]) by (destruct (exists_last (l := st_r i)) as (ini & v & E); [intros E; rewrite E in S2; discriminate|eauto]). destruct Q as (ini & v & Er). rewrite Er in S2 |- *. rewrite app_length in S2. cbn in S2.
  rewrite last_vals_last by (try assumption; lia). destruct (last_vals bs ini ++ [v]) as [|x l] eqn:E1; [destruct (last_vals bs ini); discriminate|]. destruct (bs ++ [lambda]) as [|y l'] eqn:E2; [destruct bs; discriminate|]. rewrite <- E1, <- E2. rewrite !removelast_last, !last_last.
  eexists. split; [reflexivity|]. constructor; cbn; rewrite ?app_nil_r, ?andb_false_l, ?orb_false_r; try reflexivity. constructor; cbn; try assumption; try reflexivity; try congruence.
  unfold betas, cell. cbn. apply nth_snoc.
Qed.
Lemma before_snoc l d : before_save (l ++ [d]) = if has Save l then before_save l else before_save l || dir_eqb d Schedule.
Proof. induction l as [|x l IH]; [destruct d; reflexivity|]. destruct x; cbn; try exact IH; try reflexivity. fold (has Save l). destruct (has Save l); reflexivity. Qed.
Lemma before_has l : has Save l = false -> before_save l = has Schedule l.
Proof. induction l as [|x l IH]; [reflexivity|]. destruct x; cbn; try exact IH; try reflexivity. discriminate. Qed.
Lemma one_dir i bs s0 done s d : shaped n i -> during i bs s0 done s -> len bs = n -> d <> Measure -> has d done = false -> exists s', end_iter g i s d = Ok s' /\ during i bs s0 (done ++ [d]) s'.
Proof.
  intros [S1 S2] D Lb Nd H. destruct D as [[L M Me C1 C2 T1 T2 B] P Hp Ph St Sv Sd Fl]. pose proof G as (_ & _ & Ld & Fd & Ln & Fn & Tol & Fc & Rt).
  destruct d; [contradiction| | |]; cbn [end_iter].
  - rewrite H in *. unfold schedule. rewrite Ph, S1. replace ((0 <? n) && (0 <? st_iter i) && (set_rate g =? 0))%nat with false by (symmetry; destruct (set_rate g); [lia|]; cbn; now rewrite andb_false_r).
    rewrite T1, len_t, Me, B, L, !Nat.leb_refl. cbn [andb]. eexists. split; [reflexivity|].
    fold (step_betas i bs). rewrite M, last_last. constructor; cbn [js_mults js_heap js_betas js_lambd js_phid js_phim js_sim js_met js_chi js_target js_schi js_starget js_stop js_saved js_saved_d js_file];
      rewrite ?has_app, ?before_snoc, ?H; cbn [has existsb dir_eqb orb]; rewrite ?orb_false_r; try assumption; try reflexivity.
    + constructor; cbn; try assumption; try reflexivity.
      * now rewrite step_len.
      * now rewrite met_all_len.
      * destruct (n =? 0)%nat; [exact T1|reflexivity].
      * unfold betas, cell. cbn. rewrite P, Hp, store_last. apply nth_snoc.
    + now rewrite P, Hp, store_last.
    + rewrite Fl. destruct (has Save done) eqn:E; [reflexivity|reflexivity].
  - unfold stopping. eexists. split; [reflexivity|]. constructor; cbn [js_mults js_heap js_betas js_lambd js_phid js_phim js_sim js_met js_chi js_target js_schi js_starget js_stop js_saved js_saved_d js_file];
      rewrite ?has_app, ?before_snoc; cbn [has existsb dir_eqb orb]; rewrite ?orb_false_r; try assumption; try reflexivity.
    + constructor; cbn; try assumption; reflexivity.
    + rewrite St, H, T2, Ph. cbn. rewrite orb_false_r. reflexivity.
    + rewrite Fl. destruct (has Save done); reflexivity.
  - unfold save. eexists. split; [reflexivity|]. constructor; cbn [js_mults js_heap js_betas js_lambd js_phid js_phim js_sim js_met js_chi js_target js_schi js_starget js_stop js_saved js_saved_d js_file];
      rewrite ?has_app, ?before_snoc, ?H; cbn [has existsb dir_eqb orb]; rewrite ?orb_false_r; try assumption; try reflexivity.
    + constructor; cbn; try assumption; reflexivity.
    + rewrite Sv, H, app_nil_r, P. reflexivity.
    + rewrite Sd, H, app_nil_r, Ph. reflexivity.
    + rewrite Fl, H. cbn. rewrite app_nil_r. destruct (set_disk g); [|now rewrite app_nil_r]. rewrite B, Ph, (before_has done H). reflexivity.
Qed.
Lemma all_dirs i bs s0 : shaped n i -> len bs = n -> forall todo done s, during i bs s0 done s -> ~ In Measure todo -> NoDup (done ++ todo) -> exists s', end_iters g i todo s = Ok s' /\ during i bs s0 (done ++ todo) s'.
Proof.
  intros Sh Lb. induction todo as [|d todo IH]; intros done s D Nm Nd; [exists s; rewrite app_nil_r; auto|].
  destruct (one_dir i bs s0 done s d Sh D Lb) as (s1 & E1 & D1).
  - intros ->. apply Nm. left. reflexivity.
  - destruct (has d done) eqn:E; [|reflexivity]. exfalso. apply has_iff in E. apply NoDup_remove_2 in Nd. apply Nd, in_or_app. left. exact E.
  - destruct (IH (done ++ [d]) s1 D1) as (s2 & E2 & D2); [intros Q; apply Nm; right; exact Q|rewrite <- app_assoc; exact Nd|]. exists s2. cbn. rewrite E1. cbn. split; [exact E2|]. now rewrite <- app_assoc in D2.
Qed.
Definition rest : list directive := tl (set_dirs g).
Lemma dirs_eq : set_dirs g = Measure :: rest.
Proof. pose proof G as ((r & E) & _). unfold rest. rewrite E. reflexivity. Qed.
Lemma iteration i bs s : shaped n i -> good bs s -> exists s', happen g (Iteration i) s = Ok s' /\ during i bs s rest s'.
Proof.
  intros Sh Gd. destruct (measured i bs s Sh Gd) as (s1 & E1 & D1). pose proof G as (_ & Nd & _). rewrite dirs_eq in Nd. inversion Nd as [|? ? Nm Nr]; subst.
  destruct (all_dirs i bs s Sh (gd_len _ _ Gd) rest [] s1 D1 Nm Nr) as (s2 & E2 & D2). exists s2. split; [|exact D2]. unfold happen. rewrite dirs_eq. cbn. rewrite E1. exact E2.
Qed.
End Run.
