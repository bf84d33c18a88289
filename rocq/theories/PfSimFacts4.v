(** Counterexamples to the histories left out of the theorem, and the hypotheses met. *)
From Verif Require Import PfSim SpecPfSim PfFacts PfFacts2 PfFacts3 PfFacts4 PfFacts6 VecDeriv PfSimFacts PfSimFacts2 PfSimFacts3.
Local Open Scope R_scope.

Ltac comp := cbn -[IZR INR Rplus Rmult Rinv Rminus Rdiv Ropp sqrt list_eq_dec allclose].
Definition val (r : result out) : R := match r with Ok (OutV (x :: _)) => x | _ => 0 end.
Lemma one_ok eng k s : env_ok one_cell eng false k s.
Proof.
  split; [intros; reflexivity|]. split; [|discriminate]. intros m L. split; [exact L|]. split; [reflexivity|]. repeat constructor.
Qed.
Lemma two_ok eng k : env_ok two_cell eng true k vector_survey.
Proof.
  split; [intros [|[|c]] l; reflexivity|]. split; [|exists 1%nat; reflexivity]. intros m L. split; [exact L|]. split; [reflexivity|]. repeat constructor.
Qed.
Lemma spread_ok eng k s : env_ok spread_cell eng false k s.
Proof.
  split; [intros; reflexivity|]. split; [|discriminate]. intros m L. split; [reflexivity|]. split; [reflexivity|]. repeat constructor.
Qed.
Lemma bad_survey : nth 2 (run one_cell (new Geoana Ram false at_origin 0 None) [OFields (0%nat, [1]); OSurvey at_east; OFields (0%nat, [1])]) (Ok OutNone)
  <> expected one_cell Geoana false 0 at_east (OFields (0%nat, [1])).
Proof.
  intros E. apply (f_equal val) in E. revert E. unfold predicted, matrix, by_location, at_east, at_origin. comp. lra.
Qed.
Lemma bad_mag : nth 2 (run one_cell (new Geoana Ram false at_origin 0 None) [OFields (0%nat, [1]); OMag 1; OFields (0%nat, [1])]) (Ok OutNone)
  <> expected one_cell Geoana false 1 at_origin (OFields (0%nat, [1])).
Proof.
  intros E. apply (f_equal val) in E. revert E. unfold predicted, matrix, by_location, at_east, at_origin. comp. change (INR 0) with 0. change (INR 1) with 1. lra.
Qed.
Lemma bad_file : nth 0 (run one_cell (new Geoana Disk false at_origin 0 (Some [[5]])) [OFields (0%nat, [1])]) (Ok OutNone)
  <> expected one_cell Geoana false 0 at_origin (OFields (0%nat, [1])).
Proof.
  intros E. apply (f_equal val) in E. revert E. unfold predicted, matrix, by_location, at_origin. comp. change (INR 0) with 0. lra.
Qed.
Lemma bad_shared : nth 2 (run one_cell (new Choclo Disk false at_origin 0 None) [OFields (0%nat, [1]); OFile [[5]]; OFields (0%nat, [1])]) (Ok OutNone)
  <> expected one_cell Choclo false 0 at_origin (OFields (0%nat, [1])).
Proof.
  intros E. apply (f_equal val) in E. revert E. unfold predicted, matrix, by_location, at_origin. comp. change (INR 0) with 0. lra.
Qed.
Lemma nano_pos : 0 < nano.
Proof. unfold nano. lra. Qed.
Lemma nano_close : allclose [nano; 0] [0; nano] = Ok true.
Proof.
  unfold allclose, close, nano; cbn [length Nat.eqb combine forallb fst snd].
  destruct (Rle_dec (Rabs (/ 1000000000 - 0)) _) as [H|H]; [|exfalso; apply H; rewrite Rabs_R0, Rabs_pos_eq; lra].
  destruct (Rle_dec (Rabs (0 - / 1000000000)) _) as [H'|H']; [reflexivity|]. exfalso; apply H'. rewrite (Rabs_left (0 - _)), Rabs_pos_eq; lra.
Qed.
Lemma sqrt_xx x : 0 < x -> sqrt (x * x) = x.
Proof. intros H. apply sqrt_square. lra. Qed.
Section Amp.
Variable a : R.
Hypothesis Ha : 0 < a.
Lemma sens_y : val (expected two_cell Geoana true 0 vector_survey (OJvec (1%nat, [0; a]) [1; 0])) = 0.
Proof.
  unfold expected. cbn [val]. unfold sensitivity, data_rows, matrix, by_location, vector_survey, amplitudes. comp.
  match goal with |- context [sqrt ?q] => replace q with (a * a) by ring end. rewrite sqrt_xx by exact Ha. field. lra.
Qed.
Lemma stale st : s_engine st = Geoana -> s_amp st = true -> s_G st = Some (GRam [[1; 0]; [0; 1]; [0; 0]]) -> s_ampD st = Some [(1, 0, 0)] ->
  (exists m, s_model st = Some m /\ length (snd m) = 2%nat /\ (fst m = 1%nat \/ allclose (snd m) [0; a] = Ok true)) ->
  val (snd (step two_cell st (OJvec (1%nat, [0; a]) [1; 0]))) = 1.
Proof.
  intros E1 E2 E3 E4 (m & Hm & L & Hc). cbn [step]. unfold jvec.
  assert (S : set_model two_cell st (1%nat, [0; a]) = (with_model st (Some (1%nat, [0; a])), Ok tt)).
  { unfold set_model. cbn [snd fst length e_nP two_cell Nat.eqb]. rewrite Hm. destruct Hc as [Hc|Hc]; [rewrite Hc; reflexivity|].
    destruct (fst m =? 1)%nat; [reflexivity|]. rewrite Hc. reflexivity. }
  rewrite S. unfold lift at 1; cbn [fst snd]. unfold pure at 1, chiJ. cbn [s_model with_model]. unfold matvec at 1. cbn [length e_nP two_cell Nat.eqb].
  unfold lift at 1; cbn [fst snd]. unfold get_G at 1. cbn [s_G with_model]. rewrite E3. unfold lift at 1; cbn [fst snd gmat].
  unfold matvec at 1. cbn [e_physJ e_nC mv map length Nat.eqb]. unfold pure at 1. unfold lift at 1; cbn [fst snd s_amp with_model]. rewrite E2.
  unfold pure at 1. cbn [group3 bind]. unfold lift at 1; cbn [fst snd]. unfold ampDeriv. cbn [s_ampD with_model]. rewrite E4. unfold lift; cbn [fst snd].
  unfold pure. comp. ring.
Qed.
End Amp.
Lemma first_jvec a i : 0 < a -> fst (step two_cell (new Geoana Ram true vector_survey 0 None) (OJvec (i, [a; 0]) [1; 0]))
  = mkst Geoana Ram true vector_survey 0 (Some (i, [a; 0])) (Some (GRam [[1; 0]; [0; 1]; [0; 0]])) None None (Some [(1, 0, 0)]) None.
Proof.
  intros Ha. unfold vector_survey. comp.
  match goal with |- context [sqrt ?q] => replace q with (a * a) by ring end. rewrite sqrt_xx by exact Ha.
  replace ((1 * a + (0 * 0 + 0)) / a) with 1 by (field; lra). replace ((0 * a + (1 * 0 + 0)) / a) with 0 by (field; lra).
  replace ((0 * a + (0 * 0 + 0)) / a) with 0 by (field; lra). reflexivity.
Qed.
Lemma bad_close : nth 1 (run two_cell (new Geoana Ram true vector_survey 0 None) [OJvec (0%nat, [nano; 0]) [1; 0]; OJvec (1%nat, [0; nano]) [1; 0]]) (Ok OutNone)
  <> expected two_cell Geoana true 0 vector_survey (OJvec (1%nat, [0; nano]) [1; 0]).
Proof.
  intros E. apply (f_equal val) in E. rewrite (sens_y nano nano_pos) in E. cbn [run nth] in E. rewrite first_jvec in E by exact nano_pos.
  rewrite (stale nano) in E; [lra|reflexivity..|]. exists (0%nat, [nano; 0]). split; [reflexivity|]. split; [reflexivity|]. right. exact nano_close.
Qed.
Lemma bad_inplace : nth 1 (run two_cell (new Geoana Ram true vector_survey 0 None) [OJvec (1%nat, [1; 0]) [1; 0]; OJvec (1%nat, [0; 1]) [1; 0]]) (Ok OutNone)
  <> expected two_cell Geoana true 0 vector_survey (OJvec (1%nat, [0; 1]) [1; 0]).
Proof.
  intros E. apply (f_equal val) in E. rewrite (sens_y 1 Rlt_0_1) in E. cbn [run nth] in E. rewrite first_jvec in E by exact Rlt_0_1.
  rewrite (stale 1) in E; [lra|reflexivity..|]. exists (1%nat, [1; 0]). split; [reflexivity|]. split; [reflexivity|]. left. reflexivity.
Qed.
Lemma nth_run {C} (e : env C) st o ops i d : nth (S i) (run e st (o :: ops)) d = nth i (run e (fst (step e st o)) ops) d.
Proof. reflexivity. Qed.
Lemma nth_run0 {C} (e : env C) st o ops d : nth 0 (run e st (o :: ops)) d = snd (step e st o).
Proof. reflexivity. Qed.
Definition mid (b : bool) (m : mobj) : sim nat := mkst Geoana Ram b vector_survey 0 (Some m) (Some (GRam [[1; 0]; [0; 1]; [0; 0]])) None None (Some [(1, 0, 0)]) None.
Lemma far : allclose [1; 0] [0; 1] = Ok false.
Proof.
  unfold allclose, close; cbn [length Nat.eqb combine forallb fst snd].
  destruct (Rle_dec (Rabs (1 - 0)) _) as [H|H]; [|reflexivity]. exfalso. rewrite Rabs_R0, Rabs_pos_eq in H; lra.
Qed.
Lemma toggle_off m : fst (step two_cell (mid true m) (OAmp false)) = mid false m.
Proof. reflexivity. Qed.
Lemma toggle_on m : fst (step two_cell (mid false m) (OAmp true)) = mid true m.
Proof. reflexivity. Qed.
Lemma toggle_set : set_model two_cell (mid false (0%nat, [1; 0])) (1%nat, [0; 1]) = (mid false (1%nat, [0; 1]), Ok tt).
Proof.
  unfold set_model. cbn [snd fst length e_nP two_cell Nat.eqb s_model mid]. rewrite far. unfold mid, deleted. cbn. reflexivity.
Qed.
Lemma toggle_fields : fst (step two_cell (mid false (0%nat, [1; 0])) (OFields (1%nat, [0; 1]))) = mid false (1%nat, [0; 1]).
Proof.
  cbn [step]. unfold fields. rewrite toggle_set. unfold lift at 1; cbn [fst snd]. cbn [mid s_store]. unfold get_G. cbn [s_G]. unfold lift at 2; cbn [fst snd].
  unfold lift, pure, outv. comp. reflexivity.
Qed.
Lemma bad_toggle : nth 4 (run two_cell (new Geoana Ram true vector_survey 0 None)
    [OJvec (0%nat, [1; 0]) [1; 0]; OAmp false; OFields (1%nat, [0; 1]); OAmp true; OJvec (1%nat, [0; 1]) [1; 0]]) (Ok OutNone)
  <> expected two_cell Geoana true 0 vector_survey (OJvec (1%nat, [0; 1]) [1; 0]).
Proof.
  intros E. apply (f_equal val) in E. rewrite (sens_y 1 Rlt_0_1) in E. rewrite !nth_run, nth_run0 in E. rewrite first_jvec in E by exact Rlt_0_1.
  fold (mid true (0%nat, [1; 0])) in E. rewrite toggle_off, toggle_fields, toggle_on in E.
  rewrite (stale 1) in E; [lra|reflexivity..|]. exists (1%nat, [0; 1]). split; [reflexivity|]. split; [reflexivity|]. left. reflexivity.
Qed.
Lemma bad_none : nth 0 (run two_cell (new Geoana Ram true vector_survey 0 None) [ODiag (0%nat, [1; 0]) None]) (Ok OutNone) = Err IndexError.
Proof. reflexivity. Qed.
Lemma bad_diag : nth 0 (run spread_cell (new Geoana Ram false [([0%nat], [origin])] 0 None) [ODiag (0%nat, [1]) (Some [1])]) (Ok OutNone)
  <> expected spread_cell Geoana false 0 [([0%nat], [origin])] (ODiag (0%nat, [1]) (Some [1])).
Proof.
  intros E. apply (f_equal val) in E. revert E. unfold sensitivity, data_rows, matrix, by_location, sq. comp.
  replace (sq 1 * 1 * 1 + 0) with 1 by (unfold sq; ring). rewrite sqrt_1. lra.
Qed.
(** Hypotheses of the theorems met. *)
Lemma far34 : allclose [3; 4] [1; 0] = Ok false /\ allclose [1; 0] [3; 4] = Ok false /\ allclose [3; 4] [0; 1] = Ok false /\ allclose [0; 1] [3; 4] = Ok false /\ allclose [0; 1] [1; 0] = Ok false.
Proof.
  assert (Q : forall a b a' b', / 1000 + Rabs a' / 1000 < Rabs (a - a') -> allclose [a; b] [a'; b'] = Ok false).
  { intros a b a' b' H. unfold allclose, close; cbn [length Nat.eqb combine forallb fst snd].
    destruct (Rle_dec (Rabs (a - a')) _) as [H'|H']; [|reflexivity]. exfalso. pose proof (Rabs_pos a'). lra. }
  split; [|split; [|split; [|split]]]; apply Q; unfold Rabs; repeat destruct Rcase_abs; lra.
Qed.
Lemma three_separated : well_separated three_questions.
Proof.
  pose proof far34 as (F1 & F2 & F3 & F4 & F5). pose proof far as F6.
  intros o o' a b [<-|[<-|[<-|[]]]] [<-|[<-|[<-|[]]]] Ha Hb; cbn [model_of] in Ha, Hb; injection Ha as <-; injection Hb as <-;
    first [left; reflexivity|right; split; [discriminate|assumption]].
Qed.
Lemma identity_one : one_per_column [[1; 0]; [0; 1]].
Proof.
  assert (Q : forall c i, nth c (nth i [[1; 0]; [0; 1]] []) 0 <> 0 -> c = i).
  { intros c [|[|i]]; [destruct c as [|[|c]]|destruct c as [|[|c]]|]; cbn; intros A; try reflexivity; exfalso; apply A; try reflexivity; try (destruct c; reflexivity).
    destruct i, c; reflexivity. }
  intros c i j A B. apply Q in A, B. congruence.
Qed.
Lemma two_nonzero a b : a * a + b * b <> 0 -> no_zero_amplitude two_cell Choclo true 0 vector_survey [a; b].
Proof.
  intros H _. unfold predicted, matrix, by_location, vector_survey, amplitudes. comp. constructor; [|constructor].
  intros E. apply sqrt_eq_0 in E; nra.
Qed.
Lemma three_fit : Forall (fits two_cell Choclo true 0 vector_survey Ram) three_questions.
Proof.
  constructor; [reflexivity|]. constructor.
  - split; [discriminate|]. split; [reflexivity|]. split; [reflexivity|]. apply two_nonzero. lra.
  - constructor; [|constructor]. split; [discriminate|]. split; [reflexivity|]. split; [apply two_nonzero; lra|]. split; [exact identity_one|]. split; [reflexivity|discriminate].
Qed.
Lemma two_phys_deriv m : length m = 2%nat -> has_jacobian 2 2 (e_phys two_cell) m (mv (e_physJ two_cell m)).
Proof.
  intros L h Lh. assert (E : mv (e_physJ two_cell m) h = h).
  { destruct h as [|a [|b [|]]]; try discriminate. comp. f_equal; [ring|f_equal; ring]. }
  rewrite E. apply vderiv_line; assumption.
Qed.
Lemma two_nonzero' a b : a * a + b * b <> 0 -> no_zero_amplitude two_cell Geoana true 0 vector_survey [a; b].
Proof. exact (two_nonzero a b). Qed.
Lemma one_zero : 1 * 1 + 0 * 0 <> 0.
Proof. lra. Qed.
Lemma jvecs_fit i j a : 0 < a -> Forall (fits two_cell Geoana true 0 vector_survey Ram) [OJvec (i, [a; 0]) [1; 0]; OJvec (j, [0; a]) [1; 0]].
Proof.
  intros H. constructor; [|constructor; [|constructor]]; (split; [discriminate|]; split; [reflexivity|]; split; [reflexivity|apply two_nonzero'; nra]).
Qed.
Lemma bad_none_ne y : nth 0 (run two_cell (new Geoana Ram true vector_survey 0 None) [ODiag (0%nat, [1; 0]) None]) (Ok OutNone) <> Ok (OutV y).
Proof. rewrite bad_none. discriminate. Qed.
Lemma geoana_forward_only {C} (e : env C) amp k s file m v : length (snd m) = e_nP e -> length v = e_nP e ->
  snd (step e (new Geoana ForwardOnly amp s k file) (OJvec m v)) = Err NotImplementedError.
Proof.
  intros L Lv. cbn [step]. unfold jvec, set_model. rewrite L, Nat.eqb_refl. cbn [s_model new]. unfold deleted. cbn [s_amp].
  unfold lift at 1; cbn [fst snd]. unfold matvec at 1. rewrite Lv, Nat.eqb_refl. destruct amp; reflexivity.
Qed.
Lemma geoana_forward_only_t {C} (e : env C) amp k s file m w : length (snd m) = e_nP e ->
  snd (step e (new Geoana ForwardOnly amp s k file) (OJtvec m w)) = Err NotImplementedError.
Proof.
  intros L. cbn [step]. unfold jtvec, set_model. rewrite L, Nat.eqb_refl. destruct amp; reflexivity.
Qed.
Lemma geoana_forward_only_J {C} (e : env C) amp k s file m : length (snd m) = e_nP e ->
  snd (step e (new Geoana ForwardOnly amp s k file) (OGetJ m)) = Err NotImplementedError.
Proof.
  intros L. cbn [step]. unfold getJ, set_model. rewrite L, Nat.eqb_refl. destruct amp; reflexivity.
Qed.
Lemma geoana_forward_only_D {C} (e : env C) amp k s file m W : length (snd m) = e_nP e ->
  snd (step e (new Geoana ForwardOnly amp s k file) (ODiag m W)) = Err NotImplementedError.
Proof.
  intros L. cbn [step]. unfold jtjdiag, set_model. rewrite L, Nat.eqb_refl. destruct amp; reflexivity.
Qed.
