From Verif Require Import Py Vec VecDeriv Joint CplxFacts SolveDeriv RichardsFacts RichardsFacts2 RichardsFacts3 DcFacts DcFacts4 Tdem SpecTdem TdemFacts TdemFacts2 TdemFacts3 TdemFacts4 TdemFacts5 TdemFacts6 TdemFacts7 TdemFacts8.
From Coq Require Import Reals Lra Lia.
Local Open Scope R_scope.

Lemma len_tsolve A b : length (tsolve A b) = length b. Proof. unfold tsolve. rewrite map_length, seq_length. reflexivity. Qed.
(** diagonal matrices *)
Lemma tsolve_diag n A d : (forall a, length a = n -> act false A a = vmul d a) -> length d = n -> no_zero d -> solves n tsolve A.
Proof.
  intros H L N b Lb. unfold tsolve. rewrite Lb. assert (LO : length (vconst n 1) = n) by apply repeat_length. rewrite H by exact LO.
  assert (E : map (fun i => nth i b 0 / nth i (vmul d (vconst n 1)) 0) (seq 0 n) = vdiv b d).
  { assert (LD : length (vdiv b d) = n) by (unfold vdiv; rewrite zipw_length; congruence). apply nth_ext with (d := 0) (d' := 0); [rewrite map_length, seq_length; congruence|]. intros i Hi. rewrite map_length, seq_length in Hi.
    rewrite (nth_indep _ 0 ((fun i => nth i b 0 / nth i (vmul d (vconst n 1)) 0) 0%nat)) by (rewrite map_length, seq_length; exact Hi).
    rewrite (map_nth (fun i => nth i b 0 / nth i (vmul d (vconst n 1)) 0)). rewrite seq_nth by exact Hi. cbn [Nat.add]. rewrite (nM n) by assumption. unfold vconst. rewrite (nth_indep (repeat 1 n) 0 1), nth_repeat by (rewrite repeat_length; exact Hi).
    unfold vdiv. rewrite <- L in Hi. clear - Hi Lb L. subst n. revert b i Lb Hi. induction d as [|y d IH]; intros [|x b] i L Hi; cbn in *; try lia. destruct i; [f_equal; lra|]. apply IH; lia. }
  rewrite E. assert (V : forall i, (i < n)%nat -> nth i (vdiv b d) 0 = nth i b 0 / nth i d 0).
  { intros i Hi. unfold vdiv. rewrite <- L in Hi. clear - Hi Lb L. subst n. revert b i Lb Hi. induction d as [|y d IH]; intros [|x b] i L Hi; cbn in *; try lia. destruct i; [reflexivity|]. apply IH; lia. }
  assert (LD : length (vdiv b d) = n) by (unfold vdiv; rewrite zipw_length; congruence).
  split; [exact LD|]. split.
  - rewrite H by exact LD. vext n. rewrite V by assumption. field. apply N. congruence.
  - intros y Ly Hy. rewrite H in Hy by exact Ly. vext n. rewrite V by assumption. rewrite <- Hy. rewrite (nM n) by assumption. field. apply N. congruence.
Qed.
Lemma nz1 x : x <> 0 -> no_zero [x]. Proof. intros H [|[|i]] Hi; cbn in *; [exact H|lia|lia]. Qed.
Ltac red1 := cbn -[IZR Rplus Rmult Rinv Rminus Rdiv Ropp pow].
Lemma one1 (P : vec -> Prop) : (forall x, P [x]) -> forall a, length a = 1%nat -> P a. Proof. intros H [|x [|]]; cbn; intros; try discriminate. apply H. Qed.
Lemma is_mat11 x : is_mat 1 1 [[x]]. Proof. split; [reflexivity|]. repeat constructor. Qed.
Lemma tiny_sizes f steps thr g : steps <> [] -> Forall (fun d => 0 < d) steps -> sizes (tiny f steps thr g).
Proof.
  intros NE F. assert (S1 : nS (tiny f steps thr g) = 1%nat) by (destruct f; reflexivity). assert (O1 : nO (tiny f steps thr g) = 1%nat) by (destruct f; reflexivity). unfold sizes. rewrite S1, O1. cbn [t_nF t_nE t_C t_nc t_B t_val t_deriv t_p t_Mu t_MfI t_MeI t_nn t_G t_steps t_solve tiny].
  split; [apply is_mat11|]. split; [apply is_mat11|]. split; [intros m Lm; split; [exact Lm|apply is_mat11]|]. split; [reflexivity|]. split; [apply nz1; lra|]. split; [reflexivity|]. split; [reflexivity|]. split; [apply is_mat11|]. split; [lia|]. split; [exact NE|]. split; [exact F|]. apply len_tsolve.
Qed.
Definition coef (f : form) (dt x : R) : R := match f with FormB => 1 / dt + / x | FormE => 1 + x / dt | FormH => x + 1 / dt | FormJ => x * (x + 1 / dt) end.
Lemma coef_pos f dt x : 0 < dt -> 0 < x -> coef f dt x <> 0.
Proof.
  intros Hd Hx. assert (0 < / dt) by (apply Rinv_0_lt_compat; lra). assert (0 < / x) by (apply Rinv_0_lt_compat; lra). assert (0 < x * / dt) by (apply Rmult_lt_0_compat; lra). apply Rgt_not_eq. unfold coef, Rdiv. destruct f; try lra. apply Rmult_lt_0_compat; lra.
Qed.
Lemma tiny_A f steps thr g t dt x a : 0 < x -> 0 < dt -> act t (getA (tiny f steps thr g) dt [x]) [a] = [coef f dt x * a].
Proof. intros Hx Hd. unfold coef. destruct f, t; red1; f_equal; field; lra. Qed.
Definition dcoef (f : form) (g x : R) : R := match f with FormB | FormE => g * (x * g) + 1 | _ => g * (/ x * g) end.
Lemma tiny_Adc f steps thr g x a : 0 < x -> act false (getAdc (tiny f steps thr g) [x]) [a] = [dcoef f g x * a].
Proof. intros Hx. unfold dcoef. destruct f; red1; f_equal; field; lra. Qed.
Lemma tiny_solvable f steps thr g x : Forall (fun d => 0 < d) steps -> 0 < x -> (match f with FormB | FormE => True | _ => g <> 0 end) -> solvable (tiny f steps thr g) [x].
Proof.
  intros F Hx Hg. assert (D1 : dim (tiny f steps thr g) = 1%nat) by (destruct f; reflexivity). rewrite Forall_forall in F. unfold solvable. rewrite D1. split; [reflexivity|]. split; [unfold Sg; red1; apply nz1; lra|]. split; [|split].
  - intros dt I. specialize (F dt I). split; (apply (tsolve_diag 1 _ [coef f dt x]); [|reflexivity|apply nz1; apply coef_pos; assumption]); apply one1; intros a; cbn [act negb]; rewrite tiny_A by assumption; reflexivity.
  - cbn [t_nn tiny t_solve]. apply (tsolve_diag 1 _ [dcoef f g x]); [|reflexivity|apply nz1].
    + apply one1. intros a. rewrite tiny_Adc by assumption. reflexivity.
    + unfold dcoef. destruct f; try (assert (0 <= x * (g * g)) by (apply Rmult_le_pos; [lra|apply Rle_0_sqr]); lra); repeat apply Rmult_integral_contrapositive_currified; auto; apply Rinv_neq_0_compat; lra.
  - intros _. cbn [t_nF tiny t_solve t_mmr]. split; [apply (tsolve_diag 1 _ [1]); [intros; reflexivity|reflexivity|apply nz1; lra]|]. split; [intros t a L; destruct t; cbn [act]; ln|]. split.
    + intros a b La Lb. cbn [act]. assert (length [1] = 1%nat) by reflexivity. vext 1%nat. ring.
    + intros c a La. cbn [act]. assert (length [1] = 1%nat) by reflexivity. vext 1%nat. ring.
Qed.
Lemma tiny_regular f steps thr g x : Forall (fun d => 0 < d) steps -> 0 < x -> (match f with FormB | FormE => True | _ => g <> 0 end) -> regular (tiny f steps thr g) [x].
Proof.
  intros F Hx Hg. split; [reflexivity|]. split.
  - intros v. revert v. apply one1. intros v. cbn [t_val t_deriv tiny]. replace (mv [[1]] [v]) with [v] by (red1; f_equal; ring). apply (vderiv_line 1 [x] [v]); reflexivity.
  - exists x. split; [exact Hx|]. intros m' Lm. revert m' Lm. refine (one1 _ _). intros y H. apply tiny_solvable; [exact F| |exact Hg]. specialize (H 0%nat ltac:(cbn; lia)). cbn in H. apply Rabs_def2 in H. lra.
Qed.
Lemma pick_len n k : length (pick n k) = n. Proof. unfold pick. rewrite map_length, seq_length. reflexivity. Qed.
Lemma tiny_rx_ok s x k : no_field s x = None -> rx_ok s (tiny_rx s x k).
Proof. intros H. split; [|split; [|exact H]]; (split; [reflexivity|constructor; [apply pick_len|constructor]]). Qed.
Lemma tiny_src f steps thr g src : (match s_kind src with Line q a gl => length q = 1%nat /\ length a = 1%nat /\ (gl = false -> g = 0) | Dip _ _ => False end) -> (f = FormB -> grounded src = false) -> src_ok (tiny f steps thr g) src.
Proof.
  intros H G. split; [|exact G]. destruct (s_kind src) as [|q a gl]; [contradiction|]. destruct H as (L1 & L2 & L3). assert (S1 : nS (tiny f steps thr g) = 1%nat) by (destruct f; reflexivity). assert (O1 : nO (tiny f steps thr g) = 1%nat) by (destruct f; reflexivity). rewrite S1, O1. split; [exact L1|]. split; [exact L2|].
  intros E. rewrite (L3 E). clear L3. revert q L1. refine (one1 _ _). intros q. unfold gradT. red1. f_equal. ring.
Qed.
Ltac conc := unfold tiny_rx, tiny, ramp_src, loop_src, wire_src, ramp_wire, late_dip, pick, ns; red1; unfold time; red1.
Lemma tiny_setup f steps thr g src : steps <> [] -> Forall (fun d => 0 < d) steps -> src_ok (tiny f steps thr g) src -> Forall (fun r => exists x k, r = tiny_rx (tiny f steps thr g) x k /\ no_field (tiny f steps thr g) x = None) (s_rx src) -> setup_ok (tiny f steps thr g) [src].
Proof.
  intros NE F SO RX. split; [apply tiny_sizes; assumption|]. constructor; [|constructor]. split; [exact SO|]. eapply Forall_impl; [|exact RX]. intros r (x & k & -> & H). apply tiny_rx_ok. exact H.
Qed.
Ltac leqs := repeat match goal with |- _ :: _ = _ :: _ => apply f_equal2 | |- @nil _ = _ => reflexivity | |- Ok _ = Ok _ => apply f_equal end.
Ltac posl := repeat constructor; try lra; try (unfold ns; lra).
Ltac tset := apply tiny_setup; [discriminate|posl|apply tiny_src; [cbn; auto|try discriminate; reflexivity]|repeat constructor; eexists _, _; split; reflexivity].
Lemma dpl_near f g x l e : 0 < e -> (forall y, Rabs (y - x) < e -> f y = g y) -> derivable_pt_lim f x l -> derivable_pt_lim g x l.
Proof.
  intros He E D eps Heps. destruct (D eps Heps) as [d Hd]. assert (P : 0 < Rmin d e) by (apply Rmin_pos; [apply cond_pos|exact He]). exists (mkposreal _ P). intros h H0 Hh. cbn in Hh. rewrite <- !E.
  - apply Hd; [exact H0|]. eapply Rlt_le_trans; [exact Hh|apply Rmin_l].
  - rewrite Rminus_diag_eq, Rabs_R0 by reflexivity. exact He.
  - replace (x + h - x) with h by ring. eapply Rlt_le_trans; [exact Hh|apply Rmin_r].
Qed.

(** Jvec does not see the last time *)
Lemma c67_last : exists s srcs m j a, setup_ok s srcs /\ apart (t_thr s) (t_steps s) /\ regular s m /\ Forall (start_ok s) srcs /\
  Jvec s srcs m [1] None = Ok j /\ Jtvec s srcs m [1] None = Ok a /\ dot [1] j <> dot a [1] /\
  ~ has_jacobian (t_p s) (data_size srcs) (fun m' => val [] (dpred s srcs m' None)) m (fun v => val [] (Jvec s srcs m v None)).
Proof.
  set (s := tiny FormE [1] 0 0). set (src := ramp_src [tiny_rx s Fe 1]). assert (ST : setup_ok s [src]) by (unfold s, src; tset).
  assert (AP : apart (t_thr s) (t_steps s)) by exact I. assert (RG : regular s [1]) by (apply tiny_regular; [posl|lra|exact I]). assert (SO : Forall (start_ok s) [src]) by (repeat constructor; discriminate).
  assert (ED : forall x, 0 < x -> val [] (dpred s [src] [x] None) = [-1 / (1 + x)]). { intros x Hx. unfold s, src. conc. f_equal. field. lra. }
  assert (EJ : forall x v, Jvec s [src] [x] [v] None = Ok [0]). { intros x v. unfold s, src. conc. do 2 f_equal. ring. }
  assert (N0 : ~ derivable_pt_lim (fun t => nth 0 (val [] (dpred s [src] (vadd [1] (vscale t [1])) None)) 0) 0 0).
  { intros D. assert (D' : derivable_pt_lim (fun t => -1 / (1 + (1 + t))) 0 0).
    { refine (dpl_near _ _ _ _ 1 ltac:(lra) _ D). intros y Hy. apply Rabs_def2 in Hy. replace (vadd [1] (vscale y [1])) with [1 + y] by (cbn -[IZR]; f_equal; ring). rewrite ED by lra. reflexivity. }
    assert (D2 : derivable_pt_lim (fun t => -1 / (1 + (1 + t))) 0 (/ 4)).
    { replace (/ 4) with ((0 * (1 + (1 + 0)) - (0 + (0 + 1)) * -1) / (Rsqr (1 + (1 + 0)))) by (unfold Rsqr; field). apply (derivable_pt_lim_div (fun _ => -1) (fun t => 1 + (1 + t))); [apply derivable_pt_lim_const| |lra].
      apply (derivable_pt_lim_plus (fun _ => 1) (fun t => 1 + t)); [apply derivable_pt_lim_const|]. apply (derivable_pt_lim_plus (fun _ => 1) (fun t => t)); [apply derivable_pt_lim_const|apply derivable_pt_lim_id]. }
    pose proof (uniqueness_limite _ _ _ _ D' D2). lra. }
  destruct (c67_jacobian_any s [src] [1] ST AP RG SO) as (J & HJ & AJ). destruct (AJ [1] eq_refl) as (a & Ea & La & Qa).
  exists s, [src], [1], [0], a. do 4 (split; [assumption|]). split; [apply EJ|]. split; [exact Ea|]. split.
  - intros E. rewrite (Qa [1] eq_refl) in E. assert (Z : J [1] = [0]). { destruct (HJ [1] eq_refl) as (_ & L1 & _). destruct (J [1]) as [|z [|]]; try discriminate. cbn in E. f_equal. lra. }
    pose proof (HJ [1] eq_refl) as (_ & _ & D). rewrite Z in D. exact (N0 (D 0%nat ltac:(cbn; lia))).
  - intros H. destruct (H [1] eq_refl) as (_ & _ & D). rewrite EJ in D. exact (N0 (D 0%nat ltac:(cbn; lia))).
Qed.

(** Steps that differ by less than the threshold *)
Lemma c67_threshold : exists s src m us, setup_ok s [src] /\ solvable s m /\ t_thr s = 10 * ns /\ t_form s = FormB /\ fields s [src] m = Ok (m, [us]) /\
  ~ evolution s m src (history_of s m src Fe us) (history_of s m src Fb us).
Proof.
  set (s := tiny FormB [ns; 5 * ns] (10 * ns) 0). set (src := loop_src []). assert (ST : setup_ok s [src]) by (unfold s, src; tset). assert (P : 0 < ns) by (unfold ns; lra).
  exists s, src, [1], (solution s [1] src). split; [exact ST|]. split; [apply tiny_solvable; [posl|lra|exact I]|]. split; [reflexivity|]. split; [reflexivity|]. split; [rewrite fields_ok by exact ST; reflexivity|].
  assert (E : solution s [1] src = [[1]; [1 / (1 + ns)]; [1 / (5 * (1 + ns) * (1 + ns))]]).
  { unfold solution, s, src, loop_src, tiny. red1. destruct (Rlt_dec (10 * ns) (Rabs (5 * ns - ns))) as [H|H]; [rewrite Rabs_right in H by lra; lra|]. clear H. red1. set (X := ns) in *. clearbody X. leqs; try reflexivity. all: field; lra. }
  rewrite E. intros (_ & _ & _ & F). specialize (F 1%nat ltac:(cbn; lia)). revert F. unfold history_of, over. unfold s, faraday. red1. intros H. injection H as H.
  match type of H with _ = ?r => change r with 0 in H end. unfold s, src, loop_src, tiny in H. revert H. conc. fold ns. set (X := ns) in *. clearbody X.
  match goal with |- ?l = 0 -> _ => replace l with (- 4 / (25 * X * (1 + X) * (1 + X))); [|field] end.
  { intros H. assert (0 < 4 / (25 * X * (1 + X) * (1 + X))) by (apply Rdiv_lt_0_compat; [lra|repeat apply Rmult_lt_0_compat; lra]). assert (- 4 / (25 * X * (1 + X) * (1 + X)) = - (4 / (25 * X * (1 + X) * (1 + X)))) by (field; lra). lra. }
  lra.
Qed.

(** The source term of FormJ *)
Lemma c67_rate : exists s src m us, setup_ok s [src] /\ solvable s m /\ apart (t_thr s) (t_steps s) /\ t_form s = FormJ /\ fields s [src] m = Ok (m, [us]) /\
  forall ys, ~ evolution s m src (history_of s m src Fj us) ys.
Proof.
  set (s := tiny FormJ [1] 0 1). set (src := ramp_wire []). assert (ST : setup_ok s [src]). { unfold s, src. apply tiny_setup; [discriminate|posl|apply tiny_src; [cbn; split; [reflexivity|split; [reflexivity|discriminate]]|discriminate]|constructor]. }
  exists s, src, [1], (solution s [1] src). split; [exact ST|]. split; [apply tiny_solvable; [posl|lra|lra]|]. split; [exact I|]. split; [reflexivity|]. split; [rewrite fields_ok by exact ST; reflexivity|].
  assert (E : history_of s [1] src Fj (solution s [1] src) = [[0]; [1 / 2]]).
  { unfold history_of, solution, s, src. conc. leqs; try reflexivity. field. }
  rewrite E. intros ys (_ & L & A & F). destruct ys as [|y0 [|y1 [|]]]; try discriminate L. pose proof (A 0%nat ltac:(cbn; lia)) as (_ & L0 & A0). pose proof (A 1%nat ltac:(cbn; lia)) as (_ & L1 & A1). specialize (F 0%nat ltac:(cbn; lia)). cbn [nth] in *.
  destruct y0 as [|y0 [|]]; try discriminate L0. destruct y1 as [|y1 [|]]; try discriminate L1. revert A0 A1 F. unfold ampere, faraday, s, src. conc. intros A0 A1 F. injection A0 as A0. injection A1 as A1. injection F as F.
  match type of F with _ = ?r => change r with 0 in F end. lra.
Qed.
Lemma same_rate_steady s src : sizes s -> t_form s = FormJ -> length (s_vec s src) = nS s -> (forall k, (k <= nT s)%nat -> s_e s src (time s k) = s_e s src (time s 0)) -> same_rate s src.
Proof.
  intros SZ K L H k Hk m. unfold getRHS. rewrite K. cbv zeta. set (k' := if Nat.eqb (S k) (nT s) then (S k - 1)%nat else S k). assert (K1 : (k' <= nT s)%nat) by (unfold k'; destruct (Nat.eqb (S k) (nT s)); lia).
  rewrite (H k') by exact K1. rewrite (H (if Nat.eqb k' 0 then nT s else (k' - 1)%nat)) by (destruct (Nat.eqb k' 0); lia). rewrite (H (S k)), (H k) by lia.
  assert (LS : length (s_e s src (time s 0)) = nS s) by (unfold s_e; ln). pose proof (len_Sg s SZ m). vext (nS s). ring.
Qed.

Lemma same_rate_ramp s src d c : sizes s -> t_form s = FormJ -> length (s_vec s src) = nS s -> (2 <= nT s)%nat ->
  (forall k, (k < nT s)%nat -> step s k = d /\ strength s src (time s (S k)) - strength s src (time s k) = c) -> same_rate s src.
Proof.
  intros SZ K L N H k Hk m. assert (E : forall k, (k < nT s)%nat -> vsub (s_e s src (time s (S k))) (s_e s src (time s k)) = vscale c (s_vec s src)).
  { intros j Hj. rewrite <- (proj2 (H j Hj)). unfold s_e. vext (nS s). ring. }
  unfold getRHS. rewrite K. cbv zeta. rewrite (E k Hk), (proj1 (H k Hk)). destruct (Nat.eqb (S k) (nT s)) eqn:Q.
  - apply Nat.eqb_eq in Q. destruct k as [|k]; [lia|]. cbn [Nat.sub]. replace (Nat.eqb (S k) 0) with false by reflexivity. rewrite Nat.sub_0_r. rewrite (E k), (proj1 (H (S k) Hk)) by lia. reflexivity.
  - apply Nat.eqb_neq in Q. cbn [Nat.eqb Nat.sub]. rewrite Nat.sub_0_r, (E k Hk), (proj1 (H (S k) ltac:(lia))). reflexivity.
Qed.

(** Jtvec and the initial condition of a grounded source *)
Lemma c67_grounded_e : exists s srcs m j a, setup_ok s srcs /\ apart (t_thr s) (t_steps s) /\ regular s m /\ t_form s = FormE /\ Forall (fun src => Forall (not_last s) (s_rx src)) srcs /\
  Jvec s srcs m [1] None = Ok j /\ Jtvec s srcs m [1] None = Ok a /\ dot [1] j <> dot a [1].
Proof.
  set (s := tiny FormE [1; 2] 0 1). set (src := wire_src [tiny_rx s Fe 1]). assert (ST : setup_ok s [src]). { unfold s, src. apply tiny_setup; [discriminate|posl|apply tiny_src; [cbn; split; [reflexivity|split; [reflexivity|discriminate]]|discriminate]|]. repeat constructor. eexists _, _; split; reflexivity. }
  exists s, [src], [2], [/ 27], [0]. split; [exact ST|]. split; [split; [|exact I]; right; cbn -[IZR]; rewrite Rabs_right; lra|]. split; [apply tiny_regular; [posl|lra|exact I]|]. split; [reflexivity|]. split; [|split; [|split]].
  - constructor; [|constructor]. constructor; [|constructor]. intros a b La Lb. unfold s, src, tiny_rx in *. cbn in La, Lb. destruct a as [|a0 [|a1 [|]]]; try discriminate La. destruct b as [|b [|]]; try discriminate Lb. unfold pick, tiny. red1. f_equal. ring.
  - unfold s, src. unfold wire_src, tiny_rx, tiny, pick. red1. destruct (Rlt_dec 0 (Rabs (2 - 1))) as [H|H]; [|exfalso; apply H; rewrite Rabs_right; lra]. red1. destruct (Req_EM_T 2 1); [lra|]. red1. leqs. unfold time; red1. field.
  - unfold s, src. unfold wire_src, tiny_rx, tiny, pick. red1. destruct (Rlt_dec 0 (Rabs (2 - 1))) as [H|H]; [|exfalso; apply H; rewrite Rabs_right; lra]. red1. destruct (Req_EM_T 2 1); [lra|]. red1. destruct (Req_EM_T 1 2); [lra|]. red1. leqs. unfold time; red1. field.
  - cbn -[IZR]. lra.
Qed.
Lemma rx_adjoint_ok s mf m src us rs : Forall (rx_ok s) rs -> forall w, exists x, rx_adjoint s mf m src us rs w = Ok x.
Proof.
  induction 1 as [|r rs (_ & _ & NF) _ IH]; intros w; [eexists; reflexivity|]. cbn [rx_adjoint]. unfold no_deriv. rewrite NF. unfold no_field in NF. destruct (gloc s (r_field r)); [|discriminate].
  destruct (IH (skipn (r_nD r) w)) as [x ->]. cbn [bind]. eexists. reflexivity.
Qed.
Lemma c67_one_step s srcs m w : setup_ok s srcs -> t_form s = FormE -> nT s = 1%nat -> Exists (fun src => exists q a, s_kind src = Line q a true) srcs -> Jtvec s srcs m w None = Err GenericException.
Proof.
  intros ST K N EX. unfold Jtvec. cbn [given]. rewrite fields_ok by exact ST. cbn [bind fst snd]. destruct ST as [_ F]. revert w. induction F as [|src srcs [_ RO] F IH]; intros w; [inversion EX|].
  cbn [map all_adjoint]. unfold src_adjoint. destruct (rx_adjoint_ok s m m src (solution s m src) (s_rx src) RO (firstn (src_nD src) w)) as [x ->]. cbn [bind].
  destruct (back s m src 0 (solution s m src) (tl (fst x)) (t_steps s)) as [z acc]. unfold adjoint0. rewrite K, N. apply Exists_cons in EX. destruct EX as [(q & a & ->)|EX']; [reflexivity|].
  destruct (s_kind src) as [|? ? []]; cbn [bind Nat.ltb Nat.leb]; try reflexivity; rewrite (IH EX'); reflexivity.
Qed.
Lemma c67_missing s src r m v : sizes s -> src_ok s src -> s_rx src = [r] -> missing (t_form s) (r_field r) = true ->
  dpred s [src] m None = Err (match t_form s, r_field r with FormE, Fb => NotImplementedError | _, _ => KeyError end) /\ Jvec s [src] m v None = Err AttributeError.
Proof.
  intros SZ SO R M. assert (FO : fields s [src] m = Ok (m, [solution s m src])).
  { pose (src' := mkSrc (s_kind src) (s_init src) (s_wave src) []). assert (ST : setup_ok s [src']) by (split; [exact SZ|constructor; [split; [exact SO|constructor]|constructor]]).
    pose proof (fields_ok s [src'] m ST) as H. revert H. unfold fields. replace (existsb grounded [src']) with (existsb grounded [src]) by reflexivity. replace (existsb (short_dipole s) [src']) with (existsb (short_dipole s) [src]) by reflexivity.
    destruct (match t_form s with FormB => existsb grounded [src] | _ => false end); [discriminate|]. destruct (Nat.eqb (nT s) 0); [discriminate|]. destruct (existsb (short_dipole s) [src]); [discriminate|]. reflexivity. }
  unfold dpred, Jvec. cbn [given]. rewrite FO. cbn [bind fst snd each_source]. rewrite R. cbn [mapM]. unfold rx_eval, rx_deriv, no_deriv, no_field, gloc. destruct (t_form s), (r_field r); try discriminate M; split; reflexivity.
Qed.
Lemma c67_dipole s src p k t : s_kind src = Dip p k -> s_init src = true -> t < step s 1 -> s_e s src t = s_vec s src.
Proof.
  intros K I H. unfold s_e, strength. rewrite K, I. destruct (Rlt_dec t (step s 1)); [|contradiction]. cbn [andb]. apply vscale_1.
Qed.
Lemma c67_fields_err s srcs m : (0 < nT s)%nat ->
  (t_form s = FormB -> Exists (fun src => s_init src = true /\ exists q a, s_kind src = Line q a true) srcs -> fields s srcs m = Err NotImplementedError) /\
  (t_form s <> FormB -> nT s = 1%nat -> Exists (fun src => s_init src = true /\ exists p k, s_kind src = Dip p k) srcs -> fields s srcs m = Err IndexError).
Proof.
  intros N. unfold fields. split.
  - intros -> E. assert (H : existsb grounded srcs = true). { apply existsb_exists. apply Exists_exists in E. destruct E as (src & I & H1 & q & a & H2). exists src. split; [exact I|]. unfold grounded. rewrite H1, H2. reflexivity. } rewrite H. reflexivity.
  - intros K N1 E. assert (H : existsb (short_dipole s) srcs = true). { apply existsb_exists. apply Exists_exists in E. destruct E as (src & I & H1 & q & a & H2). exists src. split; [exact I|]. unfold short_dipole. rewrite H1, H2, N1. reflexivity. } rewrite H, N1. destruct (t_form s); try reflexivity. congruence.
Qed.

(** FormJ: the adjoint forgets the initial condition *)
Lemma wide_A t dt x a b : act t (getA wide dt [x]) [a; b] = vmul [x / dt; 1 / dt] [a; b].
Proof. destruct t; unfold wide; red1; leqs; unfold Rdiv; ring. Qed.
Lemma wide_Adc x a : act false (getAdc wide [x]) [a] = [(/ x + 1) * a].
Proof.
  unfold wide; red1; leqs. replace (1 * x + (0 * 1 + 0)) with x by ring. replace (0 * x + (1 * 1 + 0)) with 1 by ring. rewrite Rinv_1. ring.
Qed.
Lemma nz2 x y : x <> 0 -> y <> 0 -> no_zero [x; y]. Proof. intros H1 H2 [|[|[|i]]] Hi; cbn in *; auto; lia. Qed.
Lemma two2 (P : vec -> Prop) : (forall x y, P [x; y]) -> forall a, length a = 2%nat -> P a. Proof. intros H [|x [|y [|]]]; cbn; intros; try discriminate. apply H. Qed.
Lemma wide_sizes : sizes wide.
Proof.
  unfold sizes, wide, nS, nO. cbn [isEB t_form t_nF t_nE t_C t_nc t_B t_val t_deriv t_p t_Mu t_MfI t_MeI t_nn t_G t_steps t_solve].
  split; [split; [reflexivity|repeat constructor]|]. split; [split; [reflexivity|repeat constructor]|]. split; [intros m Lm; split; [reflexivity|split; [reflexivity|repeat constructor]]|]. split; [reflexivity|]. split; [apply nz1; lra|]. split; [reflexivity|]. split; [reflexivity|]. split; [split; [reflexivity|repeat constructor]|]. split; [lia|]. split; [discriminate|]. split; [posl|]. apply len_tsolve.
Qed.
Lemma wide_solvable x : 0 < x -> solvable wide [x].
Proof.
  intros Hx. assert (0 < / x) by (apply Rinv_0_lt_compat; lra). split; [reflexivity|]. split; [unfold Sg, wide; red1; apply nz2; lra|]. split; [|split; [|discriminate]].
  - intros dt I. assert (dt = 1) by (cbn in I; intuition congruence). subst dt. split; (apply (tsolve_diag 2 _ [x / 1; 1 / 1]); [|reflexivity|apply nz2; lra]); apply two2; intros a b; cbn [act negb]; apply wide_A.
  - apply (tsolve_diag 1 _ [/ x + 1]); [|reflexivity|apply nz1; lra]. apply one1. intros a. rewrite wide_Adc. reflexivity.
Qed.
Lemma c67_grounded_j : exists s srcs m j a, setup_ok s srcs /\ apart (t_thr s) (t_steps s) /\ solvable s m /\ t_form s = FormJ /\ Forall (fun src => Forall (not_last s) (s_rx src)) srcs /\
  Jvec s srcs m [1] None = Ok j /\ Jtvec s srcs m [1] None = Ok a /\ dot [1] j <> dot a [1].
Proof.
  exists wide, [wide_src], [1], [/ 4], [0]. split; [split; [apply wide_sizes|]|].
  - repeat constructor; try discriminate; cbn; lia || discriminate.
  - split; [split; [left; reflexivity|exact I]|]. split; [apply wide_solvable; lra|]. split; [reflexivity|]. split; [|split; [|split]].
    + constructor; [|constructor]. constructor; [|constructor]. intros a b La Lb. cbn in La, Lb. destruct a as [|a0 [|a1 [|a2 [|a3 [|]]]]]; try discriminate La. destruct b as [|b [|b' [|]]]; try discriminate Lb. unfold wide, wide_src, pick. red1. f_equal. ring.
    + unfold wide, wide_src, pick. red1. destruct (Rlt_dec 0 (Rabs (1 - 1))) as [H|H]; [exfalso; rewrite Rminus_diag_eq, Rabs_R0 in H by reflexivity; lra|]. red1. destruct (Req_EM_T 1 1); [|lra]. red1. leqs. unfold time; red1. field.
    + unfold wide, wide_src, pick. red1. destruct (Rlt_dec 0 (Rabs (1 - 1))) as [H|H]; [exfalso; rewrite Rminus_diag_eq, Rabs_R0 in H by reflexivity; lra|]. red1. destruct (Req_EM_T 1 1); [|lra]. red1. leqs. unfold time; red1. field.
    + cbn -[IZR]. lra.
Qed.

(** Cases for the theorems *)
Lemma apart_12 thr : thr = 0 -> apart thr [1; 2; 2].
Proof. intros ->. split; [right; rewrite Rabs_right; lra|]. split; [left; reflexivity|exact I]. Qed.
Lemma ex_b f : f = FormB \/ f = FormE -> let s := tiny f [1; 2; 2] 0 0 in let srcs := [ramp_src [tiny_rx s Fe 1; tiny_rx s Fdb 2]; loop_src [tiny_rx s Fj 0]] in
  setup_ok s srcs /\ apart (t_thr s) (t_steps s) /\ regular s [3] /\ solvable s [3] /\ Forall (start_ok s) srcs /\ Forall (fun src => Forall (not_last s) (s_rx src)) srcs.
Proof.
  intros K s srcs. assert (F : Forall (fun d => 0 < d) [1; 2; 2]) by posl. assert (G : match f with FormB | FormE => True | _ => 0 <> 0 end) by (destruct K; subst; exact I). split; [|split; [apply apart_12; reflexivity|split; [apply tiny_regular; auto; lra|split; [apply tiny_solvable; auto; lra|split]]]].
  - split; [apply tiny_sizes; [discriminate|exact F]|]. assert (H : forall x k, no_field s x = None -> rx_ok s (tiny_rx s x k)) by (intros; apply tiny_rx_ok; assumption).
    constructor; [|constructor; [|constructor]]; (split; [apply tiny_src; [cbn; auto|destruct K; subst; reflexivity]|]); repeat (apply Forall_cons || apply Forall_nil); apply H; unfold s; destruct K; subst; reflexivity.
  - unfold s, srcs. destruct K; subst; repeat constructor; discriminate.
  - assert (Q : forall x k, (k < 3)%nat -> not_last s (tiny_rx s x k)).
    { intros x k Hk a b La Lb. assert (E : locs s x = 1%nat) by (unfold locs; destruct (on_edges s x); reflexivity). cbn [tiny_rx r_field] in *. rewrite E in *. change (nT s) with 3%nat in La. assert (R : rxP s (tiny_rx s x k) = [pick 4 k]) by (unfold rxP; destruct (on_edges s _); reflexivity). rewrite R.
      destruct a as [|a0 [|a1 [|a2 [|]]]]; try discriminate La. destruct b as [|b [|]]; try discriminate Lb. unfold pick. destruct k as [|[|[|]]]; [| | |lia]; red1; f_equal; ring. }
    unfold srcs. repeat constructor; apply Q; lia.
Qed.
Lemma ex_j f : f = FormH \/ f = FormJ -> let s := tiny f [1; 2; 2] 0 1 in let srcs := [mkSrc (Line [1] [0] true) false (fun _ => 1) [tiny_rx s Fe 1; tiny_rx s Fj 2]] in
  setup_ok s srcs /\ apart (t_thr s) (t_steps s) /\ regular s [3] /\ solvable s [3] /\ Forall (start_ok s) srcs /\ Forall (fun src => Forall (not_last s) (s_rx src)) srcs /\ (f = FormJ -> Forall (same_rate s) srcs).
Proof.
  intros K s srcs. assert (F : Forall (fun d => 0 < d) [1; 2; 2]) by posl. assert (G : match f with FormB | FormE => True | _ => 1 <> 0 end) by (destruct K; subst; lra).
  assert (SZ : sizes s) by (apply tiny_sizes; [discriminate|exact F]). split; [|split; [apply apart_12; reflexivity|split; [apply tiny_regular; auto; lra|split; [apply tiny_solvable; auto; lra|split; [|split]]]]].
  - split; [exact SZ|]. assert (H : forall x k, no_field s x = None -> rx_ok s (tiny_rx s x k)) by (intros; apply tiny_rx_ok; assumption).
    constructor; [|constructor]; (split; [apply tiny_src; [cbn; split; [reflexivity|split; [reflexivity|discriminate]]|destruct K; subst; discriminate]|]); repeat (apply Forall_cons || apply Forall_nil); apply H; unfold s; destruct K; subst; reflexivity.
  - unfold s, srcs. destruct K; subst; repeat constructor.
  - assert (Q : forall x k, (k < 3)%nat -> not_last s (tiny_rx s x k)).
    { intros x k Hk a b La Lb. assert (E : locs s x = 1%nat) by (unfold locs; destruct (on_edges s x); reflexivity). cbn [tiny_rx r_field] in *. rewrite E in *. change (nT s) with 3%nat in La. assert (R : rxP s (tiny_rx s x k) = [pick 4 k]) by (unfold rxP; destruct (on_edges s _); reflexivity). rewrite R.
      destruct a as [|a0 [|a1 [|a2 [|]]]]; try discriminate La. destruct b as [|b [|]]; try discriminate Lb. unfold pick. destruct k as [|[|[|]]]; [| | |lia]; red1; f_equal; ring. }
    unfold srcs. repeat constructor; apply Q; lia.
  - intros ->. constructor; [|constructor]. apply same_rate_steady; [exact SZ|reflexivity|reflexivity|]. intros. reflexivity.
Qed.
(** The fields of a growing wire, and those after a loop is switched off, are not trivial. *)
Lemma ex_ramp : solution (tiny FormB [1; 2; 2] 0 0) [1] (ramp_src []) = [[0]; [1 / 2]; [13 / 6]; [73 / 18]].
Proof.
  unfold solution, tiny, ramp_src. red1. unfold time. red1. destruct (Rlt_dec 0 (Rabs (2 - 1))) as [H|H]; [|exfalso; apply H; rewrite Rabs_right; lra]. red1. destruct (Rlt_dec 0 (Rabs (2 - 2))) as [H'|H']; [exfalso; rewrite Rminus_diag_eq, Rabs_R0 in H' by reflexivity; lra|]. red1. leqs; try reflexivity; field.
Qed.
Lemma ex_agree : let s := tiny FormB [1; 2; 2] 0 0 in let sB := with_form s FormB tsolve in let sE := with_form s FormE tsolve in
  sizes sB /\ sizes sE /\ src_ok sB (ramp_src []) /\ apart (t_thr s) (t_steps s) /\ solvable sB [3] /\ solvable sE [3] /\ initial sE [3] (ramp_src []) = getfield sB [3] (ramp_src []) 0 Fe (initial sB [3] (ramp_src [])).
Proof.
  assert (F : Forall (fun d => 0 < d) [1; 2; 2]) by posl. intros s sB sE. split; [apply (tiny_sizes FormB); [discriminate|exact F]|]. split; [apply (tiny_sizes FormE); [discriminate|exact F]|]. split; [apply (tiny_src FormB); [cbn; auto|reflexivity]|]. split; [apply apart_12; reflexivity|].
  split; [apply (tiny_solvable FormB); auto; lra|]. split; [apply (tiny_solvable FormE); auto; lra|]. unfold sB, sE, s, with_form. conc. leqs. field.
Qed.
Lemma ex_agree_j : let s := tiny FormH [1; 1; 1] 0 1 in let src := mkSrc (Line [1] [0] true) false (fun t => t) [] in let sH := with_form s FormH tsolve in let sJ := with_form s FormJ tsolve in
  sizes sH /\ sizes sJ /\ src_ok sH src /\ apart (t_thr s) (t_steps s) /\ solvable sH [3] /\ solvable sJ [3] /\ same_rate sJ src /\ initial sJ [3] src = getfield sH [3] src 0 Fj (initial sH [3] src).
Proof.
  assert (F : Forall (fun d => 0 < d) [1; 1; 1]) by posl. intros s src sH sJ. split; [apply (tiny_sizes FormH); [discriminate|exact F]|]. assert (SZ : sizes sJ) by (apply (tiny_sizes FormJ); [discriminate|exact F]). split; [exact SZ|]. split; [apply (tiny_src FormH); [cbn; split; [reflexivity|split; [reflexivity|discriminate]]|discriminate]|]. split; [split; [left; reflexivity|split; [left; reflexivity|exact I]]|].
  split; [apply (tiny_solvable FormH); auto; lra|]. split; [apply (tiny_solvable FormJ); auto; lra|]. split.
  - apply (same_rate_ramp sJ src 1 1); [exact SZ|reflexivity|reflexivity|cbn; lia|]. intros k Hk. change (nT sJ) with 3%nat in Hk. unfold strength, src, step, time, sJ, s. destruct k as [|[|[|]]]; [| | |lia]; red1; lra.
  - unfold sH, sJ, s, src, with_form. conc. leqs. ring.
Qed.
