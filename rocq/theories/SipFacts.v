From Coq Require Import Reals Lra Lia Sorted.
From Verif Require Import Py Vec VecDeriv Frechet Joint Richards RichardsFacts RichardsFacts2 RichardsFacts3 LinSimFacts SolveDeriv DcFacts JointFacts PfFacts3 PfFacts4 Sip SpecSip.
From Verif Require ProbeFacts.
Local Open Scope R_scope.

(** Pulses *)
Lemma fold_add {A} (g : A -> R) l : forall z, fold_left (fun acc i => acc + g i) l z = z + vsum (map g l).
Proof. induction l as [|x l IH]; intros z; cbn; [ring|]. rewrite IH. ring. Qed.
Lemma vsum_app' a b : vsum (a ++ b) = vsum a + vsum b.
Proof. induction a; cbn; [ring|]. rewrite IHa. ring. Qed.
Lemma vsum_scale' {A} (k : R) (f : A -> R) l : vsum (map (fun x => k * f x) l) = k * vsum (map f l).
Proof. induction l as [|x l IH]; cbn; [ring|]. rewrite IH. ring. Qed.
Lemma partial_sums (a : nat -> R) n : vsum (map (fun i => a i * (INR n - INR i)) (seq 0 n)) = vsum (map (fun k => vsum (map a (seq 0 (S k)))) (seq 0 n)).
Proof.
  induction n as [|n IH]; [reflexivity|]. rewrite !seq_S, !map_app, !vsum_app', <- IH. cbn [map vsum Nat.add]. rewrite seq_S, map_app, vsum_app'. cbn [map vsum Nat.add].
  rewrite (vsum_ext_in (fun i => a i * (INR (S n) - INR i)) (fun i => a i * (INR n - INR i) + a i)) by (intros i _; rewrite S_INR; ring). rewrite vsum_map_add, S_INR. ring.
Qed.
Lemma multi_eq n T g t : multi_pulse n T g t = vsum (map (fun i => g (t + T / 2 * INR i) * ((-1) ^ i * (INR n - INR i))) (seq 0 n)) / INR n.
Proof. unfold multi_pulse. rewrite fold_add. f_equal. ring. Qed.
Lemma c89_stack n T g t : response n T g t = signal n T g t.
Proof.
  unfold response, signal. destruct n as [|n]; [reflexivity|]. rewrite multi_eq. unfold stacked. f_equal.
  rewrite (vsum_ext_in _ (fun i => ((-1) ^ i * (g (t + INR i * (T / 2)) - g (t + INR i * (T / 2) + T / 4))) * (INR (S n) - INR i))).
  - apply (partial_sums (fun i => (-1) ^ i * (g (t + INR i * (T / 2)) - g (t + INR i * (T / 2) + T / 4)))).
  - intros i _. unfold pulse_off. replace (t + T / 2 * INR i) with (t + INR i * (T / 2)) by ring. ring.
Qed.
Lemma step_decay e tau c t : step_off e tau c t = decay e (/ tau) c t.
Proof. unfold step_off, decay, exponent, Rdiv. rewrite Rinv_inv. reflexivity. Qed.
Lemma response_ext n T g h t : (forall x, g x = h x) -> response n T g t = response n T h t.
Proof. intros E. unfold response. destruct n; [apply E|]. rewrite !multi_eq. f_equal. apply vsum_ext_in. intros i _. unfold pulse_off. rewrite !E. reflexivity. Qed.
Lemma response_lin n T a b c f g h t : response n T (fun t => f t * a + g t * b + h t * c) t = response n T f t * a + response n T g t * b + response n T h t * c.
Proof.
  unfold response. destruct n as [|n]; [reflexivity|]. rewrite !multi_eq. unfold Rdiv.
  rewrite (vsum_ext_in _ (fun i => a * (pulse_off T f (t + T / 2 * INR i) * ((-1) ^ i * (INR (S n) - INR i))) + (b * (pulse_off T g (t + T / 2 * INR i) * ((-1) ^ i * (INR (S n) - INR i))) + c * (pulse_off T h (t + T / 2 * INR i) * ((-1) ^ i * (INR (S n) - INR i)))))) by (intros i _; unfold pulse_off, Rdiv; ring).
  rewrite !vsum_map_add, !vsum_scale'. unfold Rdiv. ring.
Qed.
Lemma dpl_vsum {A} (f : R -> A -> R) (f' : A -> R) l : (forall x, In x l -> derivable_pt_lim (fun s => f s x) 0 (f' x)) -> derivable_pt_lim (fun s => vsum (map (f s) l)) 0 (vsum (map f' l)).
Proof.
  induction l as [|x l IH]; intros H; cbn; [apply dpl_const|]. apply (dpl_plus (fun s => f s x) (fun s => vsum (map (f s) l))); [apply H; left; reflexivity|apply IH; intros y Hy; apply H; right; exact Hy].
Qed.
Lemma response_deriv n T (g : R -> R -> R) g' t : 0 < t -> 0 <= T -> (forall t, 0 < t -> derivable_pt_lim (fun s => g s t) 0 (g' t)) -> derivable_pt_lim (fun s => response n T (g s) t) 0 (response n T g' t).
Proof.
  intros Ht HT H. unfold response. destruct n as [|n]; [apply H; exact Ht|]. eapply dpl_ext; [intros s; symmetry; apply multi_eq|]. rewrite multi_eq.
  unfold Rdiv. apply (dpl_eq _ _ (vsum (map (fun i => pulse_off T g' (t + T / 2 * INR i) * ((-1) ^ i * (INR (S n) - INR i))) (seq 0 (S n))) * / INR (S n) + vsum (map (fun i => pulse_off T (g 0) (t + T / 2 * INR i) * ((-1) ^ i * (INR (S n) - INR i))) (seq 0 (S n))) * 0)); [unfold Rdiv; ring|].
  apply (dpl_mult (fun s => vsum (map (fun i => pulse_off T (g s) (t + T / 2 * INR i) * ((-1) ^ i * (INR (S n) - INR i))) (seq 0 (S n)))) (fun _ => / INR (S n))); [|apply dpl_const].
  apply (dpl_vsum (fun s i => pulse_off T (g s) (t + T / 2 * INR i) * ((-1) ^ i * (INR (S n) - INR i)))). intros i _. set (k := (-1) ^ i * (INR (S n) - INR i)). set (t1 := t + T / 2 * INR i).
  assert (P1 : 0 < t1). { unfold t1. pose proof (pos_INR i). assert (0 <= T / 2 * INR i) by (apply Rmult_le_pos; lra). lra. }
  apply (dpl_eq _ _ (pulse_off T g' t1 * k + pulse_off T (g 0) t1 * 0)); [ring|]. apply (dpl_mult (fun s => pulse_off T (g s) t1) (fun _ => k)); [|apply dpl_const]. unfold pulse_off. apply (dpl_minus (fun s => g s t1) (fun s => g s (t1 + T / 4))); apply H; lra.
Qed.
Lemma step_deriv (e tau c : R -> R) e' tau' c' t : 0 < t -> 0 < tau 0 -> derivable_pt_lim e 0 e' -> derivable_pt_lim tau 0 tau' -> derivable_pt_lim c 0 c' ->
  derivable_pt_lim (fun s => step_off (e s) (tau s) (c s) t) 0 (step_off_eta (e 0) (tau 0) (c 0) t * e' + step_off_taui (e 0) (tau 0) (c 0) t * tau' + step_off_c (e 0) (tau 0) (c 0) t * c').
Proof.
  intros Ht Htau De Dtau Dc.
  assert (DL : derivable_pt_lim (fun s => ln (t * tau s)) 0 (t * tau' * / (t * tau 0))).
  { apply (dpl_eq _ _ (/ (t * tau 0) * (t * tau'))); [ring|]. apply (derivable_pt_lim_comp (fun s => t * tau s) ln); [apply dpl_scal; exact Dtau|apply derivable_pt_lim_ln; apply Rmult_lt_0_compat; assumption]. }
  set (L := ln (t * tau 0)) in *.
  assert (DX : derivable_pt_lim (fun s => exponent (tau s) (c s) t) 0 (exponent (tau 0) (c 0) t * (c' * L + c 0 * (t * tau' * / (t * tau 0))))).
  { unfold exponent, Rpower. apply (derivable_pt_lim_comp (fun s => c s * ln (t * tau s)) exp); [apply (dpl_mult c (fun s => ln (t * tau s))); assumption|apply derivable_pt_lim_exp]. }
  set (X := exponent (tau 0) (c 0) t) in *.
  assert (DE : derivable_pt_lim (fun s => exp (- exponent (tau s) (c s) t)) 0 (exp (- X) * (- (X * (c' * L + c 0 * (t * tau' * / (t * tau 0))))))).
  { apply (derivable_pt_lim_comp (fun s => - exponent (tau s) (c s) t) exp); [apply derivable_pt_lim_opp; exact DX|apply derivable_pt_lim_exp]. }
  unfold step_off. eapply dpl_eq; [|apply (dpl_mult e (fun s => exp (- exponent (tau s) (c s) t))); [exact De|exact DE]].
  unfold step_off_eta, step_off_taui, step_off_c. fold X L. field. lra.
Qed.
(** Times *)
Lemma ins_in x l y : In y (ins x l) <-> y = x \/ In y l.
Proof.
  induction l as [|z l IH]; cbn; [intuition|]. destruct (Rlt_dec x z); [cbn; intuition|]. destruct (Req_EM_T x z) as [->|]; [cbn; intuition|]. cbn. rewrite IH. intuition.
Qed.
Lemma ins_sorted x l : increasing l -> increasing (ins x l).
Proof.
  unfold increasing. induction l as [|z l IH]; intros H; cbn; [repeat constructor|]. apply StronglySorted_inv in H. destruct H as [S F]. rewrite Forall_forall in F. destruct (Rlt_dec x z) as [L|NL].
  - constructor; [constructor; [exact S|apply Forall_forall; exact F]|]. constructor; [exact L|]. apply Forall_forall. intros y Hy. pose proof (F y Hy). lra.
  - destruct (Req_EM_T x z); [constructor; [exact S|apply Forall_forall; exact F]|]. constructor; [apply IH; exact S|]. apply Forall_forall. intros y Hy. apply ins_in in Hy. destruct Hy as [->|Hy]; [lra|apply F; exact Hy].
Qed.
Lemma unique_in l y : In y (fold_right ins [] l) <-> In y l.
Proof. induction l as [|x l IH]; cbn; [intuition|]. rewrite ins_in, IH. intuition. Qed.
Lemma unique_sorted l : increasing (fold_right ins [] l).
Proof. induction l as [|x l IH]; cbn; [constructor|]. apply ins_sorted. exact IH. Qed.
Lemma c89_times s : increasing (unique_times s) /\ forall t, In t (unique_times s) <-> exists r, In r (all_rx s) /\ In t (x_times r).
Proof.
  split; [apply unique_sorted|]. intros t. unfold unique_times. rewrite unique_in, in_concat. split.
  - intros (l & H & Ht). apply in_map_iff in H. destruct H as (r & <- & Hr). exists r. auto.
  - intros (r & Hr & Ht). exists (x_times r). split; [apply in_map; exact Hr|exact Ht].
Qed.
Lemma sorted_unique a : forall b, increasing a -> increasing b -> (forall t, In t a <-> In t b) -> a = b.
Proof.
  unfold increasing. induction a as [|x a IH]; intros [|y b] A B E.
  - reflexivity.
  - destruct (proj2 (E y) (or_introl eq_refl)).
  - destruct (proj1 (E x) (or_introl eq_refl)).
  - apply StronglySorted_inv in A. apply StronglySorted_inv in B. destruct A as [A FA]. destruct B as [B FB]. rewrite Forall_forall in FA, FB.
    assert (EX : x = y). { destruct (proj1 (E x) (or_introl eq_refl)) as [|H1]; [congruence|]. destruct (proj2 (E y) (or_introl eq_refl)) as [|H2]; [congruence|]. pose proof (FA y H2). pose proof (FB x H1). lra. }
    subst y. f_equal. apply IH; [exact A|exact B|]. intros t. split; intros H.
    + destruct (proj1 (E t) (or_intror H)) as [<-|]; [|assumption]. pose proof (FA x H). lra.
    + destruct (proj2 (E t) (or_intror H)) as [<-|]; [|assumption]. pose proof (FB x H). lra.
Qed.
Lemma common_times s ts : common s ts -> unique_times s = ts.
Proof.
  intros (N & _ & I & F). destruct (c89_times s) as [S E]. apply sorted_unique; [exact S|exact I|]. intros t. rewrite E. rewrite Forall_forall in F. split.
  - intros (r & Hr & Ht). rewrite <- (F r Hr). exact Ht.
  - intros Ht. destruct (all_rx s) as [|r l]; [congruence|]. exists r. split; [left; reflexivity|]. rewrite (F r (or_introl eq_refl)). exact Ht.
Qed.
Lemma has_time_in t ts : has_time t ts = true <-> In t ts.
Proof.
  unfold has_time. rewrite existsb_exists. split; [intros (x & H & E); destruct (Req_EM_T x t); [subst; exact H|discriminate]|]. intros H. exists t. split; [exact H|]. destruct (Req_EM_T t t); [reflexivity|congruence].
Qed.
