(** Lemmas about the preconditioner model. *)
From Coq Require Import Reals Lra Lia.
From Verif Require Import Py Vec SolveDeriv Precond SpecPrecond NsemRxFacts2.
Local Open Scope R_scope.

Lemma dot_unit n j v : length v = n -> (j < n)%nat -> dot (unit_vec n j) v = nth j v 0.
Proof.
  intros L Hj. rewrite dot_comm.
  assert (G : forall (v : vec) j s, dot v (map (fun i => if Nat.eqb i (s + j) then 1 else 0) (seq s (length v))) = nth j v 0).
  { clear. induction v as [|x v IH]; intros j s; [destruct j; reflexivity|].
    cbn [length seq map dot]. destruct j as [|j].
    - rewrite Nat.add_0_r, Nat.eqb_refl. cbn [nth].
      rewrite (map_ext_in _ (fun _ => 0)).
      + assert (Z : forall l (v : vec), dot v (map (fun _ : nat => 0) l) = 0).
        { clear. induction l as [|a l IH]; intros [|x v]; cbn; try reflexivity. rewrite IH. ring. }
        rewrite Z. ring.
      + intros a Ha. apply in_seq in Ha. destruct (Nat.eqb_spec a s); [lia|reflexivity].
    - destruct (Nat.eqb_spec s (s + S j)); [lia|]. cbn [nth].
      rewrite <- (IH j (S s)). replace (S s + j)%nat with (s + S j)%nat by lia. ring. }
  unfold unit_vec. rewrite <- L. apply (G v j 0%nat).
Qed.

Lemma col_response : forall W J n j, (j < n)%nat -> length J = length W -> Forall (fun r => length r = n) J ->
  vsum (map (fun r => nth j r 0 ^ 2) (map (fun wr => vscale (fst wr) (snd wr)) (combine W J))) =
  dot (vmul W (mv J (unit_vec n j))) (vmul W (mv J (unit_vec n j))).
Proof.
  induction W as [|w W IH]; intros [|r J] n j Hj L F; try discriminate L; [reflexivity|].
  inversion F as [|? ? Lr F']; subst. cbn [combine map fst snd vsum].
  unfold vmul. cbn [mv map zipw dot]. fold vmul.
  change (map (fun r0 => dot r0 (unit_vec (length r) j)) J) with (mv J (unit_vec (length r) j)).
  rewrite IH with (n := length r) by (try exact Hj; try exact F'; cbn in L; lia).
  f_equal. rewrite dot_comm, dot_unit by (try reflexivity; exact Hj).
  unfold vscale. rewrite (nth_indep _ 0 (w * 0)) by (rewrite map_length; exact Hj). rewrite (map_nth (Rmult w)). ring.
Qed.

Lemma jtj_entry n m t : consistent n m t ->
  exists d, jtj_diag n m t = Ok d /\ length d = n /\ forall j, (j < n)%nat -> nth j d 0 = response2 n m t j.
Proof.
  intros [[L F] C]. unfold jtj_diag. destruct (t_sens t) as [g|J|].
  - destruct C as [Lg G]. exists (g m (t_W t)). auto.
  - rewrite C. exists (col_sums n (t_W t) (t_J t m)). split; [reflexivity|]. unfold col_sums. cbv zeta. split.
    + now rewrite map_length, seq_length.
    + intros j Hj. rewrite (nth_tab _ n j 0 Hj). unfold response2. cbv zeta. now apply col_response.
  - destruct C.
Qed.

Lemma nth_vadd2 a b j : length a = length b -> (j < length a)%nat -> nth j (vadd a b) 0 = nth j a 0 + nth j b 0.
Proof. intros L H. unfold vadd. now rewrite zipw_nth. Qed.
Lemma nth_vscale2 c a j : nth j (vscale c a) 0 = c * nth j a 0.
Proof. unfold vscale. rewrite <- (map_nth (Rmult c)). f_equal. ring. Qed.

Lemma jtj_sum_entry n m : forall l acc, length acc = n -> Forall (consistent n m) l ->
  exists d, jtj_sum n m l acc = Ok d /\ length d = n /\
    forall j, (j < n)%nat -> nth j d 0 = nth j acc 0 + total (fun t => response2 n m t j) l.
Proof.
  induction l as [|t l IH]; intros acc L F.
  - exists acc. cbn. split; [reflexivity|]. split; [exact L|]. intros. ring.
  - inversion F as [|? ? C F']; subst. destruct (jtj_entry _ _ _ C) as (d & E & Ld & N).
    assert (Lv : length (vadd acc d) = length acc) by (apply vadd_length; congruence).
    destruct (IH (vadd acc d) Lv F') as (d' & E' & Ld' & N').
    exists d'. cbn [jtj_sum]. rewrite E. cbn [bind]. split; [exact E'|]. split; [exact Ld'|].
    intros j Hj. rewrite N' by exact Hj. rewrite nth_vadd2 by (congruence || exact Hj). rewrite N by exact Hj.
    cbn [total fold_right]. unfold total. ring.
Qed.

Lemma diag_entry n M j : is_mat n n M -> (j < n)%nat -> nth j (diag_of n M) 0 = dot (unit_vec n j) (mv M (unit_vec n j)).
Proof.
  intros [L F] Hj. unfold diag_of. rewrite (nth_tab _ n j 0 Hj).
  rewrite dot_unit by (rewrite ?mv_length; assumption). rewrite nth_mv_all, dot_comm, dot_unit; [reflexivity| |exact Hj].
  rewrite Forall_forall in F. apply F. apply nth_In. lia.
Qed.

Lemma reg_sum_entry init n m w : forall l acc, length acc = n -> Forall (psd n m w) l ->
  (init = true \/ Forall (fun r => r_deriv2 r m w <> None) l) ->
  exists d, reg_sum init n m w l acc = Ok d /\ length d = n /\
    forall j, (j < n)%nat -> nth j d 0 = nth j acc 0 + total (reg_entry n m w j) l.
Proof.
  induction l as [|r l IH]; intros acc L F Z.
  - exists acc. cbn. split; [reflexivity|]. split; [exact L|]. intros. ring.
  - inversion F as [|? ? C F']; subst.
    assert (Z' : init = true \/ Forall (fun r => r_deriv2 r m w <> None) l)
      by (destruct Z as [Z|Z]; [left; exact Z|right; now inversion Z]).
    cbn [reg_sum]. unfold psd in C. destruct (r_deriv2 r m w) as [M|] eqn:E.
    + destruct C as [C P].
      assert (Ld : length (diag_of (length acc) M) = length acc) by (unfold diag_of; now rewrite map_length, seq_length).
      assert (Lv : length (vadd acc (diag_of (length acc) M)) = length acc) by (apply vadd_length; congruence).
      destruct (IH _ Lv F' Z') as (d & Ed & Ldd & N). exists d. split; [exact Ed|]. split; [exact Ldd|].
      intros j Hj. rewrite N by exact Hj. rewrite nth_vadd2 by (congruence || exact Hj). rewrite diag_entry by assumption.
      cbn [total fold_right]. unfold reg_entry at 2. rewrite E. unfold total. ring.
    + destruct Z as [->|Z]; [|inversion Z; congruence].
      destruct (IH acc eq_refl F' (or_introl eq_refl)) as (d & Ed & Ldd & N). exists d. split; [exact Ed|]. split; [exact Ldd|].
      intros j Hj. rewrite N by exact Hj. cbn [total fold_right]. unfold reg_entry at 2. rewrite E. unfold total. ring.
Qed.

(** The diagonal that is inverted. *)
Definition approx_diag (p : problem) (m : vec) (beta : R) (w : vec) (j : nat) : R :=
  total (fun t => response2 (p_n p) m t j) (p_misfit p) + beta * total (reg_entry (p_n p) m w j) (rterms (p_reg p)).

Lemma nth_vzero n j : nth j (vzero n) 0 = 0.
Proof. unfold vzero, vconst. revert j. induction n as [|n IH]; intros [|j]; cbn; auto. Qed.

Lemma precond_entry init p m beta w : good p m w -> is_combo p ->
  (init = true \/ Forall (fun r => r_deriv2 r m w <> None) (rterms (p_reg p))) ->
  exists d, precond init p m beta w = Ok d /\ length d = p_n p /\
    forall j, (j < p_n p)%nat -> nth j d 0 = (let a := approx_diag p m beta w j in if Req_EM_T a 0 then 0 else / a).
Proof.
  intros [G1 G2] [l El] Z. unfold precond, approx_diag. rewrite El in *. cbn [rterms] in *.
  destruct (reg_sum_entry init (p_n p) m w l (vzero (p_n p)) (vzero_length _) G2 Z) as (rd & Er & Lr & Nr).
  destruct (jtj_sum_entry (p_n p) m (p_misfit p) (vzero (p_n p)) (vzero_length _) G1) as (jd & Ej & Lj & Nj).
  rewrite Er. cbn [bind]. rewrite Ej. cbn [bind].
  assert (Ls : length (vscale beta rd) = length jd) by (rewrite vscale_length; congruence).
  assert (Lv : length (vadd jd (vscale beta rd)) = p_n p) by (rewrite vadd_length by congruence; exact Lj).
  eexists. split; [reflexivity|]. split.
  - unfold safe_inv. rewrite map_length. exact Lv.
  - intros j Hj. unfold safe_inv. rewrite map_nth_lt by (rewrite Lv; exact Hj).
    rewrite nth_vadd2 by (rewrite ?Lj; (congruence || exact Hj)). rewrite nth_vscale2, Nr, Nj by exact Hj.
    rewrite !nth_vzero, !Rplus_0_l. cbv zeta.
    destruct (Req_EM_T _ 0) as [E|E]; [exact E|reflexivity].
Qed.

Lemma comb_dot {A} n (f : A -> R * vec) u l : length u = n -> Forall (fun a => length (snd (f a)) = n) l ->
  dot u (comb n f l) = total (fun a => fst (f a) * dot u (snd (f a))) l /\ length (comb n f l) = n.
Proof.
  intros Lu. induction l as [|a l IH]; intros F; cbn [comb fold_right total].
  - rewrite dot_zero_r. split; [reflexivity|apply vzero_length].
  - inversion F as [|? ? La F']; subst. destruct (IH F') as [D L].
    fold (comb (length u) f l). fold (total (fun a => fst (f a) * dot u (snd (f a))) l).
    rewrite dot_vadd_r by (rewrite vscale_length; congruence). rewrite dot_vscale_r, D.
    split; [reflexivity|]. rewrite vadd_length by (rewrite vscale_length; congruence). rewrite vscale_length. exact La.
Qed.
Lemma total_ext {A} (f g : A -> R) l : Forall (fun a => f a = g a) l -> total f l = total g l.
Proof. induction 1 as [|a l H F IH]; cbn; [reflexivity|]. unfold total in IH. now rewrite H, IH. Qed.
Lemma total_scale {A} (f : A -> R) c l : total (fun a => c * f a) l = c * total f l.
Proof. induction l as [|a l IH]; [cbn; ring|]. unfold total in *. cbn [fold_right]. rewrite IH. ring. Qed.
Lemma total_nonneg {A} (f : A -> R) l : Forall (fun a => 0 <= f a) l -> 0 <= total f l.
Proof. induction 1 as [|a l H F IH]; cbn; [lra|]. unfold total in IH. lra. Qed.

Lemma vmul_dot3 : forall W a b : vec, dot a (vmul W (vmul W b)) = dot (vmul W a) (vmul W b).
Proof. unfold vmul. induction W as [|w W IH]; intros [|x a] [|y b]; cbn [zipw dot]; try reflexivity. rewrite IH. ring. Qed.

Lemma misfit_len n m t v : consistent n m t -> length v = n -> length (misfit_H n m t v) = n.
Proof. intros [C _] L. unfold misfit_H. rewrite vscale_length. eapply mtv_length. exact C. Qed.
Lemma misfit_entry n m t j : consistent n m t -> (j < n)%nat ->
  dot (unit_vec n j) (misfit_H n m t (unit_vec n j)) = 2 * response2 n m t j.
Proof.
  intros [C _] Hj. unfold misfit_H, response2. cbv zeta. rewrite dot_vscale_r. f_equal.
  set (a := mv (t_J t m) (unit_vec n j)).
  assert (La : length a = length (t_W t)) by (unfold a; rewrite mv_length; apply C).
  rewrite <- (vmul_dot3 (t_W t) a a).
  assert (L1 : length (vmul (t_W t) a) = length (t_W t)) by (apply vmul_length; congruence).
  assert (L2 : length (vmul (t_W t) (vmul (t_W t) a)) = length (t_W t)) by (apply vmul_length; congruence).
  pose proof (mv_mtv_adjoint _ _ (t_J t m) (vmul (t_W t) (vmul (t_W t) a)) (unit_vec n j) C L2 (unit_length n j)) as A.
  fold a in A. rewrite dot_comm. first [rewrite A | rewrite <- A]. now rewrite dot_comm.
Qed.

Lemma H_entry p m beta w j : good p m w -> (j < p_n p)%nat ->
  H_diag p m beta w j = total (fun t => t_mult t * (2 * response2 (p_n p) m t j)) (p_misfit p)
    + beta * total (fun r => r_mult r * reg_entry (p_n p) m w j r) (rterms (p_reg p)).
Proof.
  intros [G1 G2] Hj. unfold H_diag, hess. set (n := p_n p) in *. set (u := unit_vec n j).
  assert (Lu : length u = n) by apply unit_length.
  destruct (comb_dot n (fun t => (t_mult t, misfit_H n m t u)) u (p_misfit p) Lu) as [D1 L1].
  { eapply Forall_impl; [|exact G1]. intros t C. cbn [snd]. now apply misfit_len. }
  destruct (comb_dot n (fun r => (r_mult r, reg_H n m w r u)) u (rterms (p_reg p)) Lu) as [D2 L2].
  { eapply Forall_impl; [|exact G2]. intros r C. cbn [snd]. unfold reg_H, psd in *. destruct (r_deriv2 r m w) as [M|].
    - rewrite mv_length. apply C.
    - apply vzero_length. }
  rewrite dot_vadd_r by (rewrite vscale_length; congruence). rewrite dot_vscale_r, D1, D2. cbn [fst snd]. f_equal; [|f_equal].
  - apply total_ext. eapply Forall_impl; [|exact G1]. intros t C. cbn beta. f_equal. now apply misfit_entry.
  - apply total_ext. eapply Forall_impl; [|exact G2]. intros r C. cbn beta. f_equal. unfold reg_H, reg_entry.
    destruct (r_deriv2 r m w); [reflexivity|apply dot_zero_r].
Qed.

Lemma response_nonneg n m t j : 0 <= response2 n m t j.
Proof. unfold response2. cbv zeta. apply dot_self_nonneg. Qed.
Lemma reg_entry_nonneg n m w j r : psd n m w r -> 0 <= reg_entry n m w j r.
Proof. unfold psd, reg_entry. destruct (r_deriv2 r m w) as [M|]; [|lra]. intros [_ P]. apply P. apply unit_length. Qed.

Lemma parts p m w j : good p m w -> 0 <= total (fun t => response2 (p_n p) m t j) (p_misfit p) /\
  0 <= total (reg_entry (p_n p) m w j) (rterms (p_reg p)).
Proof.
  intros [G1 G2]. split; apply total_nonneg.
  - apply Forall_forall. intros. apply response_nonneg.
  - eapply Forall_impl; [|exact G2]. intros r. apply reg_entry_nonneg.
Qed.

Lemma H_unit p m beta w j : good p m w -> unit_multipliers p -> (j < p_n p)%nat ->
  H_diag p m beta w j = 2 * total (fun t => response2 (p_n p) m t j) (p_misfit p)
    + beta * total (reg_entry (p_n p) m w j) (rterms (p_reg p)).
Proof.
  intros G [U1 U2] Hj. rewrite H_entry by assumption. rewrite <- (total_scale _ 2). f_equal; [|f_equal]; apply total_ext.
  - eapply Forall_impl; [|exact U1]. intros t ->. ring.
  - eapply Forall_impl; [|exact U2]. intros r ->. ring.
Qed.

Lemma within_two init p m beta w d j : good p m w -> unit_multipliers p -> 0 <= beta ->
  precond init p m beta w = Ok d -> (init = true \/ Forall (fun r => r_deriv2 r m w <> None) (rterms (p_reg p))) -> is_combo p -> (j < p_n p)%nat ->
  length d = p_n p /\
  (H_diag p m beta w j = 0 -> nth j d 0 = 0) /\
  (H_diag p m beta w j <> 0 -> 0 < H_diag p m beta w j /\ 1 / H_diag p m beta w j <= nth j d 0 <= 2 / H_diag p m beta w j).
Proof.
  intros G U B E Z C Hj. destruct (precond_entry init p m beta w G C Z) as (d' & E' & L & N).
  rewrite E in E'. injection E' as <-. split; [exact L|]. rewrite N by exact Hj. rewrite H_unit by assumption.
  cbv zeta. unfold approx_diag. destruct (parts p m w j G) as [Pa Pb].
  set (a := total (fun t => response2 (p_n p) m t j) (p_misfit p)) in *. set (b := total (reg_entry (p_n p) m w j) (rterms (p_reg p))) in *.
  clearbody a b. assert (Pc : 0 <= beta * b) by now apply Rmult_le_pos. set (c := beta * b) in *. clearbody c.
  destruct (Req_EM_T (a + c) 0) as [Q|Q].
  - split; [reflexivity|]. intros X. exfalso. lra.
  - assert (0 < a + c) by lra. split; [intros; lra|]. intros X. split; [lra|]. split.
    + unfold Rdiv. rewrite Rmult_1_l. apply Rinv_le_contravar; lra.
    + apply Rmult_le_reg_l with (a + c); [lra|]. rewrite Rinv_r by lra.
      unfold Rdiv. replace ((a + c) * (2 * / (2 * a + c))) with ((2 * a + 2 * c) * / (2 * a + c)) by ring.
      apply Rmult_le_reg_r with (2 * a + c); [lra|]. rewrite Rmult_assoc, Rinv_l by lra. lra.
Qed.

(** ** Iterations *)
Lemma call_app f ds1 : forall ds2 s, call f (ds1 ++ ds2) s = bind (call f ds1 s) (call f ds2).
Proof. induction ds1 as [|d ds IH]; intros ds2 s; [reflexivity|]. cbn [app call]. destruct (f d s); [apply IH|reflexivity]. Qed.

Lemma keeps_end p d s s' : keeps d -> endIter p d s = Ok s' -> fresh p s -> fresh p s'.
Proof.
  destruct d as [| | |[]| |]; cbn [keeps endIter]; intros K E F; try contradiction; try (injection E as <-; exact F).
  destruct F as (d & Hd & P). rewrite P in E. cbn [bind] in E. injection E as <-. exists d. split; [reflexivity|exact P].
Qed.
Lemma pre_end p s s' : endIter p (DPre true) s = Ok s' -> fresh p s'.
Proof.
  cbn [endIter]. destruct (precond false p (s_m s) (s_beta s) (s_w s)) as [d|] eqn:E; [|discriminate].
  cbn [bind]. intros H. injection H as <-. exists d. split; [reflexivity|exact E].
Qed.
Lemma keeps_call p ds : forall s s', Forall keeps ds -> call (endIter p) ds s = Ok s' -> fresh p s -> fresh p s'.
Proof.
  induction ds as [|d ds IH]; intros s s' K E F; cbn [call] in E; [injection E as <-; exact F|].
  inversion K; subst. destruct (endIter p d s) as [s1|] eqn:E1; [|discriminate]. cbn [bind] in E. eapply IH; eauto using keeps_end.
Qed.
Lemma tail_call p pre post s s' : Forall keeps post -> call (endIter p) (pre ++ DPre true :: post) s = Ok s' -> fresh p s'.
Proof.
  intros K. rewrite call_app. destruct (call (endIter p) pre s) as [s1|]; [|discriminate]. cbn [bind call].
  destruct (endIter p (DPre true) s1) as [s2|] eqn:E; [|discriminate]. cbn [bind]. intros H.
  eapply keeps_call; eauto using pre_end.
Qed.

Lemma init_false init p m w beta d : precond false p m beta w = Ok d -> precond init p m beta w = Ok d.
Proof.
  destruct init; [|auto]. unfold precond. destruct (p_reg p) as [l|r]; [|auto].
  assert (X : forall l acc x, reg_sum false (p_n p) m w l acc = Ok x -> reg_sum true (p_n p) m w l acc = Ok x).
  { induction l0 as [|r l0 IH]; intros acc x; cbn [reg_sum]; [auto|]. destruct (r_deriv2 r m w); [apply IH|discriminate]. }
  destruct (reg_sum false (p_n p) m w l (vzero (p_n p))) as [x|] eqn:E; [|discriminate]. rewrite (X _ _ _ E). auto.
Qed.
Lemma true_false p m w beta d : no_zero p -> precond true p m beta w = Ok d -> precond false p m beta w = Ok d.
Proof.
  intros Z. specialize (Z m w). unfold precond. destruct (p_reg p) as [l|r]; [|auto]. cbn [rterms] in Z.
  assert (X : forall l acc, Forall (fun r => r_deriv2 r m w <> None) l -> reg_sum false (p_n p) m w l acc = reg_sum true (p_n p) m w l acc).
  { induction l0 as [|r l0 IH]; intros acc F; cbn [reg_sum]; [auto|]. inversion F; subst. destruct (r_deriv2 r m w); [now apply IH|congruence]. }
  now rewrite X.
Qed.
Lemma keeps_init p d s s' : no_zero p -> keeps d -> initialize p d s = Ok s' -> fresh p s -> fresh p s'.
Proof.
  intros Z. destruct d as [| | |every| |]; cbn [keeps initialize]; intros K E F; try contradiction; try (injection E as <-; exact F).
  destruct F as (d & Hd & P). rewrite (init_false true _ _ _ _ _ P) in E. cbn [bind] in E. injection E as <-. exists d. split; [reflexivity|exact P].
Qed.
Lemma pre_init p every s s' : no_zero p -> initialize p (DPre every) s = Ok s' -> fresh p s'.
Proof.
  intros Z. cbn [initialize]. destruct (precond true p (s_m s) (s_beta s) (s_w s)) as [d|] eqn:E; [|discriminate].
  cbn [bind]. intros H. injection H as <-. exists d. split; [reflexivity|]. now apply true_false.
Qed.
Lemma keeps_call_init p ds : no_zero p -> forall s s', Forall keeps ds -> call (initialize p) ds s = Ok s' -> fresh p s -> fresh p s'.
Proof.
  intros Z. induction ds as [|d ds IH]; intros s s' K E F; cbn [call] in E; [injection E as <-; exact F|].
  inversion K; subst. destruct (initialize p d s) as [s1|] eqn:E1; [|discriminate]. cbn [bind] in E. eapply IH; eauto using keeps_init.
Qed.
Lemma tail_call_init p pre post s s' : no_zero p -> Forall keeps post -> call (initialize p) (pre ++ DPre true :: post) s = Ok s' -> fresh p s'.
Proof.
  intros Z K. rewrite call_app. destruct (call (initialize p) pre s) as [s1|]; [|discriminate]. cbn [bind call].
  destruct (initialize p (DPre true) s1) as [s2|] eqn:E; [|discriminate]. cbn [bind]. intros H.
  eapply keeps_call_init; eauto using pre_init.
Qed.
Lemma iterate_fresh p pre post : Forall keeps post -> forall steps s trace sf tr,
  fresh p s -> Forall (fresh p) trace -> iterate p (pre ++ DPre true :: post) steps s trace = Ok (sf, tr) ->
  fresh p sf /\ Forall (fresh p) tr /\ length tr = (length trace + length steps)%nat.
Proof.
  intros K. induction steps as [|m' steps IH]; intros s trace sf tr F T E; cbn [iterate] in E.
  - injection E as <- <-. split; [exact F|]. rewrite rev_length. cbn [length]. split; [now apply Forall_rev|lia].
  - destruct (call (endIter p) (pre ++ DPre true :: post) _) as [s'|] eqn:C; [|discriminate]. cbn [bind] in E.
    apply tail_call in C; [|exact K]. apply IH in E; [|exact C|now constructor]. cbn [length] in *. intuition lia.
Qed.
Lemma invert_fresh p pre post m0 beta0 w0 steps sf tr : no_zero p -> Forall keeps post ->
  invert p (pre ++ DPre true :: post) m0 beta0 w0 steps = Ok (sf, tr) ->
  length tr = length steps /\ Forall (fresh p) tr /\ fresh p sf.
Proof.
  intros Z K E. unfold invert in E. destruct (call (initialize p) _ _) as [s|] eqn:C; [|discriminate]. cbn [bind] in E.
  apply tail_call_init in C; [|exact Z|exact K]. eapply iterate_fresh in E; eauto. cbn in E. intuition.
Qed.

(** Runs do not fail when everything is in order *)
Lemma others_ok p ds : Forall other ds -> forall s, (exists s', call (endIter p) ds s = Ok s') /\ (exists s', call (initialize p) ds s = Ok s').
Proof.
  induction 1 as [|d ds O F IH]; intros s; cbn [call]; [split; eauto|].
  assert (E : exists s1, endIter p d s = Ok s1) by (destruct d as [| | |[]| |]; cbn [endIter other] in *; try contradiction; eauto;
    destruct (_ && _)%bool; eauto).
  assert (I : exists s1, initialize p d s = Ok s1) by (destruct d as [| | |[]| |]; cbn [initialize other] in *; try contradiction; eauto).
  destruct E as [s1 E], I as [s2 I]. rewrite E, I. cbn [bind]. split; [apply (IH s1)|apply (IH s2)].
Qed.

Lemma near init p m beta w d : good p m w -> unit_multipliers p -> 0 <= beta -> is_combo p ->
  (init = true \/ Forall (fun r => r_deriv2 r m w <> None) (rterms (p_reg p))) ->
  precond init p m beta w = Ok d -> near_jacobi p m beta w d.
Proof.
  intros G U B C Z E. split.
  - destruct (precond_entry init p m beta w G C Z) as (d' & E' & L & _). congruence.
  - intros j Hj. cbv zeta. eapply within_two; eauto.
Qed.
Lemma exists_pc init p m beta w : good p m w -> is_combo p ->
  (init = true \/ Forall (fun r => r_deriv2 r m w <> None) (rterms (p_reg p))) -> exists d, precond init p m beta w = Ok d.
Proof. intros G C Z. destruct (precond_entry init p m beta w G C Z) as (d & E & _). eauto. Qed.

Lemma sign init p m beta w d j : good p m w -> 0 <= beta -> is_combo p ->
  (init = true \/ Forall (fun r => r_deriv2 r m w <> None) (rterms (p_reg p))) ->
  precond init p m beta w = Ok d -> 0 <= nth j d 0.
Proof.
  intros G B C Z E. destruct (precond_entry init p m beta w G C Z) as (d' & E' & L & N). rewrite E in E'. injection E' as <-.
  destruct (le_lt_dec (p_n p) j) as [H|H].
  - rewrite nth_overflow by lia. lra.
  - rewrite N by exact H. cbv zeta. destruct (parts p m w j G) as [Pa Pb]. destruct (Req_EM_T _ 0) as [_|Q]; [lra|].
    left. apply Rinv_0_lt_compat. unfold approx_diag in *. assert (0 <= beta * total (reg_entry (p_n p) m w j) (rterms (p_reg p))) by now apply Rmult_le_pos. lra.
Qed.

Lemma one_fine (init : bool) p d s : well_posed p -> no_wj d ->
  exists s', (if init then initialize p d s else endIter p d s) = Ok s'.
Proof.
  intros (G & C & Z) O. specialize (G (s_m s) (s_w s)). specialize (Z (s_m s) (s_w s)).
  destruct (exists_pc true p (s_m s) (s_beta s) (s_w s) G C (or_introl eq_refl)) as [d1 E1].
  destruct (exists_pc false p (s_m s) (s_beta s) (s_w s) G C (or_intror Z)) as [d2 E2].
  destruct init, d as [| | |[]| |]; cbn [initialize endIter no_wj] in *; try contradiction; rewrite ?E1, ?E2; cbn [bind]; eauto.
  destruct (_ && _)%bool; eauto.
Qed.
Lemma call_fine (init : bool) p ds : well_posed p -> Forall no_wj ds -> forall s,
  exists s', call (fun d s => if init then initialize p d s else endIter p d s) ds s = Ok s'.
Proof.
  intros W. induction 1 as [|d ds O F IH]; intros s; cbn [call]; [eauto|].
  destruct (one_fine init p d s W O) as [s1 E]. rewrite E. apply IH.
Qed.
Lemma invert_fine p ds m0 beta0 w0 steps : well_posed p -> Forall no_wj ds -> exists sf tr, invert p ds m0 beta0 w0 steps = Ok (sf, tr).
Proof.
  intros W F. unfold invert. destruct (call_fine true p ds W F (mkSt m0 beta0 w0 None 0)) as [s E].
  assert (E' : call (initialize p) ds (mkSt m0 beta0 w0 None 0) = Ok s) by exact E. clear E. rename E' into E. rewrite E. cbn [bind]. clear E m0 beta0 w0.
  generalize (@nil st) as trace. revert s. induction steps as [|m' steps IH]; intros s trace; cbn [iterate]; [eauto|].
  destruct (call_fine false p ds W F (mkSt m' (s_beta s) (s_w s) (s_pc s) (S (s_iter s)))) as [s' E].
  assert (E' : call (endIter p) ds (mkSt m' (s_beta s) (s_w s) (s_pc s) (S (s_iter s))) = Ok s') by exact E. clear E. rename E' into E. rewrite E. apply IH.
Qed.

Lemma every_solve p pre post m0 beta0 w0 steps : well_posed p -> unit_multipliers p -> Forall no_wj pre -> Forall keeps post ->
  exists sf tr, invert p (pre ++ DPre true :: post) m0 beta0 w0 steps = Ok (sf, tr) /\ length tr = length steps /\
    Forall (fun s => exists d, s_pc s = Some d /\ (0 <= s_beta s -> near_jacobi p (s_m s) (s_beta s) (s_w s) d)) tr.
Proof.
  intros W U N K.
  assert (F : Forall no_wj (pre ++ DPre true :: post)).
  { apply Forall_app. split; [exact N|]. constructor; [exact I|]. eapply Forall_impl; [|exact K]. intros []; cbn; auto. }
  destruct (invert_fine p _ m0 beta0 w0 steps W F) as (sf & tr & E). exists sf, tr. split; [exact E|].
  destruct W as (G & C & Z). destruct (invert_fresh _ _ _ _ _ _ _ _ _ Z K E) as (L & T & _). split; [exact L|].
  eapply Forall_impl; [|exact T]. intros s (d & Hd & P). exists d. split; [exact Hd|]. intros B.
  eapply near; eauto.
Qed.

Lemma jtj_fails n m : forall l acc, jtj_sum n m l acc = Err AssertionError <-> Exists (fun t => t_sens t = HasNone) l.
Proof.
  induction l as [|t l IH]; intros acc; cbn [jtj_sum].
  - split; [discriminate|intros H; inversion H].
  - rewrite Exists_cons. unfold jtj_diag. destruct (t_sens t) eqn:E; cbn [bind]; rewrite ?IH; intuition (try discriminate).
Qed.
Lemma jtj_only n m : forall l acc e, jtj_sum n m l acc = Err e -> e = AssertionError.
Proof.
  induction l as [|t l IH]; intros acc e; cbn [jtj_sum]; [discriminate|].
  unfold jtj_diag. destruct (t_sens t); cbn [bind]; try apply IH. congruence.
Qed.
Lemma needs init p m beta w : is_combo p -> (init = true \/ Forall (fun r => r_deriv2 r m w <> None) (rterms (p_reg p))) ->
  ((exists t, In t (p_misfit p) /\ t_sens t = HasNone) -> precond init p m beta w = Err AssertionError) /\
  (~ (exists t, In t (p_misfit p) /\ t_sens t = HasNone) -> exists d, precond init p m beta w = Ok d).
Proof.
  intros [l El] Z. unfold precond. rewrite El in *. cbn [rterms] in Z.
  assert (X : forall l acc, (init = true \/ Forall (fun r => r_deriv2 r m w <> None) l) -> exists d, reg_sum init (p_n p) m w l acc = Ok d).
  { clear Z El. intros l0. induction l0 as [|r l0 IH]; intros acc ZZ; cbn [reg_sum]; [eauto|].
    assert (ZZ' : init = true \/ Forall (fun r => r_deriv2 r m w <> None) l0) by (destruct ZZ as [?|Y]; [auto|right; now inversion Y]).
    destruct (r_deriv2 r m w) eqn:E; [now apply IH|]. destruct ZZ as [->|Y]; [now apply IH|inversion Y; congruence]. }
  destruct (X l (vzero (p_n p)) Z) as [rd Er]. rewrite Er. cbn [bind]. split.
  - intros H. apply Exists_exists in H. rewrite (proj2 (jtj_fails _ _ _ _) H). reflexivity.
  - intros H. rewrite <- Exists_exists in H. destruct (jtj_sum _ _ _ _) as [jd|e] eqn:E; cbn [bind]; [eauto|].
    destruct H. rewrite (jtj_only _ _ _ _ _ E) in E. now apply jtj_fails in E.
Qed.

(** ** Failures *)
Lemma plain_fails p r pre every post m0 beta0 w0 steps : p_reg p = Plain r -> Forall other pre ->
  invert p (pre ++ DPre every :: post) m0 beta0 w0 steps = Err AttributeError.
Proof.
  intros Ep F. unfold invert. rewrite call_app. destruct (others_ok p pre F (mkSt m0 beta0 w0 None 0)) as [_ [s E]]. rewrite E.
  cbn [bind call initialize]. unfold precond. rewrite Ep. reflexivity.
Qed.
Lemma zero_fails : (exists r, invert zero_reg [DPre true] [0] 1 [] [] = Ok r) /\
  forall m' steps, invert zero_reg [DPre true] [0] 1 [] (m' :: steps) = Err AttributeError.
Proof. split; [eexists; reflexivity|]. intros. reflexivity. Qed.

Lemma other_iter p ds : Forall other ds -> forall s s', call (endIter p) ds s = Ok s' -> s_iter s' = s_iter s.
Proof.
  induction 1 as [|d ds O F IH]; intros s s' E; cbn [call] in E; [congruence|].
  destruct (endIter p d s) as [s1|] eqn:E1; [|discriminate]. cbn [bind] in E. apply IH in E. rewrite E. clear E IH.
  destruct d as [| | |[]| |]; cbn [endIter other] in *; try contradiction; try (injection E1 as <-; reflexivity).
  destruct (_ && _)%bool; injection E1 as <-; reflexivity.
Qed.
Lemma other_iter_init p ds : Forall other ds -> forall s s', call (initialize p) ds s = Ok s' -> s_iter s' = s_iter s.
Proof.
  induction 1 as [|d ds O F IH]; intros s s' E; cbn [call] in E; [congruence|].
  destruct (initialize p d s) as [s1|] eqn:E1; [|discriminate]. cbn [bind] in E. apply IH in E. rewrite E. clear E IH.
  destruct d as [| | |[]| |]; cbn [initialize other] in *; try contradiction; try (injection E1 as <-; reflexivity).
Qed.
Lemma wj_iterate p pre k itr post : Forall other pre -> Forall other post -> forall steps s trace,
  match itr with None => (1 <= length steps)%nat | Some i => (s_iter s < i <= s_iter s + length steps)%nat end ->
  iterate p (pre ++ DWj k itr :: post) steps s trace = Err AttributeError.
Proof.
  intros F1 F2. induction steps as [|m' steps IH]; intros s trace A; cbn [iterate length] in *.
  - destruct itr; lia.
  - rewrite call_app. destruct (others_ok p pre F1 (mkSt m' (s_beta s) (s_w s) (s_pc s) (S (s_iter s)))) as [[s1 E1] _].
    rewrite E1. apply other_iter in E1; [|exact F1]. cbn [s_iter] in E1. cbn [bind call endIter]. unfold wj_end.
    destruct itr as [i|]; [|reflexivity]. rewrite E1. destruct (Nat.eqb_spec i (S (s_iter s))) as [->|Hi]; [reflexivity|].
    cbn [bind]. destruct (others_ok p post F2 s1) as [[s2 E2] _]. rewrite E2. cbn [bind]. apply other_iter in E2; [|exact F2].
    apply IH. rewrite E2, E1. lia.
Qed.
Lemma wj_fails p pre k itr post m0 beta0 w0 steps : Forall other pre -> Forall other post -> acts_by itr (length steps) ->
  invert p (pre ++ DWj k itr :: post) m0 beta0 w0 steps = Err AttributeError.
Proof.
  intros F1 F2 A. unfold invert. rewrite call_app. destruct (others_ok p pre F1 (mkSt m0 beta0 w0 None 0)) as [_ [s1 E1]]. rewrite E1.
  apply other_iter_init in E1; [|exact F1]. cbn [s_iter] in E1. cbn [bind call initialize].
  destruct (others_ok p post F2 s1) as [_ [s2 E2]]. rewrite E2. apply other_iter_init in E2; [|exact F2]. cbn [bind].
  apply wj_iterate; [exact F1|exact F2|]. unfold acts_by in A. rewrite E2, E1. destruct itr; lia.
Qed.

(** ** Cases *)
Lemma two2_good m w : good two2 m w.
Proof.
  split; (constructor; [|constructor]).
  - split; [split; [reflexivity|repeat constructor]|reflexivity].
  - unfold psd. cbn [r_deriv2 small]. split; [split; [reflexivity|repeat constructor]|].
    intros [|a [|b [|]]] L; try discriminate L. cbn [mv map dot]. nra.
Qed.
Lemma one1_good cd cm m w : good (one1 cd cm) m w.
Proof.
  split; (constructor; [|constructor]).
  - split; [split; [reflexivity|repeat constructor]|reflexivity].
  - unfold psd. cbn [r_deriv2 small]. split; [split; [reflexivity|repeat constructor]|].
    intros [|a [|]] L; try discriminate L. cbn [mv map dot]. nra.
Qed.
Lemma two2_posed : well_posed two2 /\ unit_multipliers two2.
Proof.
  split; [split; [intros; apply two2_good|split; [eexists; reflexivity|]]|].
  - intros m w. constructor; [discriminate|constructor].
  - split; constructor; try reflexivity; constructor.
Qed.
Lemma one1_pc cd cm m w beta : precond true (one1 cd cm) m beta w = Ok (safe_inv [0 + (1 * 1) ^ 2 + 0 + beta * (0 + 2)]) .
Proof.
  unfold precond, one1. cbn [p_reg p_n p_misfit reg_sum jtj_sum jtj_diag t_sens sense1 small r_deriv2 bind].
  do 2 f_equal. unfold col_sums, diag_of, vadd, vzero, vconst, vscale. cbn [repeat combine map seq nth zipw vsum fst snd t_W sense1].
  f_equal. ring.
Qed.
Lemma one1_H cd cm m w beta : H_diag (one1 cd cm) m beta w 0 = 2 * cd + beta * (2 * cm).
Proof.
  rewrite H_entry by (try apply one1_good; cbn; lia). unfold one1, total, reg_entry, response2.
  cbn [p_misfit p_reg rterms fold_right t_mult r_mult sense1 small r_deriv2 t_W t_J p_n unit_vec seq map Nat.eqb mv dot].
  unfold vmul. cbn [zipw dot]. ring.
Qed.
Lemma two2_H m w beta : H_diag two2 m beta w 0 = 2 + beta * 2 /\ H_diag two2 m beta w 1 = beta * 2.
Proof.
  split; (rewrite H_entry by (try apply two2_good; cbn; lia)); unfold two2, total, reg_entry, response2;
  cbn [p_misfit p_reg rterms fold_right t_mult r_mult sense1 small r_deriv2 t_W t_J p_n unit_vec seq map Nat.eqb mv dot];
  unfold vmul; cbn [zipw dot]; ring.
Qed.
Lemma two2_pc : forall init m w, precond init two2 m 1 w = Ok [/ 3; / 2].
Proof.
  intros init m w. unfold precond, two2. cbn [p_reg p_n p_misfit reg_sum jtj_sum jtj_diag t_sens sense1 small r_deriv2 bind].
  f_equal. unfold col_sums, diag_of, vadd, vzero, vconst, vscale, safe_inv. cbn [repeat combine map seq nth zipw vsum fst snd t_W sense1].
  f_equal; [|f_equal]; (destruct (Req_EM_T _ 0); [lra|f_equal; ring]).
Qed.
Lemma not_jacobi : well_posed two2 /\ unit_multipliers two2 /\ exists d, precond true two2 [0; 0] 1 [] = Ok d /\
  ~ (exists c, forall j, (j < 2)%nat -> nth j d 0 = c / H_diag two2 [0; 0] 1 [] j).
Proof.
  destruct two2_posed as [A B]. split; [exact A|]. split; [exact B|]. exists [/ 3; / 2]. split; [apply two2_pc|].
  intros [c H]. pose proof (H 0%nat ltac:(lia)) as H0. pose proof (H 1%nat ltac:(lia)) as H1. destruct (two2_H [0; 0] [] 1) as [E0 E1].
  rewrite E0 in H0. rewrite E1 in H1. cbn [nth] in *. lra.
Qed.
Lemma no_factor K : 0 < K -> exists p d, (forall m w, good p m w) /\ is_combo p /\
  Forall (fun t => 0 < t_mult t) (p_misfit p) /\ Forall (fun r => 0 < r_mult r) (rterms (p_reg p)) /\ p_n p = 1%nat /\
  0 < H_diag p [0] 1 [] 0 /\ precond true p [0] 1 [] = Ok d /\ K / H_diag p [0] 1 [] 0 < nth 0 d 0.
Proof.
  intros HK. exists (one1 (2 * K) 1). eexists. split; [intros; apply one1_good|]. split; [eexists; reflexivity|].
  split; [constructor; [cbn; lra|constructor]|]. split; [constructor; [cbn; lra|constructor]|]. split; [reflexivity|].
  rewrite one1_H. split; [lra|]. split; [apply one1_pc|]. unfold safe_inv. cbn [map nth].
  destruct (Req_EM_T _ 0) as [Q|_]; [lra|].
  apply Rmult_lt_reg_r with ((2 * (2 * K) + 1 * (2 * 1)) * 3); [lra|].
  replace (K / (2 * (2 * K) + 1 * (2 * 1)) * ((2 * (2 * K) + 1 * (2 * 1)) * 3)) with (3 * K) by (field; lra).
  replace (/ (0 + (1 * 1) ^ 2 + 0 + 1 * (0 + 2)) * ((2 * (2 * K) + 1 * (2 * 1)) * 3)) with (4 * K + 2) by (field; lra). lra.
Qed.
Lemma stale : exists sf s1 s2, invert two2 [DPre true; DBeta 2 1 10] [0; 0] 1 [] [[0; 0]; [0; 0]] = Ok (sf, [s1; s2]) /\
  s_beta s2 = 1 / 2 /\ ~ fresh two2 s2 /\ exists d, s_pc s2 = Some d /\ precond false two2 (s_m s2) 1 (s_w s2) = Ok d.
Proof.
  assert (E : invert two2 [DPre true; DBeta 2 1 10] [0; 0] 1 [] [[0; 0]; [0; 0]] =
    do d <- precond true two2 [0; 0] 1 []; do d1 <- precond false two2 [0; 0] 1 []; do d2 <- precond false two2 [0; 0] (1 / 2) [];
    Ok (mkSt [0; 0] (1 / 2 / 2) [] (Some d2) 2, [mkSt [0; 0] 1 [] (Some d) 0; mkSt [0; 0] (1 / 2) [] (Some d1) 1])) by reflexivity.
  rewrite !two2_pc in E. cbn [bind] in E.
  destruct (exists_pc false two2 [0; 0] (1 / 2) [] (two2_good _ _)) as [d2 E2]; [apply two2_posed|right; apply two2_posed|].
  rewrite E2 in E. cbn [bind] in E. do 3 eexists. split; [exact E|]. split; [reflexivity|]. split.
  - intros (d & Hd & P). cbn [s_pc s_m s_beta s_w] in *. injection Hd as <-.
    pose proof (precond_entry false two2 [0; 0] (1 / 2) [] (two2_good _ _)) as Q.
    destruct Q as (d' & E' & _ & N); [apply two2_posed|right; apply two2_posed|]. rewrite P in E'. injection E' as <-.
    specialize (N 1%nat ltac:(cbn; lia)). cbv zeta in N. cbn [nth] in N.
    unfold approx_diag, two2, total, reg_entry, response2 in N.
    cbn [p_misfit p_reg rterms fold_right t_mult r_mult sense1 small r_deriv2 t_W t_J p_n unit_vec seq map Nat.eqb mv dot] in N.
    unfold vmul in N. cbn [zipw dot] in N. destruct (Req_EM_T _ 0) as [Z|Z]; [lra|].
    match type of N with _ = / ?x => replace x with 1 in N by lra end. lra.
  - eexists. split; [reflexivity|]. apply two2_pc.
Qed.
