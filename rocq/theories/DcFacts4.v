From Verif Require Import Py Vec VecDeriv Frechet Joint Richards RichardsFacts RichardsFacts2 RichardsFacts3 LinSimFacts SolveDeriv Dc SpecDc DcFacts DcFacts2 DcFacts3.
From Coq Require Import Reals Lra Lia.
Local Open Scope R_scope.

Section Main.
  Context (s : dc) (srcs : list source) (SO : setup_ok s srcs).
  Lemma dpred_val m : length m = d_p s -> snd (dpred s (init srcs) m None) = Ok (F0 s srcs m).
  Proof. intros Lm. rewrite <- (dpredP_ok s srcs SO m Lm). apply (dpred_ok s srcs (init srcs) None m false (inv_init s srcs)). Qed.
  Lemma Jvec_eq m v : snd (Jvec s (init srcs) m v None) = JvecP s srcs m v.
  Proof. apply (Jvec_ok s srcs (init srcs) None m v false (inv_init s srcs)). Qed.
  Lemma Jtvec_eq m v : snd (Jtvec s (init srcs) m v None) = JtvecP s srcs m v.
  Proof. apply (Jtvec_ok s srcs (init srcs) None m v false (inv_init s srcs)). Qed.
  Lemma getJ_eq m : snd (getJ s (init srcs) m None) = getJP s srcs m.
  Proof. apply (getJ_ok s srcs (init srcs) None m false (inv_init s srcs)). Qed.
  Lemma near_self p m Q : length m = p -> near p m Q -> Q m.
  Proof. intros L (e & He & H). apply H; [exact L|]. intros i Hi. rewrite Rminus_eq_0, Rabs_R0. exact He. Qed.
  Lemma Jvec_val m v : length m = d_p s -> length v = d_p s -> solves (d_n s) (d_solve s) (getA s m) -> (d_storeJ s = true -> symmetric (d_n s) (getA s m)) ->
    snd (Jvec s (init srcs) m v None) = Ok (J0 s srcs m v).
  Proof.
    intros Lm Lv SV SY. rewrite Jvec_eq. destruct (d_storeJ s) eqn:E; [|apply JvecP_ok; assumption].
    unfold JvecP. rewrite Lm, Nat.eqb_refl, E. destruct (JP_ok s srcs SO m Lm SV (SY eq_refl)) as (J & -> & _ & H). cbn. rewrite H by exact Lv. reflexivity.
  Qed.
  Lemma Jtvec_val m w : length m = d_p s -> length w = data_size s srcs -> solves (d_n s) (d_solve s) (getA s m) -> symmetric (d_n s) (getA s m) ->
    exists a, snd (Jtvec s (init srcs) m w None) = Ok a /\ length a = d_p s /\ forall v, length v = d_p s -> dot a v = dot w (J0 s srcs m v).
  Proof.
    intros Lm Lw SV SY. rewrite Jtvec_eq. destruct (d_storeJ s) eqn:E; [|apply JtvecP_ok; assumption].
    unfold JtvecP. rewrite Lm, Nat.eqb_refl, E. destruct (JP_ok s srcs SO m Lm SV SY) as (J & -> & HJ & H). cbn. eexists. split; [reflexivity|]. split; [eapply mtv_length; exact HJ|].
    intros v Lv. rewrite <- (mv_mtv_adjoint (data_size s srcs) (d_p s)) by assumption. rewrite H by exact Lv. reflexivity.
  Qed.
End Main.

Lemma has_jacobian_ext n k F G m J K : has_jacobian n k F m J -> length m = n -> (forall x, length x = n -> F x = G x) -> (forall v, length v = n -> J v = K v) -> has_jacobian n k G m K.
Proof.
  intros H Lm E1 E2 v Lv. rewrite <- E2 by exact Lv. eapply vderiv_ext; [|exact (H v Lv)]. intros t. cbv beta. apply E1. ln.
Qed.
Lemma c64_jacobian s srcs m : setup_ok s srcs -> d_neumann s = false -> regular s m -> (d_storeJ s = true -> symmetric (d_n s) (getA s m)) ->
  (exists d, snd (dpred s (init srcs) m None) = Ok d) /\ (forall v, length v = d_p s -> exists j, snd (Jvec s (init srcs) m v None) = Ok j) /\
  has_jacobian (d_p s) (data_size s srcs) (fun m' => val [] (snd (dpred s (init srcs) m' None))) m (fun v => val [] (snd (Jvec s (init srcs) m v None))).
Proof.
  intros SO NN RG SY. pose proof RG as (Lm & _ & _ & Near). pose proof (near_self _ _ _ Lm Near) as SV. cbv beta in SV.
  split; [eexists; apply dpred_val; assumption|]. split; [intros v Lv; eexists; apply Jvec_val; assumption|].
  eapply has_jacobian_ext; [apply (data_jac s srcs SO m NN RG)|exact Lm| |].
  - intros x Lx. rewrite dpred_val by assumption. reflexivity.
  - intros v Lv. rewrite Jvec_val by assumption. reflexivity.
Qed.
Lemma c64_adjoint s srcs m v w : setup_ok s srcs -> length m = d_p s -> length v = d_p s -> length w = data_size s srcs -> solves (d_n s) (d_solve s) (getA s m) -> symmetric (d_n s) (getA s m) ->
  exists j a, snd (Jvec s (init srcs) m v None) = Ok j /\ snd (Jtvec s (init srcs) m w None) = Ok a /\ length j = data_size s srcs /\ length a = d_p s /\ dot w j = dot a v.
Proof.
  intros SO Lm Lv Lw SV SY. destruct (Jtvec_val s srcs SO m w Lm Lw SV SY) as (a & Ea & La & Q).
  exists (J0 s srcs m v), a. split; [apply Jvec_val; auto|]. split; [exact Ea|]. split; [apply J0_length; exact SO|]. split; [exact La|]. symmetry. apply Q. exact Lv.
Qed.
Lemma c64_getJ s srcs m : setup_ok s srcs -> length m = d_p s -> solves (d_n s) (d_solve s) (getA s m) -> symmetric (d_n s) (getA s m) ->
  exists J, snd (getJ s (init srcs) m None) = Ok J /\ is_mat (data_size s srcs) (d_p s) J /\
    (forall v, length v = d_p s -> snd (Jvec s (init srcs) m v None) = Ok (mv J v)) /\
    (forall w, length w = data_size s srcs -> snd (Jtvec s (init srcs) m w None) = Ok (mtv (d_p s) J w)).
Proof.
  intros SO Lm SV SY. destruct (JP_ok s srcs SO m Lm SV SY) as (J & EJ & HJ & H). exists J. split; [rewrite getJ_eq; unfold getJP; rewrite Lm, Nat.eqb_refl; exact EJ|]. split; [exact HJ|].
  split.
  - intros v Lv. rewrite Jvec_val by auto. rewrite H by exact Lv. reflexivity.
  - intros w Lw. destruct (Jtvec_val s srcs SO m w Lm Lw SV SY) as (a & Ea & La & Q). rewrite Ea. f_equal. apply dot_ext; [rewrite La; symmetry; eapply mtv_length; exact HJ|].
    intros v Lv. rewrite La in Lv. rewrite Q by exact Lv. rewrite <- (mv_mtv_adjoint (data_size s srcs) (d_p s)) by assumption. rewrite H by exact Lv. reflexivity.
Qed.
(** Storing the sensitivity matrix changes nothing. *)
Lemma c64_store s srcs m b v w : setup_ok s srcs -> length m = d_p s -> length v = d_p s -> length w = data_size s srcs -> solves (d_n s) (d_solve s) (getA s m) -> symmetric (d_n s) (getA s m) ->
  snd (Jvec (with_store s b) (init srcs) m v None) = snd (Jvec s (init srcs) m v None) /\ snd (Jtvec (with_store s b) (init srcs) m w None) = snd (Jtvec s (init srcs) m w None).
Proof.
  intros SO Lm Lv Lw SV SY. destruct (c64_getJ s srcs m SO Lm SV SY) as (J & EJ & HJ & H1 & H2).
  destruct (c64_getJ (with_store s b) srcs m SO Lm SV SY) as (J' & EJ' & HJ' & H1' & H2'). rewrite (H1 v Lv), (H2 w Lw). rewrite (H1' v Lv), (H2' w Lw).
  assert (E : J' = J). { rewrite getJ_eq in EJ, EJ'. unfold getJP in EJ, EJ'. change (JP (with_store s b) srcs m) with (JP s srcs m) in EJ'. change (d_p (with_store s b)) with (d_p s) in EJ'. congruence. }
  rewrite E. auto.
Qed.
Lemma sum_rows p (rows : mat) : forall acc, length acc = p -> Forall (fun r => length r = p) rows -> length (fold_left vadd rows acc) = p /\
  forall j, (j < p)%nat -> nth j (fold_left vadd rows acc) 0 = nth j acc 0 + vsum (map (fun r => nth j r 0) rows).
Proof.
  induction rows as [|r rows IH]; intros acc La F; cbn [fold_left map vsum]; [split; [exact La|intros; ring]|].
  pose proof (Forall_inv F) as Hr. apply Forall_inv_tail in F. destruct (IH (vadd acc r) ltac:(ln) F) as [L1 H1]. split; [exact L1|]. intros j Hj. rewrite H1 by exact Hj. rewrite (nA p) by auto. ring.
Qed.
Lemma jtj_sum p J j : Forall (fun r => length r = p) J -> (j < p)%nat -> forall w : vec, length w = length J ->
  vsum (map (fun r => nth j r 0) (map (fun wr : R * vec => vscale (fst wr) (vmul (snd wr) (snd wr))) (combine w J))) = vsum (map (fun i => nth i w 0 * (nth j (nth i J []) 0) ^ 2) (seq 0 (length J))).
Proof.
  intros F Hj. induction J as [|r J IH]; intros [|x w] L; try discriminate; [reflexivity|]. pose proof (Forall_inv F) as Hr. apply Forall_inv_tail in F.
  cbn [combine map vsum length seq nth fst snd]. rewrite <- seq_shift, (map_map S). cbn [nth]. rewrite nth_vscale, (nM p) by auto. rewrite (IH F w) by (cbn in L; lia). ring.
Qed.
Lemma c64_jtj s srcs m W : setup_ok s srcs -> length m = d_p s -> solves (d_n s) (d_solve s) (getA s m) -> symmetric (d_n s) (getA s m) -> length W = data_size s srcs ->
  exists J g, snd (getJ s (init srcs) m None) = Ok J /\ snd (getJtJdiag s (init srcs) m (Some W) None) = Ok g /\ length g = d_p s /\
    forall j, (j < d_p s)%nat -> nth j g 0 = vsum (map (fun i => (nth i W 0 * nth j (nth i J []) 0) ^ 2) (seq 0 (length J))).
Proof.
  intros SO Lm SV SY LW. destruct (c64_getJ s srcs m SO Lm SV SY) as (J & EJ & HJ & _ & _). unfold getJtJdiag. cbn [st_gtg init]. exists J.
  destruct (getJ s (init srcs) m None) as [st r] eqn:E. cbn [snd] in EJ. subst r. cbv zeta. cbn [snd]. eexists. split; [reflexivity|]. split; [reflexivity|]. destruct HJ as [LJ FJ].
  assert (FR : Forall (fun r => length r = d_p s) (map (fun wr => vscale (fst wr) (vmul (snd wr) (snd wr))) (combine (map (fun x => x ^ 2) W) J))).
  { apply Forall_forall. intros x Hx. apply in_map_iff in Hx. destruct Hx as ([c row] & <- & Hi). apply in_combine_r in Hi. rewrite Forall_forall in FJ. pose proof (FJ _ Hi). cbn [fst snd]. ln. }
  destruct (sum_rows (d_p s) _ (vzero (d_p s)) (vzero_length _) FR) as [L1 H1]. split; [exact L1|]. intros j Hj. rewrite H1 by exact Hj. rewrite nth_zero, Rplus_0_l. rewrite (jtj_sum (d_p s)) by (auto; rewrite map_length; congruence).
  f_equal. apply map_ext_in. intros i Hi. apply in_seq in Hi. rewrite (map_nth_lt (fun x => x ^ 2)) by lia. ring.
Qed.
Lemma c64_fields s srcs m : setup_ok s srcs -> d_mini s = None -> length m = d_p s -> solves (d_n s) (d_solve s) (getA s m) ->
  exists f, snd (fields s (init srcs) m) = Ok f /\ forall src, In src srcs -> exists u, lookup f src = Ok u /\ length u = d_n s /\ act false (getA s m) u = src_eval s src /\
    forall y, length y = d_n s -> act false (getA s m) y = src_eval s src -> y = u.
Proof.
  intros SO NM Lm SV. destruct (fields_ok s srcs (init srcs) m (proj1 (inv_init s srcs)) Lm) as (st & E & _). rewrite E. cbn. eexists. split; [reflexivity|]. intros src Hs.
  exists (sol s m src). split; [apply lookup_ok; [exact SO|]|]. { unfold U, used. rewrite NM. exact Hs. }
  pose proof (src_length s (proj1 SO) src) as Lq. split; [apply (sol_length s srcs); exact SO|]. split; [apply SV; exact Lq|]. intros y Ly Ey. apply SV; assumption.
Qed.
Lemma meas_readings s src r u : sizes s -> rx_ok src r -> length u = d_n s -> meas s src r u = map (reading s src r u) (seq 0 (length (r_m r))).
Proof.
  intros SZ RO Lu. apply vec_ext; [rewrite (meas_length s SZ src r RO), map_length, seq_length; reflexivity|]. rewrite (meas_length s SZ src r RO). unfold nD. intros i Hi.
  rewrite (nth_indep (map (reading s src r u) _) 0 (reading s src r u 0)) by (rewrite map_length, seq_length; exact Hi). rewrite map_nth, seq_nth by exact Hi. cbn [Nat.add]. unfold meas, reading.
  pose proof (fac_length src r RO) as Lf. pose proof (getP_mat s SZ src r RO) as [LP _]. unfold nD in *. rewrite (nM (length (r_m r))) by (auto; ln).
  assert (EP : nth i (mv (getP s r) u) 0 = dot (d_interp s (nth i (r_m r) 0%nat)) u - match r_n r with Some ns => dot (d_interp s (nth i ns 0%nat)) u | None => 0 end).
  { unfold mv, getP. destruct SZ as (_ & _ & _ & _ & _ & I & _). destruct RO as [L _]. destruct (r_n r) as [ns|].
    - rewrite map_map. erewrite nth_indep with (d' := (fun mn => dot (vsub (d_interp s (fst mn)) (d_interp s (snd mn))) u) (0%nat, 0%nat)) by (rewrite map_length, combine_length; lia).
      rewrite (map_nth (fun mn => dot (vsub (d_interp s (fst mn)) (d_interp s (snd mn))) u)). rewrite combine_nth by auto. cbn [fst snd]. apply dot_vsub_l. rewrite !I. reflexivity.
    - rewrite map_map. erewrite nth_indep with (d' := (fun k => dot (d_interp s k) u) 0%nat) by (rewrite map_length; lia). rewrite (map_nth (fun k => dot (d_interp s k) u)). ring. }
  rewrite EP. unfold fac in *. destruct (r_app r) eqn:EA.
  - destruct RO as [_ G]. destruct (G EA) as (g & Eg & Lg & _). rewrite Eg. rewrite map_nth_lt by lia. unfold Rdiv. ring.
  - unfold vconst. rewrite (nth_indep (repeat 1 _) 0 1) by (rewrite repeat_length; exact Hi). rewrite nth_repeat. unfold Rdiv. rewrite Rinv_1. ring.
Qed.
Lemma c64_data s srcs m : setup_ok s srcs -> d_mini s = None -> length m = d_p s ->
  exists u, snd (dpred s (init srcs) m None) = Ok (readings s srcs u) /\ forall src, In src srcs -> solves (d_n s) (d_solve s) (getA s m) -> act false (getA s m) (u src) = src_eval s src.
Proof.
  intros SO NM Lm. exists (sol s m). split.
  - rewrite (dpred_val s srcs SO m Lm). f_equal. unfold F0, mini_data. rewrite NM. unfold readings, loop. assert (EU : U s srcs = srcs) by (unfold U, used; rewrite NM; reflexivity).
    f_equal. rewrite EU. apply map_ext_in. intros src Hs. f_equal. apply map_ext_in. intros r Hr. apply meas_readings; [apply SO| |apply (sol_length s srcs SO)]. apply (rx_in s srcs SO); [rewrite EU|]; assumption.
  - intros src Hs SV. apply SV. apply src_length. apply SO.
Qed.
Lemma c64_source s src : d_form s = Nodal -> src_eval s src = injected s src.
Proof. intros E. unfold src_eval, injected. rewrite E. reflexivity. Qed.
