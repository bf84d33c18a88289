From Verif Require Import Py Vec VecDeriv PropsM LinSim SpecLinSim.
From Coq Require Import Lra.
Local Open Scope R_scope.

(** ** LinearSimulation *)
Definition linv (s : lin) : Prop := v_q (l_prop s) = None /\ m_q (l_prop s) = None /\ (m_p (l_prop s) <> None -> v_p (l_prop s) = None).
Lemma set_model_prop s m : l_prop (fst (set_model s m)) = l_prop s /\ l_G (fst (set_model s m)) = l_G s /\ l_nD (fst (set_model s m)) = l_nD s.
Proof. unfold set_model. destruct m as [v|]; [|cbn; auto]. destruct (m_p (l_prop s)) as [f|]; [|auto]. destruct (fits (length v) (pm_in f)); cbn; auto. Qed.
Lemma fields_prop s m : l_prop (fst (lfields s m)) = l_prop s.
Proof. unfold lfields. pose proof (set_model_prop s m) as (E & _). destruct (set_model s m) as [s1 [e|]]; exact E. Qed.
Lemma dpred_prop s m f : l_prop (fst (ldpred s m f)) = l_prop s.
Proof.
  unfold ldpred. destruct m as [v|].
  - pose proof (set_model_prop s (Some v)) as (E & _). destruct (set_model s (Some v)) as [s1 [e|]]; [exact E|]. destruct f; [exact E|]. rewrite fields_prop. exact E.
  - destruct f; [reflexivity|apply fields_prop].
Qed.
Lemma lstep_inv s o : linv s -> linv (lstep s o).
Proof.
  intros H. assert (K : forall s', l_prop s' = l_prop s -> linv s') by (intros s' E; unfold linv in *; rewrite E; exact H).
  destruct o as [G|f|v|m|m|m v|m w|m]; cbn [lstep].
  - apply K. reflexivity.
  - destruct H as (H1 & H2 & H3). destruct f as [f|]; unfold linv; cbn; repeat split; auto; try (intros C; exfalso; apply C; reflexivity).
  - destruct H as (H1 & H2 & H3). destruct v as [v|]; unfold linv; cbn; repeat split; auto. intros C; exfalso; apply C; reflexivity.
  - apply K, set_model_prop.
  - apply K, dpred_prop.
  - apply K. unfold jvec. pose proof (set_model_prop s (Some m)) as (E & _). destruct (set_model s (Some m)) as [s1 [e|]]; exact E.
  - apply K. unfold jtvec. pose proof (set_model_prop s (Some m)) as (E & _). destruct (set_model s (Some m)) as [s1 [e|]]; exact E.
  - apply K. unfold getJ. pose proof (set_model_prop s (Some m)) as (E & _). destruct (set_model s (Some m)) as [s1 [e|]]; exact E.
Qed.
Lemma reached_inv s : reached s -> linv s.
Proof.
  intros (f & G & l & ->). unfold lrun. rewrite <- fold_left_rev_right. induction (rev l) as [|o l' IH]; cbn; [|apply lstep_inv, IH].
  destruct f; unfold linv; cbn; repeat split; auto; intros C; exfalso; apply C; reflexivity.
Qed.
Lemma uses_props s G f : linv s -> uses s G f -> m_p (l_prop s) = Some f /\ v_p (l_prop s) = None /\ v_q (l_prop s) = None.
Proof.
  intros (H1 & H2 & H3) (_ & H4). unfold read_map in H4. cbn in H4. rewrite H2 in H4. destruct (m_p (l_prop s)) as [g|] eqn:E; [|discriminate]. injection H4 as ->.
  split; [reflexivity|]. split; [apply H3; congruence|assumption].
Qed.
Lemma mdot_ok k M v : is_mat k (length v) M -> mdot M v = Ok (mv M v).
Proof.
  intros [_ H]. unfold mdot. assert (E : forallb (fun r => Nat.eqb (length r) (length v)) M = true); [|rewrite E; reflexivity].
  apply forallb_forall. intros r Hr. apply Nat.eqb_eq. rewrite Forall_forall in H. auto.
Qed.
Lemma set_model_ok s G f n m : linv s -> uses s G f -> fits n (pm_in f) = true -> length m = n ->
  set_model s (Some m) = (mkLin (l_G s) (l_prop s) (Some m) (l_nD s), None).
Proof. intros I U F L. destruct (uses_props s G f I U) as (E & _ & _). unfold set_model. rewrite E, L, F. reflexivity. Qed.
Lemma read_ok s G f m : linv s -> uses s G f -> read_value false (Some m) (l_prop s) P = Ok (Some (pm_val f m)).
Proof. intros I U. destruct (uses_props s G f I U) as (E & E1 & E2). destruct U as [_ U]. unfold read_value. cbn [getv other]. rewrite E1, E2, U. reflexivity. Qed.
Lemma deriv_ok s G f m : uses s G f -> read_deriv (Some m) (l_prop s) P = Some (pm_deriv f m).
Proof. intros [_ U]. unfold read_deriv. rewrite U. reflexivity. Qed.
Lemma c44_data s G f n p d m : reached s -> uses s G f -> map_ok n p f -> is_mat d p G -> length m = n ->
  snd (ldpred s (Some m) None) = Ok (mv G (pm_val f m)) /\ snd (lfields s (Some m)) = Ok (mv G (pm_val f m)) /\
  snd (ldpred (fst (ldpred s (Some m) None)) None None) = Ok (mv G (pm_val f m)).
Proof.
  intros R U (F & HF) HG L. pose proof (reached_inv s R) as I. destruct (HF m L) as (Lf & _).
  assert (FL : forall s', linv s' -> uses s' G f -> snd (lfields s' (Some m)) = Ok (mv G (pm_val f m)) /\ fst (lfields s' (Some m)) = mkLin (l_G s') (l_prop s') (Some m) (l_nD s')).
  { intros s' I' U'. unfold lfields. rewrite (set_model_ok s' G f n m I' U' F L). cbn [l_G l_model l_prop snd fst]. split; [|reflexivity]. rewrite (proj1 U'), (read_ok s' G f m I' U').
    cbn [bind]. apply (mdot_ok d). rewrite Lf. exact HG. }
  assert (U1 : uses (mkLin (l_G s) (l_prop s) (Some m) (l_nD s)) G f) by exact U. assert (I1 : linv (mkLin (l_G s) (l_prop s) (Some m) (l_nD s))) by exact I.
  destruct (FL _ I1 U1) as [F1 F2].
  assert (D : ldpred s (Some m) None = lfields (mkLin (l_G s) (l_prop s) (Some m) (l_nD s)) (Some m)) by (unfold ldpred; rewrite (set_model_ok s G f n m I U F L); reflexivity).
  rewrite D. split; [exact F1|]. split; [apply FL; assumption|]. rewrite F2. cbn [l_G l_prop l_nD]. unfold ldpred. cbn [l_model]. exact F1.
Qed.
Lemma jvec_ok s G f n p d m v : reached s -> uses s G f -> map_ok n p f -> is_mat d p G -> length m = n -> length v = n ->
  snd (jvec s m v) = Ok (mv G (mv (pm_deriv f m) v)).
Proof.
  intros R U (F & HF) HG L Lv. pose proof (reached_inv s R) as I. destruct (HF m L) as (_ & HD & _). unfold jvec. rewrite (set_model_ok s G f n m I U F L). cbn [l_G l_model l_prop snd].
  rewrite (proj1 U), (deriv_ok s G f m U), (mdot_ok p) by (rewrite Lv; exact HD). cbn [bind]. apply (mdot_ok d). rewrite mv_length. destruct HD as [-> _]. exact HG.
Qed.
Lemma jtvec_ok s G f n p d m w : reached s -> uses s G f -> map_ok n p f -> is_mat d p G -> length m = n -> length w = d ->
  snd (jtvec s m w) = Ok (mtv n (pm_deriv f m) (mtv p G w)).
Proof.
  intros R U (F & HF) HG L Lw. pose proof (reached_inv s R) as I. destruct (HF m L) as (_ & HD & _). unfold jtvec. rewrite (set_model_ok s G f n m I U F L). cbn [l_G l_model l_prop snd].
  rewrite (proj1 U), (deriv_ok s G f m U). pose proof (mtv_length d p G w HG) as LG. destruct HD as [LD HD]. unfold mtdot at 1. destruct HG as [LGm HG]. rewrite LGm, Lw, Nat.eqb_refl. cbn [bind].
  unfold mtdot. rewrite LD, LG, Nat.eqb_refl, L. reflexivity.
Qed.
Lemma getJ_ok s G f n p d m : reached s -> uses s G f -> map_ok n p f -> is_mat d p G -> length m = n ->
  snd (getJ s m) = Ok (map (mtv n (pm_deriv f m)) G).
Proof.
  intros R U (F & HF) HG L. pose proof (reached_inv s R) as I. destruct (HF m L) as (_ & HD & _). unfold getJ. rewrite (set_model_ok s G f n m I U F L). cbn [l_G l_model l_prop snd].
  rewrite (proj1 U), (deriv_ok s G f m U). rewrite L. destruct HG as [_ HG]. destruct HD as [LD _]. clear -HG LD. induction HG as [|r G Hr HG IH]; [reflexivity|].
  cbn [mapM map]. unfold mtdot at 1. rewrite LD, Hr, Nat.eqb_refl. cbn [bind]. rewrite IH. reflexivity.
Qed.
Lemma c44_getJ s G f n p d m v : reached s -> uses s G f -> map_ok n p f -> is_mat d p G -> length m = n -> length v = n ->
  exists J, snd (getJ s m) = Ok J /\ is_mat d n J /\ snd (jvec s m v) = Ok (mv J v).
Proof.
  intros R U MO HG L Lv. exists (map (mtv n (pm_deriv f m)) G). split; [eapply getJ_ok; eassumption|]. rewrite (jvec_ok s G f n p d m v) by assumption. destruct MO as (F & HF). destruct (HF m L) as (_ & HD & _).
  destruct HG as [LG HG]. split.
  - split; [rewrite map_length; assumption|]. apply Forall_forall. intros r Hr. apply in_map_iff in Hr. destruct Hr as (g & <- & _). apply (mtv_length p); assumption.
  - f_equal. unfold mv at 1 3. rewrite map_map. apply map_ext_in. intros g Hg. rewrite Forall_forall in HG. apply (mv_mtv_adjoint p n); auto.
Qed.
Lemma c44_adjoint s G f n p d m v w : reached s -> uses s G f -> map_ok n p f -> is_mat d p G -> length m = n -> length v = n -> length w = d ->
  exists a b, snd (jvec s m v) = Ok a /\ snd (jtvec s m w) = Ok b /\ length a = d /\ length b = n /\ dot a w = dot v b.
Proof.
  intros R U MO HG L Lv Lw. exists (mv G (mv (pm_deriv f m) v)), (mtv n (pm_deriv f m) (mtv p G w)). split; [eapply jvec_ok; eassumption|]. split; [eapply jtvec_ok; eassumption|].
  destruct MO as (F & HF). destruct (HF m L) as (_ & HD & _). rewrite mv_length, (mtv_length p n) by assumption. split; [apply HG|]. split; [reflexivity|].
  assert (LD : length (mv (pm_deriv f m) v) = p) by (rewrite mv_length; apply HD).
  rewrite dot_comm, (mv_mtv_adjoint d p) by assumption. rewrite (mv_mtv_adjoint p n) by (try assumption; apply (mtv_length d); assumption). apply dot_comm.
Qed.
Lemma c44_derivative s G f n p d m : reached s -> uses s G f -> map_ok n p f -> is_mat d p G -> length m = n ->
  exists F J, (forall x, length x = n -> snd (ldpred s (Some x) None) = Ok (F x)) /\ (forall v, length v = n -> snd (jvec s m v) = Ok (J v)) /\ has_jacobian n d F m J.
Proof.
  intros R U MO HG L. exists (fun x => mv G (pm_val f x)), (fun v => mv G (mv (pm_deriv f m) v)). split; [intros x Lx; eapply c44_data; eassumption|]. split; [intros v Lv; eapply jvec_ok; eassumption|].
  intros h Lh. apply (vderiv_mv d p); [assumption|]. destruct MO as (F & HF). destruct (HF m L) as (_ & _ & HJ). apply HJ. assumption.
Qed.
Lemma c44_nD : exists f G l m r, let s := lrun (lin_init (Some f) None) l in uses s G f /\ map_ok 1 1 f /\ snd (ldpred s (Some m) None) = Ok r /\ length r <> l_nD s.
Proof.
  exists (mkPmap (fun x => x) (fun _ => [[1]]) (Some 1%nat)), [[1]; [2]], [LSetG [[1]; [2]]], [3], [1 * 3 + 0; 2 * 3 + 0]. cbn zeta. split; [split; reflexivity|]. split.
  - split; [reflexivity|]. intros [|x [|]] L; try discriminate. split; [reflexivity|]. split; [split; [reflexivity|repeat constructor]|]. intros [|h [|]] Lh; try discriminate.
    replace (mv (pm_deriv (mkPmap (fun x => x) (fun _ => [[1]]) (Some 1%nat)) [x]) [h]) with [h] by (cbn; f_equal; ring). apply vderiv_line; reflexivity.
  - split; [reflexivity|discriminate].
Qed.

(** ** Sinusoid kernels *)
Lemma mapM_all {A B} (g : A -> result B) (h : A -> B) l : (forall x, In x l -> g x = Ok (h x)) -> mapM g l = Ok (map h l).
Proof. induction l as [|x l IH]; intros H; [reflexivity|]. cbn. rewrite H by (left; reflexivity). cbn. rewrite IH by (intros; apply H; right; assumption). reflexivity. Qed.
Lemma linspace_nth a b n i : (i < n)%nat -> nth_error (linspace a b n) i = Some (a + INR i * ((b - a) / INR (n - 1))).
Proof. intros H. unfold linspace. rewrite nth_error_map. assert (E : nth_error (seq 0 n) i = Some i); [|rewrite E; reflexivity]. rewrite (nth_error_nth' _ 0%nat) by (rewrite seq_length; assumption). rewrite seq_nth by assumption. reflexivity. Qed.
Lemma nodes_length x0 h : length (nodes x0 h) = S (length h).
Proof. revert x0; induction h as [|d h IH]; intros x0; cbn; [reflexivity|]. rewrite IH. reflexivity. Qed.
Lemma nodes_nth h : forall x0 k, (k <= length h)%nat -> nth k (nodes x0 h) 0 = x0 + vsum (firstn k h).
Proof. induction h as [|d h IH]; intros x0 [|k] Hk; cbn in *; try lia; try ring. rewrite IH by lia. ring. Qed.
Lemma averages_spec h : forall g, length g = S (length h) -> length (averages g h) = length h /\ forall k, (k < length h)%nat -> nth k (averages g h) 0 = (nth k g 0 + nth (S k) g 0) / 2 * nth k h 0.
Proof.
  induction h as [|d h IH]; intros g L; [destruct g as [|a [|b g]]; cbn in *; try lia; split; [reflexivity|intros; lia]|].
  destruct g as [|a [|b g]]; cbn in L; try lia. destruct (IH (b :: g) ltac:(cbn; lia)) as [L1 N1]. change (averages (a :: b :: g) (d :: h)) with ((/ 2 * a + / 2 * b) * d :: averages (b :: g) h). split; [cbn [length]; congruence|]. cbn [length].
  intros [|k] Hk; [cbn; field|]. cbn [nth] in *. rewrite N1 by lia. reflexivity.
Qed.
Lemma krow_spec c j : length (krow c j) = length (e_h c) /\ forall k, (k < length (e_h c))%nat -> nth k (krow c j) 0 = (wave c j (node c k) + wave c j (node c (S k))) / 2 * nth k (e_h c) 0.
Proof.
  unfold krow. destruct (averages_spec (e_h c) (map (kernel c j) (nodes (e_x0 c) (e_h c)))) as [L N]; [rewrite map_length; apply nodes_length|]. split; [assumption|]. intros k Hk. rewrite N by assumption.
  assert (E : forall i, (i <= length (e_h c))%nat -> nth i (map (kernel c j) (nodes (e_x0 c) (e_h c))) 0 = wave c j (node c i)).
  { intros i Hi. rewrite (nth_indep _ 0 (kernel c j 0)) by (rewrite map_length, nodes_length; lia). rewrite map_nth, nodes_nth by assumption. reflexivity. }
  rewrite !E by lia. reflexivity.
Qed.
Lemma read_fresh c : exists G, snd (read_G (mkEst c None None)) = Ok G /\ is_operator c G.
Proof.
  unfold read_G. cbn [e_G read_jk e_jk e_cfg].
  rewrite (mapM_all _ (fun i => krow c (freq c i))).
  - eexists. split; [reflexivity|]. split; [rewrite map_length, seq_length; reflexivity|]. intros i Hi.
    assert (E : nth i (map (fun i => krow c (freq c i)) (seq 0 (e_n c))) [] = krow c (freq c i)).
    { rewrite (nth_indep _ [] (krow c (freq c 0))) by (rewrite map_length, seq_length; assumption). rewrite (map_nth (fun i => krow c (freq c i))). rewrite seq_nth by assumption. reflexivity. }
    rewrite E. apply krow_spec.
  - intros i Hi. apply in_seq in Hi. rewrite linspace_nth by lia. reflexivity.
Qed.
Lemma set_only l : forall c, forallb (fun o => negb (is_read o)) l = true -> erun (mkEst c None None) l = mkEst (fold_left econf l c) None None.
Proof.
  induction l as [|o l IH]; intros c H; [reflexivity|]. cbn in H. apply andb_true_iff in H. destruct H as [Ho H]. unfold erun. cbn [fold_left]. fold (erun (estep (mkEst c None None) o) l).
  rewrite <- IH by assumption. f_equal. destruct o; try discriminate; reflexivity.
Qed.
Lemma c57_operator c l : forallb (fun o => negb (is_read o)) l = true ->
  let s := erun (mkEst c None None) l in exists G, snd (read_G s) = Ok G /\ is_operator (e_cfg s) G.
Proof. intros H. cbv zeta. rewrite set_only by assumption. cbn [e_cfg]. apply read_fresh. Qed.
Lemma read_G_cached s G : snd (read_G s) = Ok G -> e_G (fst (read_G s)) = Some G.
Proof.
  unfold read_G. destruct (e_G s) as [G'|] eqn:E; [cbn; intros H; injection H as <-; assumption|]. destruct (read_jk s) as [s1 jk]. match goal with |- context [mapM ?f ?l] => destruct (mapM f l) end; cbn; [congruence|discriminate].
Qed.
Lemma keep_G l : forall s G, e_G s = Some G -> e_G (erun s l) = Some G.
Proof.
  induction l as [|o l IH]; intros s G H; [assumption|]. unfold erun. cbn [fold_left]. fold (erun (estep s o) l). apply IH. destruct o; cbn; try assumption.
  - unfold read_G. rewrite H. assumption.
  - unfold read_jk. destruct (e_jk s); cbn; assumption.
Qed.
Lemma c57_frozen c l1 l2 G : snd (read_G (erun (mkEst c None None) l1)) = Ok G -> snd (read_G (erun (fst (read_G (erun (mkEst c None None) l1))) l2)) = Ok G.
Proof. intros H. unfold read_G at 1. rewrite (keep_G l2 _ G) by (apply read_G_cached; assumption). reflexivity. Qed.
Lemma c57_stale : exists c l G, let s := erun (mkEst c None None) l in snd (read_G s) = Ok G /\ ~ is_operator (e_cfg s) G.
Proof.
  exists (mkEcfg 0 0 1 1 1 0 [1]), [EReadG; EMesh 0 [2]], [[1]]. cbv zeta. cbn [erun fold_left estep].
  assert (E : e_G (fst (read_G (mkEst (mkEcfg 0 0 1 1 1 0 [1]) None None))) = Some [[1]]).
  { apply read_G_cached. destruct (read_fresh (mkEcfg 0 0 1 1 1 0 [1])) as (G & E & L & H). rewrite E. f_equal. cbn in L. destruct G as [|r [|]]; try discriminate. specialize (H 0%nat ltac:(cbn; lia)). cbn [nth] in H. destruct H as [Lr H].
    cbn in Lr. destruct r as [|x [|]]; try discriminate. specialize (H 0%nat ltac:(cbn; lia)). f_equal. f_equal. cbn [nth] in H. rewrite H. unfold trapezoid, wave, node. cbn [e_p e_q e_h e_x0 nth firstn vsum].
    rewrite !Rmult_0_l, !Rmult_0_r, !Rmult_0_l, exp_0, cos_0. field. }
  set (s0 := fst (read_G _)) in *. split; [unfold read_G; cbn [put_cfg e_G]; rewrite E; reflexivity|].
  assert (EC : e_cfg s0 = mkEcfg 0 0 1 1 1 0 [1]) by reflexivity. cbn [put_cfg e_cfg econf]. rewrite EC. cbn [e_p e_q e_j0 e_jn e_n]. clear E EC s0. intros (_ & H). specialize (H 0%nat ltac:(cbn; lia)). cbn in H. destruct H as [_ H]. specialize (H 0%nat ltac:(lia)). unfold trapezoid, wave, node in H. cbn [e_p e_q e_h e_x0 nth firstn vsum] in H.
  rewrite !Rmult_0_l, !Rmult_0_r, !Rmult_0_l, exp_0, cos_0 in H. lra.
Qed.
Lemma c57_index c n : (e_n c < n)%nat -> snd (read_G (erun (mkEst c None None) [EReadJk; EN n])) = Err IndexError.
Proof.
  intros H. cbn [erun fold_left estep read_jk e_jk e_cfg fst]. unfold econf. destruct (Nat.ltb_spec n 1); [lia|]. unfold put_cfg, read_G. cbn [e_G e_cfg e_jk read_jk e_n].
  set (f := fun i => match nth_error (linspace (e_j0 c) (e_jn c) (e_n c)) i with Some _ => _ | None => _ end).
  assert (E : mapM f (seq 0 n) = Err IndexError); [|rewrite E; reflexivity].
  assert (K : forall k a, (a + k = n)%nat -> (a <= e_n c)%nat -> mapM f (seq a k) = Err IndexError); [|apply K; lia].
  induction k as [|k IH]; intros a Ha Hn; [lia|]. cbn [seq mapM]. destruct (Nat.eq_dec a (e_n c)) as [->|].
  - unfold f at 1. assert (E : nth_error (linspace (e_j0 c) (e_jn c) (e_n c)) (e_n c) = None) by (apply nth_error_None; unfold linspace; rewrite map_length, seq_length; lia). rewrite E. reflexivity.
  - unfold f at 1. rewrite linspace_nth by lia. cbn [bind]. rewrite IH by lia. reflexivity.
Qed.

(** ** Times *)
Definition tinv (s : tst) : Prop := match t_mesh s with None => True | Some (a, h) => a = t_t0 s /\ t_steps s = Some h end.
Lemma mesh_inv s : tinv s -> tinv (fst (time_mesh s)) /\ t_t0 (fst (time_mesh s)) = t_t0 s /\ t_steps (fst (time_mesh s)) = t_steps s.
Proof. intros I. unfold time_mesh. destruct (t_mesh s) as [m|] eqn:E; [auto|]. destruct (t_steps s) as [h|] eqn:E2; [|auto]. cbn. repeat split; auto. Qed.
Lemma times_fst s : fst (times s) = fst (time_mesh s) /\ fst (nT s) = fst (time_mesh s).
Proof. unfold times, nT. destruct (time_mesh s); auto. Qed.
Lemma tstep_inv s o : tinv s -> tinv (tstep s o) /\ t_t0 (tstep s o) = last_t0 (t_t0 s) [o] /\ t_steps (tstep s o) = last_steps (t_steps s) [o].
Proof.
  intros I. destruct o as [v|t| | |]; cbn [tstep last_t0 last_steps fold_left].
  - destruct v as [|l|v|]; cbn; auto. destruct (unpack_widths l); cbn; auto.
  - destruct t; cbn; auto.
  - rewrite (proj1 (times_fst s)). apply mesh_inv; assumption.
  - rewrite (proj2 (times_fst s)). apply mesh_inv; assumption.
  - cbn. auto.
Qed.
Lemma trun_inv l : forall s, tinv s -> tinv (trun s l) /\ t_t0 (trun s l) = last_t0 (t_t0 s) l /\ t_steps (trun s l) = last_steps (t_steps s) l.
Proof.
  induction l as [|o l IH]; intros s I; [auto|]. destruct (tstep_inv s o I) as (I1 & E1 & E2). unfold trun. cbn [fold_left]. fold (trun (tstep s o) l). destruct (IH _ I1) as (A & B & C).
  split; [assumption|]. rewrite B, C, E1, E2. split; reflexivity.
Qed.
Lemma nodes_coherent t0 h : coherent t0 h (nodes t0 h).
Proof.
  split; [apply nodes_length|]. split; [destruct h; reflexivity|]. intros i Hi. rewrite !nodes_nth by lia. 
  assert (E : vsum (firstn (S i) h) = vsum (firstn i h) + nth i h 0); [|rewrite E; ring].
  clear t0. revert i Hi. induction h as [|d h IH]; intros i Hi; [cbn in Hi; lia|]. destruct i as [|i]; [cbn; ring|]. cbn in Hi. change (firstn (S (S i)) (d :: h)) with (d :: firstn (S i) h). change (firstn (S i) (d :: h)) with (d :: firstn i h). cbn [vsum nth]. rewrite IH by lia. ring.
Qed.
Lemma c45_times t0 v l : widths_of v <> None -> let s := trun (time_init t0 v) l in
  match last_steps (match widths_of v with Some h => h | None => None end) l with
  | Some h => exists ts, snd (times s) = Ok ts /\ coherent (last_t0 t0 l) h ts /\ snd (nT s) = Ok (length h)
  | None => snd (times s) = Err TypeError /\ snd (nT s) = Err TypeError
  end.
Proof.
  intros HV. cbv zeta. assert (I0 : tinv (time_init t0 v) /\ t_t0 (time_init t0 v) = t0 /\ t_steps (time_init t0 v) = match widths_of v with Some h => h | None => None end).
  { unfold time_init, set_steps, tinv. destruct v as [|w|a|]; cbn; auto. destruct (unpack_widths w); cbn; auto. }
  destruct I0 as (I0 & E1 & E2). destruct (trun_inv l _ I0) as (I & A & B). rewrite E1 in A. rewrite E2 in B. rewrite <- A, <- B. set (s := trun (time_init t0 v) l) in *.
  unfold times, nT, time_mesh. unfold tinv in I. destruct (t_mesh s) as [[a h]|] eqn:EM.
  - destruct I as [-> ->]. cbn. eexists. split; [reflexivity|]. split; [apply nodes_coherent|reflexivity].
  - destruct (t_steps s) as [h|]; cbn; [eexists; split; [reflexivity|]; split; [apply nodes_coherent|reflexivity]|auto].
Qed.
Lemma c45_unique t0 h ts ts' : coherent t0 h ts -> coherent t0 h ts' -> ts = ts'.
Proof.
  intros (L & Z & D) (L' & Z' & D'). apply (nth_ext _ _ 0 0); [congruence|]. intros i Hi. rewrite L in Hi. induction i as [|i IH]; [congruence|]. pose proof (D i ltac:(lia)). pose proof (D' i ltac:(lia)). pose proof (IH ltac:(lia)). lra.
Qed.
Lemma c45_sum t0 h ts : coherent t0 h ts -> forall i, (i <= length h)%nat -> nth i ts 0 = t0 + vsum (firstn i h).
Proof. intros C i Hi. rewrite (c45_unique t0 h ts (nodes t0 h) C (nodes_coherent t0 h)). apply nodes_nth. assumption. Qed.
Lemma c45_increasing t0 h ts : coherent t0 h ts -> Forall (fun x => 0 < x) h -> forall i j, (i < j <= length h)%nat -> nth i ts 0 < nth j ts 0.
Proof.
  intros (L & Z & D) P i j [H1 H2]. rewrite Forall_forall in P. induction j as [|j IH]; [lia|]. pose proof (D j ltac:(lia)) as E. assert (0 < nth j h 0) by (apply P, nth_In; lia).
  destruct (Nat.eq_dec i j) as [->|]; [lra|]. specialize (IH ltac:(lia) ltac:(lia)). lra.
Qed.
Lemma mapM_app_ok {A B} (g : A -> result B) l r : mapM g l = Ok r -> length r = length l.
Proof. revert r; induction l as [|x l IH]; intros r H; cbn in H; [injection H as <-; reflexivity|]. destruct (g x); [|discriminate]. cbn in H. destruct (mapM g l); [|discriminate]. cbn in H. injection H as <-. cbn. rewrite (IH _ eq_refl). reflexivity. Qed.
Lemma c45_compact l : unpack_widths (map (fun xn => W2 (fst xn) (snd xn)) l) = Ok (flat_map (fun xn => repeat (fst xn) (snd xn)) l).
Proof. unfold unpack_widths. rewrite (mapM_all _ (fun w => match w with W2 x n => repeat x n | _ => [] end)) by (intros w Hw; apply in_map_iff in Hw; destruct Hw as (xn & <- & _); reflexivity). cbn [bind]. rewrite map_map, flat_map_concat_map. reflexivity. Qed.
Lemma c45_single l : unpack_widths (map W1 l) = Ok l.
Proof.
  unfold unpack_widths. rewrite (mapM_all _ (fun w => match w with W1 x => [x] | _ => [] end)) by (intros w Hw; apply in_map_iff in Hw; destruct Hw as (x & <- & _); reflexivity). cbn [bind]. f_equal. rewrite map_map.
  induction l as [|x l IH]; cbn; [reflexivity|]. rewrite IH. reflexivity.
Qed.
Lemma c45_padding x n f : exists p, unpack_widths [W3 x n f] = Ok p /\ length p = n /\
  forall i, (i < n)%nat -> nth i p 0 = x * Rabs f ^ (if Rlt_dec f 0 then n - i else i + 1).
Proof.
  unfold unpack_widths. cbn [mapM unpack1 bind]. eexists. split; [reflexivity|]. cbn [concat]. rewrite app_nil_r.
  set (pad := map _ _). assert (Lp : length pad = n) by (unfold pad; rewrite map_length, seq_length; reflexivity).
  assert (Hp : forall i, (i < n)%nat -> nth i pad 0 = x * Rabs f ^ (i + 1)).
  { intros i Hi. unfold pad. rewrite (nth_indep _ 0 (Rabs f ^ (0 + 1) * x)) by (rewrite map_length, seq_length; exact Hi).
    rewrite (map_nth (fun i => Rabs f ^ (i + 1) * x)), seq_nth by exact Hi. rewrite Rmult_comm. f_equal. }
  destruct (Rlt_dec f 0).
  - split; [rewrite rev_length; exact Lp|]. intros i Hi. rewrite rev_nth by lia. rewrite Lp, Hp by lia. f_equal. f_equal. lia.
  - split; [exact Lp|]. exact Hp.
Qed.
Lemma c45_append a b pa pb : unpack_widths a = Ok pa -> unpack_widths b = Ok pb -> unpack_widths (a ++ b) = Ok (pa ++ pb).
Proof.
  unfold unpack_widths. revert pa pb. induction a as [|w a IH]; cbn [app mapM bind]; intros pa pb Ha Hb.
  - injection Ha as <-. cbn [concat app]. exact Hb.
  - destruct (unpack1 w) as [v|]; cbn [bind] in *; [|discriminate Ha].
    destruct (mapM unpack1 a) as [va|]; cbn [bind] in *; [|discriminate Ha]. injection Ha as <-.
    specialize (IH _ _ eq_refl Hb). destruct (mapM unpack1 (a ++ b)) as [vc|]; cbn [bind] in *; [|discriminate IH].
    injection IH as E. cbn [concat]. rewrite E, app_assoc. reflexivity.
Qed.
