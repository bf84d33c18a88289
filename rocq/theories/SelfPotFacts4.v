From Coq Require Import Reals Lra Lia.
From Verif Require Import Py Vec VecDeriv Frechet Joint Richards RichardsFacts RichardsFacts2 RichardsFacts3 LinSimFacts SolveDeriv Dc SpecDc DcFacts DcFacts2 DcFacts3 DcFacts4 DcFacts5 JointFacts SelfPot SpecSelfPot SelfPotFacts SelfPotFacts2 SelfPotFacts3.
Local Open Scope R_scope.

Lemma getP_potential s r u : sizes s -> rx_same r -> mv (getP s r) u = map (potential s u r) (seq 0 (length (r_m r))).
Proof.
  intros SZ L. destruct SZ as (_ & _ & _ & _ & _ & I & _). unfold mv, getP, rx_same in *. destruct (r_n r) as [ns|] eqn:E.
  - rewrite map_map. apply vec_ext; [rewrite !map_length, seq_length, combine_length; lia|]. rewrite map_length, combine_length. intros i Hi.
    erewrite nth_indep with (d' := (fun mn => dot (vsub (d_interp s (fst mn)) (d_interp s (snd mn))) u) (0%nat, 0%nat)) by (rewrite map_length, combine_length; lia).
    rewrite (map_nth (fun mn => dot (vsub (d_interp s (fst mn)) (d_interp s (snd mn))) u)). rewrite combine_nth by auto. cbn [fst snd].
    rewrite (nth_indep (map (potential s u r) _) 0 (potential s u r 0)) by (rewrite map_length, seq_length; lia). rewrite map_nth, seq_nth by lia. unfold potential. rewrite E. apply dot_vsub_l. rewrite !I. reflexivity.
  - rewrite map_map. apply vec_ext; [rewrite !map_length, seq_length; lia|]. rewrite map_length. intros i Hi.
    erewrite nth_indep with (d' := (fun k => dot (d_interp s k) u) 0%nat) by (rewrite map_length; lia). rewrite (map_nth (fun k => dot (d_interp s k) u)).
    rewrite (nth_indep (map (potential s u r) _) 0 (potential s u r 0)) by (rewrite map_length, seq_length; lia). rewrite map_nth, seq_nth by lia. unfold potential. rewrite E. cbn [Nat.add]. ring.
Qed.
Lemma zP_potentials s q rs u : spot_ok s q rs -> mv (zP s) u = potentials (z_dc s) rs u.
Proof.
  intros OK. rewrite <- (stack s q rs OK). unfold potentials. f_equal. apply map_ext_in. intros r Hr. apply getP_potential; [apply OK|]. destruct OK as (_ & _ & _ & _ & _ & F). rewrite Forall_forall in F. apply F. exact Hr.
Qed.
Section T.
  Context (s : spot) (q : qmap) (rs : list receiver) (rho : vec) (OK : spot_ok s q rs) (Lr : length rho = d_p (z_dc s)).
  Let d := z_dc s.
  Let n := d_n d.
  Let SZ0 := SZ s q rs OK.
  Let LV := Lvol s q rs OK.
  Lemma c88_data m : length m = q_p q -> solves n (d_solve d) (getA d rho) ->
    exists u, snd (zfields s (zinit rho q) m) = Ok u /\ length u = n /\ act false (getA d rho) u = vmul (z_vol s) (q_val q m) /\
      snd (zdpred s (zinit rho q) m None) = Ok (potentials d rs u).
  Proof.
    intros Lm SV. destruct (MO s q rs OK m Lm) as [Lq _]. exists (fP s q rho m). pose proof (fields_ok s q rs rho (SR s q rs OK) (zinit rho q) m (base_init s q rho)) as H. rewrite Lm, Nat.eqb_refl in H. destruct H as (st & -> & _). split; [reflexivity|].
    split; [apply (Sv_length s q rs OK); unfold d in *; ln|]. split; [apply SV; unfold n, d; ln|]. rewrite (dpred_val s q rs rho OK m Lm). f_equal. apply (zP_potentials s q rs). exact OK.
  Qed.
  Lemma Lq m : length m = q_p q -> length (q_val q m) = n. Proof. intros Lm. apply (MO s q rs OK m Lm). Qed.
  Lemma data_lin : solves n (d_solve d) (getA d rho) -> lin_map n (sp_size rs) (fun x => mv (zP s) (Sv s rho (vmul (z_vol s) x))).
  Proof.
    intros SV. apply (lin_comp n n _ (fun x => Sv s rho (vmul (z_vol s) x)) (mv (zP s))); [|apply lin_mv; apply (zP_mat s q rs OK)].
    apply (lin_comp n n n (vmul (z_vol s)) (Sv s rho)); [apply lin_vmul; exact LV|]. apply (Sv_lin s q rs OK); assumption.
  Qed.
  Lemma c88_superposition a b m1 m2 : solves n (d_solve d) (getA d rho) -> length m1 = q_p q -> length m2 = q_p q ->
    q_val q (vadd (vscale a m1) (vscale b m2)) = vadd (vscale a (q_val q m1)) (vscale b (q_val q m2)) ->
    exists d1 d2, snd (zdpred s (zinit rho q) m1 None) = Ok d1 /\ snd (zdpred s (zinit rho q) m2 None) = Ok d2 /\
      snd (zdpred s (zinit rho q) (vadd (vscale a m1) (vscale b m2)) None) = Ok (vadd (vscale a d1) (vscale b d2)).
  Proof.
    intros SV L1 L2 E. pose proof (Lq m1 L1). pose proof (Lq m2 L2). destruct (data_lin SV) as (LL & LA & LS). rewrite !(dpred_val s q rs rho OK) by (try assumption; ln). eexists. eexists. split; [reflexivity|]. split; [reflexivity|]. f_equal. unfold fP. rewrite E.
    rewrite LA by ln. rewrite !LS by ln. reflexivity.
  Qed.
  Lemma c88_dc m src : setup_ok d [src] -> d_mini d = None -> s_rx src = rs -> Forall (fun r => r_app r = false) rs -> length m = q_p q ->
    vmul (z_vol s) (q_val q m) = src_eval d src ->
    exists x, snd (zdpred s (zinit rho q) m None) = Ok x /\ snd (Dc.dpred d (init [src]) rho None) = Ok x.
  Proof.
    intros SO NM ER FA Lm EQ. eexists. split; [apply (dpred_val s q rs rho OK m Lm)|]. rewrite (DcFacts4.dpred_val d [src] SO rho Lr). f_equal. unfold F0, mini_data. rewrite NM.
    unfold loop, U, used. rewrite NM. cbn [st_srcs init map concat]. rewrite app_nil_r, ER. rewrite <- (stack s q rs OK). f_equal. apply map_ext_in. intros r Hr. rewrite Forall_forall in FA. unfold meas, fac. rewrite (FA r Hr).
    unfold sol, fP, Sv. fold d. rewrite EQ. apply (DcFacts3.vmul_ones d); rewrite mv_length. apply (rx_mat s q rs OK). pose proof OK as (_ & _ & _ & _ & _ & F). rewrite Forall_forall in F. apply F. exact Hr.
  Qed.
  Context (HN : honest q).
  Lemma c88_jacobian m : length m = q_p q -> solves n (d_solve d) (getA d rho) -> (z_storeJ s = true -> symmetric n (getA d rho)) -> has_jacobian (q_p q) n (q_val q) m (mv (q_der q m)) ->
    (exists x, snd (zdpred s (zinit rho q) m None) = Ok x) /\ (forall v, length v = q_p q -> exists j, snd (zJvec s (zinit rho q) m v None) = Ok j) /\
    has_jacobian (q_p q) (sp_size rs) (fun m' => val [] (snd (zdpred s (zinit rho q) m' None))) m (fun v => val [] (snd (zJvec s (zinit rho q) m v None))).
  Proof.
    intros Lm SV SY HJ. split; [eexists; apply (dpred_val s q rs rho OK m Lm)|]. split; [intros v Lv; eexists; apply (Jvec_val s q rs rho OK HN Lr m v); assumption|].
    apply (has_jacobian_ext _ _ (fun m' => mv (zP s) (fP s q rho m')) _ m (jP s q rho m)); [|exact Lm| |].
    - intros v Lv. apply (vderiv_lin n (sp_size rs) (fun x => mv (zP s) (Sv s rho (vmul (z_vol s) x))) (fun t => q_val q (vadd m (vscale t v)))); [apply data_lin; exact SV|]. exact (HJ v Lv).
    - intros x Lx. rewrite (dpred_val s q rs rho OK x Lx). reflexivity.
    - intros v Lv. rewrite (Jvec_val s q rs rho OK HN Lr m v) by assumption. reflexivity.
  Qed.
  Lemma jP_length m v : length m = q_p q -> length (jP s q rho m v) = sp_size rs.
  Proof. intros. unfold jP. rewrite mv_length. apply (zP_mat s q rs OK). Qed.
  Lemma c88_adjoint m v w : length m = q_p q -> length v = q_p q -> length w = sp_size rs -> solves n (d_solve d) (getA d rho) -> symmetric n (getA d rho) ->
    exists j a, snd (zJvec s (zinit rho q) m v None) = Ok j /\ snd (zJtvec s (zinit rho q) m w None) = Ok a /\ length j = sp_size rs /\ length a = q_p q /\ dot w j = dot a v.
  Proof.
    intros Lm Lv Lw SV SY. destruct (Jtvec_val s q rs rho OK HN Lr m w Lm Lw SV SY) as (a & Ea & La & Q). exists (jP s q rho m v), a.
    split; [apply (Jvec_val s q rs rho OK HN Lr); auto|]. split; [exact Ea|]. split; [apply jP_length; exact Lm|]. split; [exact La|]. symmetry. apply Q. exact Lv.
  Qed.
  Lemma c88_getJ m : length m = q_p q -> solves n (d_solve d) (getA d rho) -> symmetric n (getA d rho) ->
    exists J, snd (zgetJ s (zinit rho q) m None) = Ok J /\ is_mat (sp_size rs) (q_p q) J /\
      (forall v, length v = q_p q -> snd (zJvec s (zinit rho q) m v None) = Ok (mv J v)) /\
      (forall w, length w = sp_size rs -> snd (zJtvec s (zinit rho q) m w None) = Ok (mtv (q_p q) J w)).
  Proof.
    intros Lm SV SY. exists (SelfPotFacts.JP s q rho m). split; [apply (getJ_val s q rs rho OK m Lm)|]. pose proof (JP_mat s q rs OK rho m Lm) as HM. split; [exact HM|]. split.
    - intros v Lv. rewrite (JP_mv s q rs OK) by assumption. apply (Jvec_val s q rs rho OK HN Lr); auto.
    - intros w Lw. destruct (Jtvec_val s q rs rho OK HN Lr m w Lm Lw SV SY) as (a & -> & La & Q). f_equal. apply dot_ext; [rewrite La; symmetry; eapply mtv_length; exact HM|].
      intros v Lv. rewrite La in Lv. rewrite (Q v Lv). rewrite <- (mv_mtv_adjoint (sp_size rs) (q_p q)) by assumption. rewrite (JP_mv s q rs OK) by assumption. reflexivity.
  Qed.
End T.
Lemma c88_one_source s rho q m : length (z_srcs s) <> 1%nat -> length m = q_p q ->
  snd (zfields s (zinit rho q) m) = Err ValueError /\ snd (zdpred s (zinit rho q) m None) = Err ValueError /\ (forall v, snd (zJvec s (zinit rho q) m v None) = Err ValueError) /\ (forall w, snd (zJtvec s (zinit rho q) m w None) = Err ValueError).
Proof.
  intros N Lm. apply Nat.eqb_neq in N. assert (E : exists st, zfields s (zinit rho q) m = (st, Err ValueError)).
  { unfold zfields. destruct (zset_fresh s q rho m Lm) as (st & -> & _). rewrite N. eexists. reflexivity. }
  destruct E as [st E]. unfold zdpred, zJvec, zJtvec, zgiven. rewrite E. auto.
Qed.
(** Examples *)
Lemma sp2_ok b c q rs : rs = [volt [0%nat; 1%nat] None] -> map_ok 2 q -> spot_ok (sp2 b c) q rs.
Proof.
  intros -> HM. split; [|split; [reflexivity|split; [reflexivity|split; [exact HM|split; [reflexivity|constructor; [exact Logic.I|constructor]]]]]].
  unfold sizes, sp2, z_dc, d_nf, d_n, d_G, d_M, d_nc, d_form, d_D, d_p, d_prop, d_dprop, d_interp, d_solve.
  split; [split; [reflexivity|repeat constructor]|]. split; [split; [reflexivity|repeat constructor]|]. split; [intros _; split; [reflexivity|repeat constructor]|]. split; [discriminate|].
  split; [intros m _; split; [reflexivity|split; [reflexivity|repeat constructor]]|]. split; [intros [|k]; reflexivity|]. intros A b0 _. reflexivity.
Qed.
Lemma q_id_ok : map_ok 2 q_id. Proof. intros m L. split; [exact L|]. split; [reflexivity|repeat constructor]. Qed.
Lemma q_twice_ok : map_ok 2 q_twice. Proof. intros m L. split; [unfold q_twice, q_val; rewrite vscale_length; exact L|]. split; [reflexivity|repeat constructor]. Qed.
Lemma q_square_ok : map_ok 2 q_square. Proof. intros m L. split; [reflexivity|]. split; [reflexivity|repeat constructor]. Qed.
Lemma honest_id : honest q_id. Proof. intros _ m m' _ _. reflexivity. Qed.
Lemma honest_twice : honest q_twice. Proof. intros _ m m' _ _. reflexivity. Qed.
Lemma honest_square : honest q_square. Proof. intros H. discriminate. Qed.
Ltac go := cbn -[IZR INR Rplus Rmult Rinv Rminus Rdiv Ropp].
Lemma sp2_act c r a b : act false (getA (z_dc (sp2 false c)) [r]) [a; b] = [/ r * (2 * a - b); / r * (b - a)].
Proof. go. rewrite !Rmult_1_l, !Rplus_0_r. f_equal; [ring|f_equal; ring]. Qed.
Lemma sp2_solves c r : r <> 0 -> solves 2 solve2 (getA (z_dc (sp2 false c)) [r]).
Proof.
  intros Hr b Lb. destruct b as [|b0 [|b1 [|]]]; try discriminate Lb.
  assert (E : solve2 (getA (z_dc (sp2 false c)) [r]) [b0; b1] = [r * (b0 + b1); r * (b0 + 2 * b1)]).
  { unfold solve2. rewrite !sp2_act. cbn [nth]. f_equal; [field; exact Hr|f_equal; field; exact Hr]. }
  rewrite E. split; [rewrite sp2_act; f_equal; [field; exact Hr|f_equal; field; exact Hr]|].
  intros y Ly Ey. destruct y as [|y0 [|y1 [|]]]; try discriminate Ly. rewrite sp2_act in Ey. injection Ey as E0 E1.
  assert (y1 - y0 = r * b1) by (rewrite <- E1; field; exact Hr). assert (2 * y0 - y1 = r * b0) by (rewrite <- E0; field; exact Hr). f_equal; [lra|f_equal; lra].
Qed.
Lemma sp2_sym c r : symmetric 2 (getA (z_dc (sp2 false c)) [r]).
Proof.
  intros a b La Lb. destruct a as [|a0 [|a1 [|]]]; try discriminate La. destruct b as [|b0 [|b1 [|]]]; try discriminate Lb. rewrite !sp2_act. cbn [dot]. ring.
Qed.
