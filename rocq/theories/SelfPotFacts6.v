From Coq Require Import Reals Lra Lia.
From Verif Require Import Py Vec VecDeriv Joint SolveDeriv Dc SpecDc SelfPot SpecSelfPot SelfPotFacts SelfPotFacts2 SelfPotFacts3 SelfPotFacts4 SelfPotFacts5.
Local Open Scope R_scope.

Lemma getJ_state s q rs rho m : spot_ok s q rs -> length m = q_p q -> zgetJ s (zinit rho q) m None = (mkZ rho q (Some m) (Some rho) (Some (JP s q rho m)) None, Ok (JP s q rho m)).
Proof.
  intros OK Lm. unfold zgetJ. destruct (zset_fresh s q rho m Lm) as (st & -> & ->). cbn [w_J zgiven]. unfold zfields, zset_model. cbn [w_map w_model w_rho w_A w_J w_gtg]. rewrite Lm, Nat.eqb_refl.
  destruct (list_eq_dec Req_EM_T m m) as [_|N]; [|destruct (N eq_refl)]. cbn [w_map w_model w_rho w_A w_J w_gtg]. rewrite (SR s q rs OK). cbn [length Nat.eqb].
  assert (SRe : z_srcs s = [rs]) by apply OK. assert (E : zrows s (mkZ rho q (Some m) (Some rho) None None) m = Ok (JP s q rho m)).
  { apply (rows_ok s q rs rho SRe); [|reflexivity]. split; [reflexivity|]. split; [reflexivity|]. split; [|intros J E; discriminate]. auto. }
  rewrite E. reflexivity.
Qed.
Lemma kept_J s q' rho' m m' A J g f : length m' = q_p q' -> (z_storeJ s && negb (q_linear q'))%bool = false \/ m' = m ->
  snd (zgetJ s (mkZ rho' q' (Some m) A (Some J) g) m' f) = Ok J.
Proof.
  intros Lm H. unfold zgetJ, zset_model. cbn [w_map w_model w_rho w_A w_J w_gtg]. rewrite Lm, Nat.eqb_refl. destruct (list_eq_dec Req_EM_T m m') as [|N]; [reflexivity|]. destruct H as [->|E]; [reflexivity|congruence].
Qed.
Lemma sp2_J b q r m : map_ok 2 q -> length m = q_p q -> r <> 0 -> JP (sp2 false b) q [r] m = [mtv (q_p q) (q_der q m) [r; 2 * r]; mtv (q_p q) (q_der q m) [r; 4 * r]].
Proof.
  intros HM Lm Hr. unfold JP. assert (E : forall b0 b1, Sv (sp2 false b) [r] [b0; b1] = [r * (b0 + b1); r * (b0 + 2 * b1)]).
  { intros b0 b1. destruct (sp2_solves b r Hr [b0; b1] eq_refl) as [_ U]. symmetry. apply U; [reflexivity|]. rewrite sp2_act. f_equal; [field; exact Hr|f_equal; field; exact Hr]. }
  unfold zP, sp2 at 2, z_srcs. cbn [concat app map getP volt r_m r_n unit2 d_interp z_dc sp2]. unfold sp2 in E |- *. cbn [map]. rewrite !E. cbn [z_vol vmul zipw]. f_equal; [f_equal; f_equal; [ring|f_equal; ring]|f_equal; f_equal; f_equal; [ring|f_equal; ring]].
Qed.
Lemma c88_stale_getJ : exists s q rs rho m1 m2 J, spot_ok s q rs /\ honest q /\ z_storeJ s = false /\ solves (d_n (z_dc s)) (d_solve (z_dc s)) (getA (z_dc s) rho) /\
  snd (zgetJ s (zinit rho q) m1 None) = Ok J /\ snd (zgetJ s (fst (zgetJ s (zinit rho q) m1 None)) m2 None) = Ok J /\ snd (zgetJ s (zinit rho q) m2 None) <> Ok J.
Proof.
  exists (sp2 false false), q_square, rs2, [1], [1], [2]. eexists. pose proof (sp2_ok false false q_square rs2 eq_refl q_square_ok) as OK. split; [exact OK|]. split; [exact honest_square|]. split; [reflexivity|]. split; [apply (sp2_solves false 1); lra|].
  rewrite !(getJ_state _ q_square rs2) by (exact OK || reflexivity). split; [reflexivity|]. split; [apply kept_J; [reflexivity|left; reflexivity]|].
  rewrite !sp2_J by (exact q_square_ok || reflexivity || lra). cbn -[IZR Rplus Rmult]. intros H. injection H. intros. lra.
Qed.
Lemma c88_stale_rho : exists s q rs rho1 rho2 m v j, spot_ok s q rs /\ honest q /\ z_storeJ s = true /\ solves (d_n (z_dc s)) (d_solve (z_dc s)) (getA (z_dc s) rho1) /\ solves (d_n (z_dc s)) (d_solve (z_dc s)) (getA (z_dc s) rho2) /\
  let st := set_rho (fst (zgetJ s (zinit rho1 q) m None)) rho2 in
  snd (zdpred s st m None) = snd (zdpred s (zinit rho2 q) m None) /\ snd (zJvec s st m v None) = Ok j /\ snd (zJvec s (zinit rho2 q) m v None) <> Ok j.
Proof.
  exists (sp2 false true), q_id, rs2, [1], [2], [1; 1], [1; 0]. eexists. pose proof (sp2_ok false true q_id rs2 eq_refl q_id_ok) as OK. split; [exact OK|]. split; [exact honest_id|]. split; [reflexivity|]. split; [apply (sp2_solves true 1); lra|]. split; [apply (sp2_solves true 2); lra|].
  cbn zeta. rewrite (getJ_state _ q_id rs2) by (exact OK || reflexivity). unfold set_rho; cbn [fst w_map w_model w_rho w_A w_J w_gtg].
  assert (EF : zfields (sp2 false true) (mkZ [2] q_id (Some [1; 1]) (Some [1]) (Some (JP (sp2 false true) q_id [1] [1; 1])) None) [1; 1] =
    (mkZ [2] q_id (Some [1; 1]) (Some [2]) (Some (JP (sp2 false true) q_id [1] [1; 1])) None, Ok (fP (sp2 false true) q_id [2] [1; 1]))).
  { unfold zfields, zset_model. cbn [w_map w_model w_rho w_A w_J w_gtg]. change (Nat.eqb (length [1; 1]) (q_p q_id)) with true. cbv iota. destruct (list_eq_dec Req_EM_T [1; 1] [1; 1]) as [_|N]; [|destruct (N eq_refl)]. reflexivity. }
  split; [|split].
  - rewrite (dpred_val _ q_id rs2 [2] OK) by reflexivity. unfold zdpred, zgiven. rewrite EF. cbn [snd]. reflexivity.
  - unfold zJvec, zgiven. rewrite EF. unfold zset_model at 1. cbn [w_map w_model w_rho w_A w_J w_gtg]. change (Nat.eqb (length [1; 1]) (q_p q_id)) with true. cbv iota. destruct (list_eq_dec Req_EM_T [1; 1] [1; 1]) as [_|N]; [|destruct (N eq_refl)].
    change (z_storeJ (sp2 false true)) with true. cbv iota. pose proof (kept_J (sp2 false true) q_id [2] [1; 1] [1; 1] (Some [2]) (JP (sp2 false true) q_id [1] [1; 1]) None (Some (fP (sp2 false true) q_id [2] [1; 1])) eq_refl (or_intror eq_refl)) as K.
    destruct (zgetJ _ _ _ _) as [st r]. cbn [snd] in K. rewrite K. cbn [bind snd]. reflexivity.
  - rewrite (Jvec_val _ q_id rs2 [2] OK honest_id) by (reflexivity || (apply (sp2_solves true 2); lra) || (intros _; apply (sp2_sym true 2))). rewrite <- (JP_mv _ q_id rs2 OK) by (reflexivity || (apply (sp2_solves true 2); lra) || apply (sp2_sym true 2)).
    rewrite !sp2_J by (exact q_id_ok || reflexivity || lra). cbn -[IZR Rplus Rmult]. intros H. injection H. intros. lra.
Qed.
Lemma c88_stale_map : exists s q q' rs rho m v j, spot_ok s q rs /\ spot_ok s q' rs /\ honest q /\ honest q' /\ z_storeJ s = true /\ solves (d_n (z_dc s)) (d_solve (z_dc s)) (getA (z_dc s) rho) /\
  let st := set_qmap (fst (zgetJ s (zinit rho q) m None)) q' in
  snd (zdpred s st m None) = snd (zdpred s (zinit rho q') m None) /\ snd (zJvec s st m v None) = Ok j /\ snd (zJvec s (zinit rho q') m v None) <> Ok j.
Proof.
  exists (sp2 false true), q_id, q_twice, rs2, [1], [1; 1], [1; 0]. eexists. pose proof (sp2_ok false true q_id rs2 eq_refl q_id_ok) as OK. pose proof (sp2_ok false true q_twice rs2 eq_refl q_twice_ok) as OK'.
  split; [exact OK|]. split; [exact OK'|]. split; [exact honest_id|]. split; [exact honest_twice|]. split; [reflexivity|]. split; [apply (sp2_solves true 1); lra|].
  cbn zeta. rewrite (getJ_state _ q_id rs2) by (exact OK || reflexivity). unfold set_qmap; cbn [fst w_map w_model w_rho w_A w_J w_gtg].
  assert (EF : zfields (sp2 false true) (mkZ [1] q_twice (Some [1; 1]) (Some [1]) (Some (JP (sp2 false true) q_id [1] [1; 1])) None) [1; 1] =
    (mkZ [1] q_twice (Some [1; 1]) (Some [1]) (Some (JP (sp2 false true) q_id [1] [1; 1])) None, Ok (fP (sp2 false true) q_twice [1] [1; 1]))).
  { unfold zfields, zset_model. cbn [w_map w_model w_rho w_A w_J w_gtg]. change (Nat.eqb (length [1; 1]) (q_p q_twice)) with true. cbv iota. destruct (list_eq_dec Req_EM_T [1; 1] [1; 1]) as [_|N]; [|destruct (N eq_refl)]. reflexivity. }
  split; [|split].
  - rewrite (dpred_val _ q_twice rs2 [1] OK') by reflexivity. unfold zdpred, zgiven. rewrite EF. cbn [snd]. reflexivity.
  - unfold zJvec, zgiven. rewrite EF. unfold zset_model at 1. cbn [w_map w_model w_rho w_A w_J w_gtg]. change (Nat.eqb (length [1; 1]) (q_p q_twice)) with true. cbv iota. destruct (list_eq_dec Req_EM_T [1; 1] [1; 1]) as [_|N]; [|destruct (N eq_refl)].
    change (z_storeJ (sp2 false true)) with true. cbv iota. pose proof (kept_J (sp2 false true) q_twice [1] [1; 1] [1; 1] (Some [1]) (JP (sp2 false true) q_id [1] [1; 1]) None (Some (fP (sp2 false true) q_twice [1] [1; 1])) eq_refl (or_intror eq_refl)) as K.
    destruct (zgetJ _ _ _ _) as [st r]. cbn [snd] in K. rewrite K. cbn [bind snd]. reflexivity.
  - rewrite (Jvec_val _ q_twice rs2 [1] OK' honest_twice) by (reflexivity || (apply (sp2_solves true 1); lra) || (intros _; apply (sp2_sym true 1))). rewrite <- (JP_mv _ q_twice rs2 OK') by (reflexivity || (apply (sp2_solves true 1); lra) || apply (sp2_sym true 1)).
    rewrite !sp2_J by (exact q_id_ok || exact q_twice_ok || reflexivity || lra). cbn -[IZR Rplus Rmult]. intros H. injection H. intros. lra.
Qed.
(** Neumann conditions *)
Lemma spn_act c r a b : act false (getA (z_dc (sp2 true c)) [r]) [a; b] = [a; / r * (b - a)].
Proof. cbn -[IZR INR Rplus Rmult Rinv Rminus Rdiv Ropp]. rewrite !Rmult_1_l, !Rplus_0_r. f_equal; [ring|f_equal; ring]. Qed.
Lemma spn_solves c r : r <> 0 -> solves 2 solve2 (getA (z_dc (sp2 true c)) [r]).
Proof.
  intros Hr b Lb. destruct b as [|b0 [|b1 [|]]]; try discriminate Lb.
  assert (E : solve2 (getA (z_dc (sp2 true c)) [r]) [b0; b1] = [b0; b0 + r * b1]).
  { unfold solve2. rewrite !spn_act. cbn [nth]. f_equal; [field; exact Hr|f_equal; field; exact Hr]. }
  rewrite E. split; [rewrite spn_act; f_equal; f_equal; field; exact Hr|].
  intros y Ly Ey. destruct y as [|y0 [|y1 [|]]]; try discriminate Ly. rewrite spn_act in Ey. injection Ey as E0 E1. assert (y1 - y0 = r * b1) by (rewrite <- E1; field; exact Hr). f_equal; [lra|f_equal; lra].
Qed.
Lemma spn_Sv c r b0 b1 : r <> 0 -> Sv (sp2 true c) [r] [b0; b1] = [b0; b0 + r * b1].
Proof. intros Hr. destruct (spn_solves c r Hr [b0; b1] eq_refl) as [_ U]. symmetry. apply U; [reflexivity|]. rewrite spn_act. f_equal. f_equal. field. exact Hr. Qed.
Lemma c88_neumann : exists s q rs rho m v w j a, spot_ok s q rs /\ honest q /\ z_storeJ s = false /\ d_neumann (z_dc s) = true /\ solves (d_n (z_dc s)) (d_solve (z_dc s)) (getA (z_dc s) rho) /\
  snd (zJvec s (zinit rho q) m v None) = Ok j /\ snd (zJtvec s (zinit rho q) m w None) = Ok a /\ dot w j <> dot a v.
Proof.
  exists (sp2 true false), q_id, rs2, [1], [1; 1], [1; 0], [0; 1]. eexists. eexists. pose proof (sp2_ok true false q_id rs2 eq_refl q_id_ok) as OK. split; [exact OK|]. split; [exact honest_id|]. split; [reflexivity|]. split; [reflexivity|]. split; [apply (spn_solves false 1); lra|].
  assert (SRe : z_srcs (sp2 true false) = [rs2]) by reflexivity. assert (F : fok [1] (zinit [1] q_id) None) by (intros N; destruct (N eq_refl)).
  rewrite (proj1 (Jvec_ok _ q_id rs2 [1] SRe honest_id _ [1; 1] [1; 0] None (base_init _ _ _) F)). rewrite (proj1 (Jtvec_ok _ q_id rs2 [1] SRe honest_id _ [1; 1] [0; 1] None (base_init _ _ _) F)).
  unfold JvecR, JtvecR. change (Nat.eqb (length [1; 1]) (q_p q_id)) with true. change (z_storeJ (sp2 true false)) with false. cbv iota.
  split; [reflexivity|]. split.
  - cbn [zjt rs2]. unfold zAinv. cbn [w_A bind]. change (d_solve (z_dc (sp2 true false)) (getA (z_dc (sp2 true false)) [1])) with (Sv (sp2 true false) [1]).
    match goal with |- context [Sv (sp2 true false) [1] ?b] => replace b with [0; 1] by (cbn -[IZR Rplus Rmult]; f_equal; [ring|f_equal; ring]) end. rewrite spn_Sv by lra. reflexivity.
  - unfold jP. match goal with |- context [Sv (sp2 true false) [1] ?b] => replace b with [1; 0] by (cbn -[IZR Rplus Rmult]; f_equal; [ring|f_equal; ring]) end. rewrite spn_Sv by lra. cbn -[IZR Rplus Rmult]. lra.
Qed.
Lemma c88_ex r : r <> 0 -> spot_ok (sp2 false true) q_id rs2 /\ honest q_id /\ solves 2 (d_solve (z_dc (sp2 false true))) (getA (z_dc (sp2 false true)) [r]) /\ symmetric 2 (getA (z_dc (sp2 false true)) [r]) /\
  snd (zdpred (sp2 false true) (zinit [r] q_id) [1; 1] None) = Ok [3 * r; 5 * r].
Proof.
  intros Hr. pose proof (sp2_ok false true q_id rs2 eq_refl q_id_ok) as OK. split; [exact OK|]. split; [exact honest_id|]. split; [apply (sp2_solves true r Hr)|]. split; [apply sp2_sym|].
  rewrite (dpred_val _ q_id rs2 [r] OK) by reflexivity. f_equal. unfold fP. match goal with |- context [Sv _ _ ?b] => replace b with [1; 2] by (cbn -[IZR Rplus Rmult]; f_equal; [ring|f_equal; ring]) end.
  replace (Sv (sp2 false true) [r] [1; 2]) with [r * (1 + 2); r * (1 + 2 * 2)].
  - cbn -[IZR Rplus Rmult]. f_equal; [ring|f_equal; ring].
  - destruct (sp2_solves true r Hr [1; 2] eq_refl) as [_ U]. apply U; [reflexivity|]. rewrite sp2_act. f_equal; [field; exact Hr|f_equal; field; exact Hr].
Qed.
Lemma q_square_der m : length m = 1%nat -> has_jacobian 1 2 (q_val q_square) m (mv (q_der q_square m)).
Proof.
  intros L h Lh. destruct m as [|m0 [|]]; try discriminate L. destruct h as [|h0 [|]]; try discriminate Lh. split; [reflexivity|]. split; [reflexivity|]. intros [|[|i]] Hi; [| |lia]; cbn -[IZR Rplus Rmult].
  - apply (dpl_eq _ _ (h0 * (m0 + 0 * h0) + (m0 + 0 * h0) * h0)); [ring|].
    assert (D : derivable_pt_lim (fun t => m0 + t * h0) 0 h0). { apply (dpl_eq _ _ (0 + 1 * h0)); [ring|]. apply dpl_plus; [apply dpl_const|]. apply (dpl_eq _ _ (1 * h0 + 0 * 0)); [ring|]. apply (dpl_mult (fun t => t) (fun _ => h0)); [apply dpl_id|apply dpl_const]. }
    apply (dpl_mult (fun t => m0 + t * h0) (fun t => m0 + t * h0)); exact D.
  - apply (dpl_eq _ _ 0); [ring|]. apply dpl_const.
Qed.
