From Verif Require Import Py Vec VecDeriv Frechet Joint Richards RichardsFacts RichardsFacts2 RichardsFacts3 LinSimFacts EmpirFacts SolveDeriv Dc SpecDc DcFacts DcFacts2 DcFacts3 DcFacts4.
From Coq Require Import Reals Lra Lia.
Local Open Scope R_scope.

Lemma list2 (b : vec) : length b = 2%nat -> exists x y, b = [x; y].
Proof. destruct b as [|x [|y [|]]]; try discriminate. intros. eauto. Qed.
Lemma solve2_ok A a11 a12 a21 a22 : (forall x y, act false A [x; y] = [a11 * x + a12 * y; a21 * x + a22 * y]) -> a11 * a22 - a12 * a21 <> 0 -> solves 2 solve2 A.
Proof.
  intros E D b Lb. destruct (list2 b Lb) as (x & y & ->). unfold solve2. rewrite (E 1 0), (E 0 1). cbn [nth].
  replace (a11 * 1 + a12 * 0) with a11 by ring. replace (a21 * 1 + a22 * 0) with a21 by ring. replace (a11 * 0 + a12 * 1) with a12 by ring. replace (a21 * 0 + a22 * 1) with a22 by ring.
  split; [rewrite E; repeat match goal with |- _ :: _ = _ :: _ => f_equal end; field; exact D|].
  intros z Lz Ez. destruct (list2 z Lz) as (p & q & ->). rewrite E in Ez. injection Ez as E1 E2. subst x y. repeat match goal with |- _ :: _ = _ :: _ => f_equal end; field; exact D.
Qed.
Lemma two_nodes_A nm st mi g x y : act false (getA (two_nodes nm st mi) [g]) [x; y] =
  if nm then [x; g * (y - x)] else [g * (2 * x - y); g * (2 * y - x)].
Proof. destruct nm; cbn -[IZR Rplus Rmult Rinv Rminus Rdiv Ropp pow]; repeat match goal with |- _ :: _ = _ :: _ => f_equal end; ring. Qed.
Lemma two_nodes_solves nm st mi g : g <> 0 -> solves 2 solve2 (getA (two_nodes nm st mi) [g]).
Proof.
  intros G. destruct nm.
  - apply (solve2_ok _ 1 0 (- g) g); [intros; rewrite two_nodes_A; repeat match goal with |- _ :: _ = _ :: _ => f_equal end; ring|]. replace (1 * g - 0 * - g) with g by ring. exact G.
  - apply (solve2_ok _ (2 * g) (- g) (- g) (2 * g)); [intros; rewrite two_nodes_A; repeat match goal with |- _ :: _ = _ :: _ => f_equal end; ring|]. replace (2 * g * (2 * g) - - g * - g) with (3 * (g * g)) by ring.
    apply Rmult_integral_contrapositive. split; [lra|]. apply Rmult_integral_contrapositive. auto.
Qed.
Lemma two_nodes_sizes nm st mi : sizes (two_nodes nm st mi).
Proof.
  unfold sizes, two_nodes; cbn. repeat split; auto; try discriminate. - intros [|[|k]]; reflexivity.
Qed.
Lemma affine_d a v : derivable_pt_lim (fun t => a + t * v) 0 v.
Proof. eapply dpl_eq; [|apply (dpl_plus (fun _ => a) (fun t => t * v)); [apply dpl_const|apply (dpl_mult (fun t => t) (fun _ => v)); [apply dpl_id|apply dpl_const]]]. cbv beta. ring. Qed.
Lemma two_nodes_regular nm st mi : regular (two_nodes nm st mi) [1].
Proof.
  split; [reflexivity|]. split; [|split; [discriminate|]].
  - intros v Lv. destruct v as [|v [|]]; try discriminate. cbn [d_prop d_dprop two_nodes d_p d_nc]. split; [reflexivity|]. split; [reflexivity|]. intros [|i] Hi; [|cbn in Hi; lia].
    apply (dpl_ext (fun t => 1 + t * v)). { intros t. cbn. ring. } cbn [mv map dot nth].
    replace (1 * v + 0) with v by ring. apply affine_d.
  - exists 1. split; [lra|]. intros m' L' H. destruct m' as [|g [|]]; try discriminate. cbn [d_solve two_nodes d_n]. apply two_nodes_solves. specialize (H 0%nat ltac:(cbn; lia)). cbn [nth] in H. apply Rabs_def2 in H. lra.
Qed.
Ltac nz g := let GG := fresh "GG" in assert (GG : g * g <> 0) by (apply Rmult_integral_contrapositive; split; lra); repeat split; let Q := fresh "Q" in intro Q; first [lra | apply GG; lra | (assert (g * g = 0) by nra); contradiction].
Lemma ex_setup nm st : setup_ok (two_nodes nm st None) ex_srcs.
Proof.
  split; [apply two_nodes_sizes|]. cbn. split; [repeat constructor; cbn; intuition lia|]. repeat constructor; cbn; auto; discriminate.
Qed.
Lemma ex_symmetric st m : length m = 1%nat -> symmetric 2 (getA (two_nodes false st None) m).
Proof. intros L. apply (nodal_symmetric (two_nodes false st None)); try reflexivity; [apply two_nodes_sizes|exact L]. Qed.
Lemma ex_data g : g <> 0 -> snd (dpred (two_nodes false false None) (init ex_srcs) [g] None) = Ok [2 / (3 * g); - / (3 * g); / (3 * g)].
Proof.
  intros G. unfold dpred. cbn -[IZR Rplus Rmult Rinv Rminus Rdiv Ropp pow]. f_equal. repeat match goal with |- _ :: _ = _ :: _ => f_equal end; field; nz g.
Qed.
Lemma c64_cell_ex w : sizes (two_cells [w; 1 - w] None) /\ regular (two_cells [w; 1 - w] None) [1] /\ symmetric 2 (getA (two_cells [w; 1 - w] None) [1]).
Proof.
  assert (SZ : sizes (two_cells [w; 1 - w] None)). { unfold sizes, two_cells; cbn. repeat split; auto; try discriminate; try (repeat constructor; fail). intros [|[|[|k]]]; reflexivity. }
  split; [exact SZ|]. split.
  - split; [reflexivity|]. split; [|split].
    + intros v Lv. destruct v as [|v [|]]; try discriminate. cbn [d_prop d_dprop two_cells d_p d_nc]. split; [reflexivity|]. split; [reflexivity|]. intros [|i] Hi; [|cbn in Hi; lia].
      apply (dpl_ext (fun t => 1 + t * v)). { intros t. cbn. ring. } cbn [mv map dot nth].
      replace (1 * v + 0) with v by ring. apply affine_d.
    + intros _ [|[|i]] Hi; cbn; try lra. cbn in Hi. lia.
    + exists (1 / 2). split; [lra|]. intros m' L' H. destruct m' as [|g [|]]; try discriminate. specialize (H 0%nat ltac:(cbn; lia)). cbn [nth] in H. apply Rabs_def2 in H.
      apply (solve2_ok _ (2 * / g) (- / g) (- / g) (/ g)).
      * intros x y. cbn -[IZR Rplus Rmult Rinv Rminus Rdiv Ropp pow]. repeat match goal with |- _ :: _ = _ :: _ => f_equal end; field; lra.
      * replace (2 * / g * / g - - / g * - / g) with (/ (g * g)) by (field; lra). apply Rinv_neq_0_compat. apply Rmult_integral_contrapositive. lra.
  - apply (cell_symmetric (two_cells [w; 1 - w] None)); try reflexivity; [exact SZ|]. intros x L. destruct (list2 x L) as (a & b & ->). cbn -[IZR Rplus Rmult Rinv Rminus Rdiv Ropp pow]. repeat match goal with |- _ :: _ = _ :: _ => f_equal end; ring.
Qed.

(** ** What does not hold *)
Lemma one_pole_ok nm st k c : setup_ok (two_nodes nm st None) (one_pole k c).
Proof. split; [apply two_nodes_sizes|]. cbn. split; [repeat constructor; cbn; intuition lia|]. repeat constructor; cbn; auto; discriminate. Qed.
Lemma neumann_data g : g <> 0 -> snd (dpred (two_nodes true false None) (init (one_pole 1 1)) [g] None) = Ok [/ g].
Proof. intros G. unfold dpred. cbn -[IZR Rplus Rmult Rinv Rminus Rdiv Ropp pow]. f_equal. repeat match goal with |- _ :: _ = _ :: _ => f_equal end; field; nz g. Qed.
Lemma neumann_J : snd (Jvec (two_nodes true false None) (init (one_pole 1 1)) [1] [1] None) = Ok [0] /\ snd (Jtvec (two_nodes true false None) (init (one_pole 1 1)) [1] [1] None) = Ok [-1].
Proof.
  split.
  - unfold Jvec. cbn -[IZR Rplus Rmult Rinv Rminus Rdiv Ropp pow list_eq_dec]. destruct (list_eq_dec Req_EM_T [1] [1]); cbn -[IZR Rplus Rmult Rinv Rminus Rdiv Ropp pow];
      (f_equal; repeat match goal with |- _ :: _ = _ :: _ => f_equal end; field; lra).
  - unfold Jtvec. cbn -[IZR Rplus Rmult Rinv Rminus Rdiv Ropp pow list_eq_dec]. destruct (list_eq_dec Req_EM_T [1] [1]); cbn -[IZR Rplus Rmult Rinv Rminus Rdiv Ropp pow];
      (f_equal; repeat match goal with |- _ :: _ = _ :: _ => f_equal end; field; lra).
Qed.
Lemma c64_neumann : exists s srcs m v w, setup_ok s srcs /\ regular s m /\ d_neumann s = true /\
  ~ has_jacobian (d_p s) (data_size s srcs) (fun m' => val [] (snd (dpred s (init srcs) m' None))) m (fun v => val [] (snd (Jvec s (init srcs) m v None))) /\
  dot w (val [] (snd (Jvec s (init srcs) m v None))) <> dot (val [] (snd (Jtvec s (init srcs) m w None))) v.
Proof.
  exists (two_nodes true false None), (one_pole 1 1), [1], [1], [1]. split; [apply one_pole_ok|]. split; [apply two_nodes_regular|]. split; [reflexivity|]. split.
  - intros H. specialize (H [1] eq_refl). cbv beta in H. rewrite (proj1 neumann_J) in H. destruct H as (_ & _ & D). specialize (D 0%nat ltac:(cbn; lia)). cbn [val nth] in D.
    assert (D' : derivable_pt_lim (fun t => nth 0 (val [] (snd (dpred (two_nodes true false None) (init (one_pole 1 1)) (vadd [1] (vscale t [1])) None))) 0) 0 (-1)).
    { eapply (dpl_local (fun t => 1 / (1 + t))).
      - exists (1/2). split; [lra|]. intros t Ht. rewrite !Rplus_0_l. apply Rabs_def2 in Ht. cbn [vscale vadd map zipw]. replace (1 + t * 1) with (1 + t) by ring.
        rewrite neumann_data by lra. cbn [val nth]. unfold Rdiv. ring.
      - eapply dpl_eq; [|apply (dpl_div (fun _ => 1) (fun t => 1 + t)); [apply dpl_const|apply (dpl_plus (fun _ => 1) (fun t => t)); [apply dpl_const|apply dpl_id]|lra]]. unfold sq. field. }
    pose proof (uniqueness_limite _ _ _ _ D D'). lra.
  - rewrite (proj1 neumann_J), (proj2 neumann_J). cbn. lra.
Qed.
Lemma neq12 : [1] <> [2] :> vec. Proof. intros H. injection H. lra. Qed.
Lemma c64_stale : exists s srcs m1 m2 v f, setup_ok s srcs /\ d_neumann s = false /\ regular s m1 /\
  snd (fields s (init srcs) m1) = Ok f /\
  let st := fst (fields s (fst (fields s (init srcs) m1)) m2) in
  exists j, snd (Jvec s st m1 v (Some f)) = Ok j /\ snd (Jvec s (init srcs) m1 v None) <> Ok j.
Proof.
  exists (two_nodes false false None), (one_pole 0 1), [1], [2], [1]. eexists. split; [apply one_pole_ok|]. split; [reflexivity|]. split; [apply two_nodes_regular|].
  split; [cbn -[IZR Rplus Rmult Rinv Rminus Rdiv Ropp pow]; reflexivity|]. cbv zeta.
  assert (E : snd (Jvec (two_nodes false false None) (init (one_pole 0 1)) [1] [1] None) = Ok [- (2 / 3)]).
  { unfold Jvec. cbn -[IZR Rplus Rmult Rinv Rminus Rdiv Ropp pow list_eq_dec]. destruct (list_eq_dec Req_EM_T [1] [1]); cbn -[IZR Rplus Rmult Rinv Rminus Rdiv Ropp pow];
      (f_equal; repeat match goal with |- _ :: _ = _ :: _ => f_equal end; field; lra). }
  exists [- (1 / 3)]. split; [|rewrite E; intros Q; injection Q; lra].
  unfold fields at 2. cbn -[IZR Rplus Rmult Rinv Rminus Rdiv Ropp pow fields Jvec]. unfold fields. unfold set_model. cbn [length d_p two_nodes Nat.eqb st_model].
  destruct (list_eq_dec Req_EM_T [1] [2]) as [Q|_]; [destruct (neq12 Q)|]. cbn -[IZR Rplus Rmult Rinv Rminus Rdiv Ropp pow Jvec]. unfold Jvec. cbn [given]. unfold set_model. cbn [length d_p two_nodes Nat.eqb st_model].
  destruct (list_eq_dec Req_EM_T [2] [1]) as [Q|_]; [destruct (neq12 (eq_sym Q))|]. cbn -[IZR Rplus Rmult Rinv Rminus Rdiv Ropp pow]. f_equal; repeat match goal with |- _ :: _ = _ :: _ => f_equal end; field; lra.
Qed.
Lemma c64_survey : exists s srcs srcs' m d, setup_ok s srcs /\ setup_ok s srcs' /\ regular s m /\
  snd (dpred s (set_survey (fst (dpred s (init srcs) m None)) srcs') m None) = Ok d /\ snd (dpred s (init srcs') m None) <> Ok d.
Proof.
  exists (two_nodes false false None), (one_pole 0 1), (one_pole 0 2), [1]. eexists. split; [apply one_pole_ok|]. split; [apply one_pole_ok|]. split; [apply two_nodes_regular|].
  assert (E : snd (dpred (two_nodes false false None) (init (one_pole 0 2)) [1] None) = Ok [4 / 3]).
  { unfold dpred. cbn -[IZR Rplus Rmult Rinv Rminus Rdiv Ropp pow]. f_equal. repeat match goal with |- _ :: _ = _ :: _ => f_equal end; field; lra. }
  split; [|rewrite E; instantiate (1 := [2 / 3]); intros Q; injection Q; lra].
  unfold dpred at 2. cbn -[IZR Rplus Rmult Rinv Rminus Rdiv Ropp pow dpred set_survey]. unfold set_survey, dpred. cbn [st_srcs st_model st_A st_q st_J st_gtg used two_nodes d_mini given]. unfold fields, set_model. cbn [length d_p two_nodes Nat.eqb st_model].
  destruct (list_eq_dec Req_EM_T [1] [1]) as [_|Q]; [|destruct Q; reflexivity]. cbn -[IZR Rplus Rmult Rinv Rminus Rdiv Ropp pow]. f_equal; repeat match goal with |- _ :: _ = _ :: _ => f_equal end; field; lra.
Qed.
Lemma c64_same_cell : exists s src, sizes s /\ d_form s = Cell /\ src = dipole 0 0 3 1 [] /\ d_closest s 0 = d_closest s 3 /\ injected s src = vzero 2 /\ src_eval s src = [-1; 0].
Proof.
  exists (two_cells [1; 0] None), (dipole 0 0 3 1 []). split; [replace [1; 0] with [1; 1 - 1] by (repeat match goal with |- _ :: _ = _ :: _ => f_equal end; ring); apply c64_cell_ex|]. split; [reflexivity|]. split; [reflexivity|]. split; [reflexivity|].
  split; cbn -[IZR Rplus Rmult Rinv Rminus Rdiv Ropp pow]; repeat match goal with |- _ :: _ = _ :: _ => f_equal end; ring.
Qed.
Lemma ex_store g W : g <> 0 -> snd (getJtJdiag (two_nodes false false None) (init (one_pole 0 1)) [g] W None) = Ok [(match W with Some W => (nth 0 W 0) ^ 2 | None => 1 end) * (2 / (3 * (g * g))) ^ 2] \/ exists l, W = Some l /\ length l <> 1%nat.
Proof.
  intros G. destruct W as [l|]; [destruct l as [|x [|]]; [right; eexists; split; [reflexivity|discriminate]| |right; eexists; split; [reflexivity|discriminate]]|]; left; unfold getJtJdiag, getJ, init; cbn [st_gtg]; unfold set_model at 1; cbn [length d_p two_nodes Nat.eqb st_model st_J given];
    unfold fields, set_model; cbn [length d_p two_nodes Nat.eqb st_model st_J given]; (destruct (list_eq_dec Req_EM_T [g] [g]) as [_|Q]; [|destruct Q; reflexivity]);
    cbn -[IZR Rplus Rmult Rinv Rminus Rdiv Ropp pow]; f_equal; repeat match goal with |- _ :: _ = _ :: _ => f_equal end; field; nz g.
Qed.
Lemma jtj_again s st m W f m' W' f' g st' : getJtJdiag s st m W f = (st', Ok g) -> getJtJdiag s st' m' W' f' = (st', Ok g).
Proof.
  unfold getJtJdiag. destruct (st_gtg st) as [x|] eqn:E.
  - intros H. injection H as <- <-. rewrite E. reflexivity.
  - destruct (getJ s st m f) as [st1 [J|e]]; [|discriminate]. intros H. injection H as <- <-. reflexivity.
Qed.
Lemma c64_jtj_stale : exists s srcs m m', setup_ok s srcs /\ regular s m /\ regular s m' /\ (forall W W' W'', exists g, snd (getJtJdiag s (init srcs) m (Some [W]) None) = Ok g /\
    snd (getJtJdiag s (fst (getJtJdiag s (init srcs) m (Some [W]) None)) m' (Some [W']) None) = Ok g /\
    (W <> 0 -> W'' ^ 2 <> W ^ 2 -> snd (getJtJdiag s (init srcs) m (Some [W'']) None) <> Ok g)) /\
    snd (getJtJdiag s (init srcs) m None None) <> snd (getJtJdiag s (init srcs) m' None None).
Proof.
  exists (two_nodes false false None), (one_pole 0 1), [1], [2]. split; [apply one_pole_ok|]. split; [apply two_nodes_regular|]. split; [|split].
  - pose proof (two_nodes_regular false false None) as (_ & _ & _ & _). split; [reflexivity|]. split; [|split; [discriminate|]].
    + intros v Lv. destruct v as [|v [|]]; try discriminate. cbn [d_prop d_dprop two_nodes d_p d_nc]. split; [reflexivity|]. split; [reflexivity|]. intros [|i] Hi; [|cbn in Hi; lia].
      apply (dpl_ext (fun t => 2 + t * v)). { intros t. cbn. ring. } cbn [mv map dot nth].
      replace (1 * v + 0) with v by ring. apply affine_d.
    + exists 1. split; [lra|]. intros m' L' H. destruct m' as [|g [|]]; try discriminate. cbn [d_solve two_nodes d_n]. apply two_nodes_solves. specialize (H 0%nat ltac:(cbn; lia)). cbn [nth] in H. apply Rabs_def2 in H. lra.
  - intros W W' W''. destruct (ex_store 1 (Some [W]) ltac:(lra)) as [E|(l & E & N)]; [|injection E as <-; destruct N; reflexivity].
    destruct (ex_store 1 (Some [W'']) ltac:(lra)) as [E2|(l & E2 & N)]; [|injection E2 as <-; destruct N; reflexivity]. cbn [nth] in E, E2.
    eexists. split; [exact E|]. split.
    + destruct (getJtJdiag (two_nodes false false None) (init (one_pole 0 1)) [1] (Some [W]) None) as [st' r] eqn:Q. cbn [snd fst] in *. subst r. rewrite (jtj_again _ _ _ _ _ _ _ _ _ _ Q). reflexivity.
    + intros HW N H. rewrite E2 in H. injection H as H. apply N. apply (Rmult_eq_reg_r ((2 / (3 * (1 * 1))) ^ 2)); [exact H|]. apply pow_nonzero. lra.
  - destruct (ex_store 1 None ltac:(lra)) as [->|(l & E & _)]; [|discriminate]. destruct (ex_store 2 None ltac:(lra)) as [->|(l & E & _)]; [|discriminate]. intros H. injection H as H. lra.
Qed.
