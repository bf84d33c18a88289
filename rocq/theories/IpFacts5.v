From Verif Require Import Py Vec VecDeriv Frechet Joint Richards RichardsFacts RichardsFacts2 RichardsFacts3 LinSimFacts EmpirFacts SolveDeriv Dc SpecDc DcFacts DcFacts2 DcFacts3 DcFacts4 DcFacts5 Ip SpecIp IpFacts IpFacts2 IpFacts3 IpFacts4.
From Coq Require Import Reals Lra Lia.
Local Open Scope R_scope.
Ltac rc := cbn -[IZR Rplus Rmult Rinv Rminus Rdiv Ropp pow].
Ltac rv := cbv -[IZR Rplus Rmult Rinv Rminus Rdiv Ropp pow].
Ltac cells := repeat match goal with |- _ :: _ = _ :: _ => f_equal end.

Lemma id_ip_ok store charge g : g <> 0 -> ip_ok (id_ip store charge) ex_srcs [g].
Proof.
  intros G. split; [|split; [reflexivity|split; [|split; [|left; reflexivity]]]].
  - split; [|apply (ex_setup false store)]. unfold sizes; cbn. repeat split; auto; try discriminate. intros [|[|k]]; reflexivity.
  - apply (two_nodes_solves false store None g G).
  - apply (ex_symmetric store [g] eq_refl).
Qed.
Lemma id_ip_ok1 store charge g k : g <> 0 -> ip_ok (id_ip store charge) (one_pole k 1) [g].
Proof.
  intros G. destruct (id_ip_ok store charge g G) as (A & B & C & D & _). split; [split; [apply A|apply (one_pole_ok false store)]|]. split; [exact B|]. split; [exact C|]. split; [exact D|left; reflexivity].
Qed.
Lemma id_polarizable store g : g <> 0 -> polarizable (two_nodes false store None) 1 [[1]] [g] ex_srcs.
Proof.
  intros G. split; [split; [unfold sizes; cbn; repeat split; auto; try discriminate; intros [|[|k]]; reflexivity|apply (ex_setup false store)]|]. split; [split; repeat constructor|]. split; [reflexivity|]. split; [discriminate|].
  exists (1 / 2). split; [lra|]. intros m' L' H. destruct m' as [|x [|]]; try discriminate. specialize (H 0%nat ltac:(lia)). cbn [nth vzero vconst repeat] in H. apply Rabs_def2 in H.
  assert (N : g * (1 - x) <> 0) by (apply Rmult_integral_contrapositive; lra).
  change (solves 2 solve2 (getA (polarized (two_nodes false store None) 1 [[1]] [g]) [x])).
  replace (getA (polarized (two_nodes false store None) 1 [[1]] [g]) [x]) with (getA (two_nodes false store None) [g * (1 - x)]); [apply two_nodes_solves; exact N|].
  unfold getA. rc. replace (1 * x + 0) with x by ring. reflexivity.
Qed.
Lemma ex_ip_data store charge g m : g <> 0 -> snd (idpred (id_ip store charge) (iinit ex_srcs [g]) [m] None) =
  Ok (Some (if charge then [m; m; m] else [m * (2 / (3 * g)); m * - / (3 * g); m * / (3 * g)])).
Proof.
  intros G. pose proof (id_ip_ok store charge g G) as OK. unfold id_ip in *. rewrite (idpred_val _ _ _ _ _ _ OK [m] eq_refl). rewrite (scaled_pd _ _ _ _ _ _ OK).
  rewrite (J0_uniform _ _ _ _ _ _ OK eq_refl ltac:(discriminate) [m] m) by (cbn; f_equal; ring).
  assert (EF : F0 (inherited (linear_ip (two_nodes false store None) 1 [[1]] (fun _ => charge)) [g] [g]) ex_srcs [] = [2 / (3 * g); - / (3 * g); / (3 * g)]).
  { pose proof (ex_data g G) as D. rewrite (dpred_val (two_nodes false false None) ex_srcs (ex_setup false false) [g] eq_refl) in D. assert (V : forall a c : vec, Ok a = Ok c -> a = c) by congruence. apply V in D. exact D. }
  rewrite EF. assert (/ (3 * g) <> 0) by (apply Rinv_neq_0_compat; lra). destruct charge; unfold per_datum, vscale; cbn -[IZR Rplus Rmult Rinv Rminus Rdiv Ropp]; do 2 f_equal; cells; try field; lra.
Qed.
Lemma one_ok k charge g : g <> 0 -> ip_ok (linear_ip (one_node None) 1 [[k]] charge) (one_pole 0 1) [g].
Proof.
  intros G. split; [|split; [reflexivity|split; [|split; [|left; reflexivity]]]].
  - split; [|apply (one_pole_ok false false)]. unfold sizes; cbn. repeat split; auto; try discriminate.
  - intros b Lb. destruct b as [|x [|]]; try discriminate. rc. unfold solve1. rc. split; [cells; field; intro; apply G; lra|].
    intros y Ly Ey. destruct y as [|y [|]]; try discriminate. injection Ey as <-. cells. field. intro; apply G; lra.
  - intros a b La Lb. destruct a as [|x [|]]; try discriminate. destruct b as [|y [|]]; try discriminate. rc. ring.
Qed.
Lemma one_val deta g m : g <> 0 -> length (deta [m]) = 1%nat -> length (hd [] (deta [m])) = 1%nat -> snd (idpred (mkIp (one_node None) 1 deta (fun _ => false)) (iinit (one_pole 0 1) [g]) [m] None) = Ok (Some [dot (hd [] (deta [m])) [m] / g]).
Proof.
  intros G L1 L2. destruct (deta [m]) as [|[|e [|]] [|]] eqn:ED; try discriminate.
  unfold idpred, igiven, ifields. rc. rewrite ED. rc. do 2 f_equal; cells; field; lra.
Qed.
Lemma square_jac m : length m = 1%nat -> has_jacobian 1 1 square m (mv (dsquare m)).
Proof.
  destruct m as [|x [|]]; try discriminate. intros _ v Lv. destruct v as [|v [|]]; try discriminate. split; [reflexivity|]. split; [reflexivity|]. intros [|i] Hi; [|lia].
  apply (dpl_ext (fun t => (x + t * v) * (x + t * v))). { intros t. cbn. ring. } cbn -[IZR Rplus Rmult pow].
  eapply dpl_eq; [|apply (dpl_mult (fun t => x + t * v) (fun t => x + t * v)); apply affine_d]. cbv beta. ring.
Qed.
Lemma c78_map : exists b srcs prop eta deta m, (forall x, length x = 1%nat -> has_jacobian 1 1 eta x (mv (deta x))) /\ length m = 1%nat /\
  ip_ok (linear_ip b 1 [[1]] (fun _ => false)) srcs prop /\ let s := mkIp b 1 deta (fun _ => false) in
  snd (idpred s (iinit srcs prop) m None) <> snd (idpred (linear_ip b 1 [[1]] (fun _ => false)) (iinit srcs prop) (eta m) None) /\
  ~ has_jacobian 1 1 (fun m' => predicted (snd (idpred s (iinit srcs prop) m' None))) m (fun v => val [] (snd (iJvec s (iinit srcs prop) m v None))).
Proof.
  exists (one_node None), (one_pole 0 1), [1], square, dsquare, [1]. split; [exact square_jac|]. split; [reflexivity|]. split; [apply one_ok; lra|]. cbv zeta.
  assert (V : forall x, snd (idpred (mkIp (one_node None) 1 dsquare (fun _ => false)) (iinit (one_pole 0 1) [1]) [x] None) = Ok (Some [2 * (x * x)])).
  { intros x. rewrite one_val by (reflexivity || lra). do 3 f_equal. cbn -[IZR Rplus Rmult Rinv Rdiv]. field. }
  split.
  - rewrite V. change (square [1]) with [1 ^ 2]. unfold linear_ip. rewrite one_val by (reflexivity || lra). intros Q. injection Q. cbn -[IZR Rplus Rmult Rinv Rdiv]. lra.
  - intros H. destruct (H [1] eq_refl) as (_ & _ & D). specialize (D 0%nat ltac:(lia)).
    assert (J : snd (iJvec (mkIp (one_node None) 1 dsquare (fun _ => false)) (iinit (one_pole 0 1) [1]) [1] [1] None) = Ok [2]).
    { rv. f_equal; cells; field; lra. }
    rewrite J in D. cbn [val nth] in D.
    assert (D2 : derivable_pt_lim (fun t => nth 0 (predicted (snd (idpred (mkIp (one_node None) 1 dsquare (fun _ => false)) (iinit (one_pole 0 1) [1]) (vadd [1] (vscale t [1])) None))) 0) 0 4).
    { apply (dpl_ext (fun t => 2 * ((1 + t * 1) * (1 + t * 1)))). { intros t. change (vadd [1] (vscale t [1])) with [1 + t * 1]. rewrite V. cbn [predicted nth]. ring. }
      apply (dpl_eq _ _ (2 * (1 * (1 + 0 * 1) + (1 + 0 * 1) * 1))); [ring|]. apply dpl_scal. apply (dpl_mult (fun t => 1 + t * 1) (fun t => 1 + t * 1)); apply affine_d. }
    pose proof (uniqueness_limite _ _ _ _ D D2). lra.
Qed.
Lemma c78_kept : exists b srcs prop m1 m2 f, let s := linear_ip b 1 [[1]] (fun _ => false) in ip_ok s srcs prop /\
  let st1 := fst (ifields s (iinit srcs prop) m1) in snd (ifields s (iinit srcs prop) m1) = Ok f /\
  snd (idpred s (fst (ifields s st1 m2)) m1 (Some f)) = snd (idpred s (iinit srcs prop) m2 None) /\
  snd (idpred s (iinit srcs prop) m2 None) <> snd (idpred s (iinit srcs prop) m1 None) /\
  snd (idpred s (iinit srcs prop) m1 (Some f)) = Ok None.
Proof.
  exists (one_node None), (one_pole 0 1), [1], [1], [2]. eexists. cbv zeta. split; [apply one_ok; lra|].
  split; [unfold ifields; rc; reflexivity|]. split; [|split; [|reflexivity]].
  - unfold idpred at 1. cbn [igiven snd]. unfold linear_ip. rewrite ?one_val by (reflexivity || lra).
    unfold ifields. rc. do 2 f_equal; cells; field; lra.
  - unfold linear_ip. rewrite ?one_val by (reflexivity || lra).
    unfold linear_ip. rewrite ?one_val by (reflexivity || lra). intros Q. injection Q. cbn -[IZR Rplus Rmult Rinv Rdiv]. lra.
Qed.
Lemma c78_sigma : exists b srcs prop prop' m d, let s := linear_ip b 1 [[1]] (fun _ => false) in ip_ok s srcs prop /\ ip_ok s srcs prop' /\
  snd (idpred s (set_prop (fst (idpred s (iinit srcs prop) m None)) prop') m None) = Ok (Some d) /\ snd (idpred s (iinit srcs prop') m None) <> Ok (Some d).
Proof.
  exists (one_node None), (one_pole 0 1), [1], [2], [1], [2]. cbv zeta. split; [apply one_ok; lra|]. split; [apply one_ok; lra|].
  split.
  - rv. do 2 f_equal; cells; field; lra.
  - unfold linear_ip. rewrite ?one_val by (reflexivity || lra). intros Q. injection Q. cbn -[IZR Rplus Rmult Rinv Rdiv]. lra.
Qed.
Lemma c78_gtg : exists b srcs prop m g, let s := linear_ip b 1 [[1]] (fun _ => false) in ip_ok s srcs prop /\
  snd (igetJtJdiag s (fst (igetJtJdiag s (iinit srcs prop) m (Some [1]) None)) m (Some [2]) None) = Ok g /\ snd (igetJtJdiag s (iinit srcs prop) m (Some [2]) None) <> Ok g.
Proof.
  exists (one_node None), (one_pole 0 1), [1], [1], [1]. cbv zeta. split; [apply one_ok; lra|]. split.
  - rv. f_equal; cells; field; lra.
  - assert (V : snd (igetJtJdiag (linear_ip (one_node None) 1 [[1]] (fun _ => false)) (iinit (one_pole 0 1) [1]) [1] (Some [2]) None) = Ok [4]).
    { rv. f_equal; cells; field; lra. } rewrite V. intros Q. injection Q. lra.
Qed.
Lemma c78_mini : exists b srcs prop, d_mini b = Some (mini_pole_pole srcs) /\ setup_ok (inherited (linear_ip b 1 [[1]] (fun _ => true)) prop prop) srcs /\
  snd (dpred (background b prop) (init srcs) [1] None) = Ok [0] /\ forall m, snd (idpred (linear_ip b 1 [[1]] (fun _ => true)) (iinit srcs prop) [m] None) = Err KeyError.
Proof.
  exists (one_node (Some (mini_pole_pole dipole_survey))), dipole_survey, [1]. split; [reflexivity|]. split; [|split].
  - split; [unfold sizes; cbn; repeat split; auto; try discriminate; intros [|[|k]]; reflexivity|]. cbn. repeat split; cbn; auto; try (repeat constructor; cbn; auto; try discriminate; intuition lia).
  - unfold dpred. rc. f_equal; cells; field; lra.
  - intros m. rv. reflexivity.
Qed.
