From Verif Require Import Py Vec VecDeriv Joint Cplx CplxFacts SolveDeriv RichardsFacts RichardsFacts2 DcFacts Fdem SpecFdem FdemFacts FdemFacts2 FdemFacts3 FdemFacts4 FdemFacts5 FdemFacts6 FdemFacts7 FdemFacts8 FdemFacts9 FdemFacts10 FdemFacts11.
From Verif Require LinSimFacts DcFacts5 EmpirFacts.
From Coq Require Import Reals Lra Lia.
Local Open Scope R_scope.

(** A source added to the list of a survey: zero fields *)
Definition new_raw : source := raw 1 1 0 1 [rx Fe Real; rx Fe Imag].
Lemma new_loop m : loop (rxv (tiny FormE false true) m) [one_raw; new_raw] = one_out m (sol (tiny FormE false true) m one_raw) (czero 1) m ++ one_out m (sol (tiny FormE false true) m new_raw) (czero 1) m.
Proof.
  unfold loop. cbn [map concat]. rewrite app_nil_r. destruct (tiny_len (tiny FormE false true) m one_raw [one_raw] (one_ok FormE false true) eq_refl (or_introl eq_refl)) as (a & b & E1).
  assert (E2 : sol (tiny FormE false true) m new_raw = sol (tiny FormE false true) m one_raw) by reflexivity. unfold rxv. rewrite E2, E1, !one_out_eq. calc'. leq; ring.
Qed.
Lemma c66_added : exists s srcs new m, setup_ok s (srcs ++ [new]) /\ regular s (srcs ++ [new]) m /\
  exists d d', snd (dpred s (mkSt (set_source_list (make_survey srcs) (srcs ++ [new])) None None None None) m None) = Ok d /\ snd (dpred s (init (srcs ++ [new])) m None) = Ok d' /\
    skipn (data_size srcs) d = vzero (src_nD new) /\ d <> d'.
Proof.
  set (s := tiny FormE false true). exists s, [one_raw], new_raw, [1; 1]. cbn [app].
  assert (SU : setup_ok s [one_raw; new_raw]) by setup_tac. split; [exact SU|]. split; [apply tiny_regular; lra|].
  destruct (tiny_len s [1; 1] one_raw [one_raw] (one_ok FormE false true) eq_refl (or_introl eq_refl)) as (a & b & E1). pose proof (one_nz false true 1 1 a b ltac:(lra) ltac:(lra) E1) as NZ.
  exists [a; b; 0; 0], [a; b; a; b]. split; [|split; [|split; [reflexivity|]]].
  - set (sv := set_source_list (make_survey [one_raw]) [one_raw; new_raw]).
    assert (EF : fields s (mkSt sv None None None None) [1; 1] = (mkSt sv (Some [1; 1]) (Some [Some ([1; 1], 1)]) None None, Ok ([1; 1], [(0%nat, sol s [1; 1] one_raw)]))).
    { unfold fields. replace (set_model s (mkSt sv None None None None) [1; 1]) with (mkSt sv (Some [1; 1]) None None None, Ok tt) by reflexivity. cbn [st_A st_sv st_model st_J st_gtg]. change (sv_groups sv) with (G [one_raw]). rewrite G1. reflexivity. }
    unfold dpred. cbn [given]. rewrite EF, E1. cbn [snd fst st_model st_sv]. change (sv_list sv) with [one_raw; new_raw]. cbn [mapM]. unfold lookup. change (listed sv one_raw) with true. change (listed sv new_raw) with true. change (dict_get Nat.eqb (s_id one_raw) (snd ([1; 1], [(0%nat, ([a], [b]))]))) with (Some ([a], [b])). change (dict_get Nat.eqb (s_id new_raw) (snd ([1; 1], [(0%nat, ([a], [b]))]))) with (@None cvec).
    unfold rx_eval, one_raw, new_raw, raw. cbn [bind mapM s_rx r_comp rx]. calc'. f_equal. leq; ring.
  - rewrite (dpred_fin s _ SU [1; 1] eq_refl). unfold s. rewrite new_loop. fold s. assert (E2 : sol s [1; 1] new_raw = sol s [1; 1] one_raw) by reflexivity. rewrite E2, E1, !one_out_eq. reflexivity.
  - intros Q. injection Q. intros. apply NZ. split; congruence.
Qed.
(** hSecondary: data but no derivatives *)
Definition hsec : source := raw 0 1 0 1 [rx FhSec Real].
Lemma c66_hsec : exists s srcs m v d, sizes s /\ diff_ok s srcs /\ regular s srcs m /\ snd (dpred s (init srcs) m None) = Ok d /\ snd (Jvec s (init srcs) m v None) = Err TypeError.
Proof.
  set (s := tiny FormH true true). exists s, [hsec], [1; 1], [0; 1]. eexists. split; [apply tiny_sizes|]. split; [split; [reflexivity|split; [exact I|intros _ _; repeat constructor]]|]. split; [apply tiny_regular; lra|].
  rewrite dpred_val, Jvec_val by reflexivity. split.
  - unfold dpred_of, stP, lookup, fieldsP. rewrite G1. change (listed (make_survey [hsec]) hsec) with true. reflexivity.
  - unfold Jvec_of, stP, lookup, fieldsP, over. cbn [st_sv]. change (sv_groups (make_survey [hsec])) with (G [hsec]). rewrite G1. reflexivity.
Qed.
(** "both" and "complex" *)
Lemma c66_both c : c = Both \/ c = Complex -> snd (dpred (tiny FormE true true) (init [whole c]) [1; 1] None) = Err AttributeError.
Proof.
  intros C. rewrite dpred_val by reflexivity. unfold dpred_of, stP, lookup, fieldsP. rewrite G1. destruct C as [->| ->]; reflexivity.
Qed.
(** H-J with a map for mu and a dipole: the derivatives leave the sources out. *)
Definition hdip : source := dip 0 1 1 [rx Fh Imag].
Lemma hdip_ok : setup_ok (tiny FormH false true) [hdip]. Proof. setup_tac. Qed.
Lemma neq_mu e : e <> 1 -> forallb (fun x => if Req_EM_T x 1 then true else false) [e] = false.
Proof. intros N. cbn. destruct (Req_EM_T e 1); [contradiction|reflexivity]. Qed.
Lemma hdip_sol e : 0 < e -> e <> 1 -> let w := omega 1 in sol (tiny FormH false true) [1; e] hdip =
  ([- (/ (e - 1) + w * w * e * e) / (1 + w * w * e * e)], [w * e * (/ (e - 1) - 1) / (1 + w * w * e * e)]).
Proof.
  intros He N w. set (s := tiny FormH false true).
  assert (RG : solvable s [hdip] [1; e]) by (apply tiny_solvable; lra). pose proof (proj2 (proj2 (proj2 RG)) hdip (or_introl eq_refl)) as CS.
  assert (ER : getRHS s [1; e] hdip = ([- / (e - 1)], [- (w * e)])).
  { unfold s. unfold getRHS. cbn [f_form tiny]. unfold s_e. cbn [s_kind hdip dip isEB f_form tiny]. change (p_val (f_edge (tiny FormH false true)) [1; e]) with [e]. rewrite neq_mu by exact N. unfold s_m. fold w. calc'. fold w. leq.
    - rewrite ?Rmult_1_l, ?Rplus_0_r. field. intro. apply N. lra.
    - ring. }
  unfold sol. change (s_freq hdip) with 1. rewrite ER. symmetry. apply (proj2 (CS ([- / (e - 1)], [- (w * e)]) (conj eq_refl eq_refl))); [split; reflexivity|]. change (s_freq hdip) with 1. unfold s. rewrite tiny_A. cbn [ka kb Fv]. fold w. assert (0 < 1 + w * w * e * e) by nra. leq; field; split; lra.
Qed.
Lemma hdip_data e : 0 < e -> e <> 1 -> let w := omega 1 in snd (dpred (tiny FormH false true) (init [hdip]) [1; e] None) = Ok [w * e * (/ (e - 1) - 1) / (1 + w * w * e * e)].
Proof.
  intros He N w. rewrite (dpred_fin _ _ hdip_ok [1; e] eq_refl). unfold loop. cbn [map concat hdip dip s_rx]. rewrite !app_nil_r. unfold rxv. change (dip 0 1 1 [rx Fh Imag]) with hdip. rewrite hdip_sol by assumption. fold w. set (y := _ / _) at 2. calc'. f_equal. leq. unfold y. ring.
Qed.
Lemma hdip_J : let w := omega 1 in snd (Jvec (tiny FormH false true) (init [hdip]) [1; 2] [0; 1] None) = Ok [w / (1 + 4 * (w * w))].
Proof.
  intros w. rewrite Jvec_val by reflexivity. rewrite (Jvec_eq' _ _ hdip_ok [1; 2] eq_refl) by (intros; reflexivity). f_equal. unfold loop. cbn [map concat hdip dip s_rx]. rewrite !app_nil_r. unfold jrx, du, rhs. change (dip 0 1 1 [rx Fh Imag]) with hdip. rewrite hdip_sol by lra. change (s_freq hdip) with 1. fold w.
  replace (- (/ (2 - 1) + w * w * 2 * 2) / (1 + w * w * 2 * 2)) with (-1) by (field; nra). replace (w * 2 * (/ (2 - 1) - 1) / (1 + w * w * 2 * 2)) with 0 by (field; nra).
  assert (ER : cadd (copp (getADeriv (tiny FormH false true) 1 [1; 2] ([-1], [0]) [0; 1])) (qval (tiny FormH false true) [1; 2] [0; 1] hdip) = ([0], [w])).
  { unfold qval, getRHSDeriv. cbn [stacked f_form tiny]. unfold s_e. cbn [s_kind hdip dip isEB f_form tiny]. change (p_val (f_edge (tiny FormH false true)) [1; 2]) with [2]. rewrite neq_mu by lra. calc'. fold w. leq; ring. }
  rewrite ER. set (z := f_solve _ _ _). assert (Ez : z = ([2 * w * w / (1 + 4 * (w * w))], [w / (1 + 4 * (w * w))])).
  { symmetry. apply (proj2 (tiny_csolves FormH false true 1 1 2 ltac:(lra) ltac:(lra) ([0], [w]) (conj eq_refl eq_refl))); [split; reflexivity|]. rewrite tiny_A. cbn [ka kb Fv]. fold w. leq; field; nra. }
  rewrite Ez. set (y := w / (1 + 4 * (w * w))). calc'. leq. ring.
Qed.
Lemma c66_dipole_mu : exists s srcs m v l, setup_ok s srcs /\ f_fwd s = false /\ isEB s = false /\ regular s srcs m /\ length v = f_p s /\
  vderiv (data_size srcs) (fun t => val [] (snd (dpred s (init srcs) (vadd m (vscale t v)) None))) 0 l /\
  exists j, snd (Jvec s (init srcs) m v None) = Ok j /\ j <> l.
Proof.
  set (s := tiny FormH false true). set (w := omega 1). assert (W : 0 < w) by (apply wpos; lra).
  set (g := fun e => w * e * (/ (e - 1) - 1) / (1 + w * w * e * e)). set (l := - (2 * w) / (1 + 4 * (w * w))).
  assert (DG : derivable_pt_lim (fun t => g (2 + t * 1)) 0 l).
  { unfold g. assert (A1 : derivable_pt_lim (fun t => 2 + t * 1) 0 1) by apply DcFacts5.affine_d.
    pose proof (dpl_scal w _ _ _ A1) as A2. assert (A3 : derivable_pt_lim (fun t => 2 + t * 1 - 1) 0 1) by (eapply dpl_eq; [|apply (dpl_minus _ (fun _ => 1) _ _ _ A1 (dpl_const 1 0))]; ring).
    assert (A4 : derivable_pt_lim (fun t => / (2 + t * 1 - 1) - 1) 0 (- 1)).
    { eapply dpl_eq; [|apply (dpl_minus (fun t => / (2 + t * 1 - 1)) (fun _ => 1)); [|apply dpl_const]; apply (dpl_ext (fun t => 1 / (2 + t * 1 - 1))); [intros; unfold Rdiv; ring|]; apply (EmpirFacts.dpl_div (fun _ => 1)); [apply dpl_const|exact A3|lra]]. unfold Rsqr. field. }
    assert (A5 : derivable_pt_lim (fun t => 1 + w * w * (2 + t * 1) * (2 + t * 1)) 0 (4 * w * w)).
    { eapply dpl_eq; [|apply (dpl_plus (fun _ => 1) (fun t => w * w * (2 + t * 1) * (2 + t * 1))); [apply dpl_const|apply (dpl_mult (fun t => w * w * (2 + t * 1)) (fun t => 2 + t * 1)); [apply dpl_scal; exact A1|exact A1]]]. ring. }
    eapply dpl_eq; [|apply (EmpirFacts.dpl_div (fun t => w * (2 + t * 1) * (/ (2 + t * 1 - 1) - 1))); [apply (dpl_mult (fun t => w * (2 + t * 1)) (fun t => / (2 + t * 1 - 1) - 1)); [exact A2|exact A4]|exact A5|]]. - unfold l, Rsqr. field. nra. - nra. }
  exists s, [hdip], [1; 2], [0; 1], [l]. split; [exact hdip_ok|]. split; [reflexivity|]. split; [reflexivity|]. split; [apply tiny_regular; lra|]. split; [reflexivity|]. split.
  - split; [|split; [reflexivity|]].
    + intros t. rewrite (dpred_fin _ _ hdip_ok) by reflexivity. reflexivity.
    + intros [|i] Hi; [|cbn in Hi; lia]. cbn [nth]. eapply (dpl_local (fun t => g (2 + t * 1))); [|apply DG]. exists (1 / 2). split; [lra|].
      intros t Ht. rewrite !Rplus_0_l. apply Rabs_def2 in Ht. change (vadd [1; 2] (vscale t [0; 1])) with [1 + t * 0; 2 + t * 1]. replace (1 + t * 0) with 1 by ring. unfold s. rewrite hdip_data by lra. reflexivity.
  - eexists. split; [apply hdip_J|]. fold w. intros Q. assert (Q' : w / (1 + 4 * (w * w)) = l) by congruence. unfold l in Q'. assert (0 < / (1 + 4 * (w * w))) by (apply Rinv_0_lt_compat; nra). unfold Rdiv in Q'. nra.
Qed.
Lemma ex_dip_setup k bf be : setup_ok (tiny k bf be) [dip 0 1 1 [rx Fb Real; rx Fe Imag]] /\ solvable (tiny k bf be) [dip 0 1 1 [rx Fb Real; rx Fe Imag]] [1; 2].
Proof. split; [setup_tac|apply tiny_solvable; lra]. Qed.
