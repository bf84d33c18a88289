From Verif Require Import Py Vec VecDeriv Joint Cplx CplxFacts SolveDeriv RichardsFacts RichardsFacts2 DcFacts Fdem SpecFdem FdemFacts FdemFacts2 FdemFacts3 FdemFacts4 FdemFacts5 FdemFacts6 FdemFacts7 FdemFacts8.
From Verif Require LinSimFacts DcFacts5 EmpirFacts.
From Coq Require Import Reals Lra Lia.
Local Open Scope R_scope.

Ltac calc := cbn -[IZR Rplus Rmult Rinv Rminus Rdiv Ropp pow omega list_eq_dec].
Ltac leq := repeat match goal with |- _ :: _ = _ :: _ => f_equal | |- (_, _) = (_, _) => f_equal end.
Definition Fv (bf : bool) (f : R) : R := if bf then f else 1.
Definition ka (k : form) (F E : R) : R := match k with FormE | FormH => F | _ => F * (/ E * F) end.
Definition kb (k : form) (w F E : R) : R := match k with FormE | FormH => w * E | _ => F * w end.
Lemma tiny_A k bf be fr f e y z : let F := Fv bf f in let E := Fv be e in let w := omega fr in
  cact (getA (tiny k bf be) fr [f; e]) ([y], [z]) = ([ka k F E * y - kb k w F E * z], [ka k F E * z + kb k w F E * y]).
Proof. destruct k, bf, be; unfold cact, getA, act, Fm, Em, EI; calc; leq; rewrite ?Rmult_1_l, ?Rplus_0_r; ring. Qed.
Lemma solve1_ok A a b : (forall y z, cact A ([y], [z]) = ([a * y - b * z], [a * z + b * y])) -> a * a + b * b <> 0 -> csolves 1 solve1 A.
Proof.
  intros E D [x y] [L1 L2]. cbn [fst snd] in L1, L2. destruct x as [|x [|]]; try discriminate. destruct y as [|y [|]]; try discriminate. unfold solve1. rewrite (E 1 0). cbn [nth fst snd].
  replace (a * 1 - b * 0) with a by ring. replace (a * 0 + b * 1) with b by ring. split; [rewrite E; leq; field; exact D|].
  intros [p q] [L3 L4] H. cbn [fst snd] in L3, L4. destruct p as [|p [|]]; try discriminate. destruct q as [|q [|]]; try discriminate. rewrite E in H. injection H as <- <-. leq; field; exact D.
Qed.
Lemma sq_pos a b : 0 < a -> a * a + b * b <> 0. Proof. intros. nra. Qed.
Lemma ka_pos k F E : 0 < F -> 0 < E -> 0 < ka k F E.
Proof. intros HF HE. pose proof (Rinv_0_lt_compat E HE). unfold ka. destruct k; try assumption; apply Rmult_lt_0_compat; try assumption; apply Rmult_lt_0_compat; assumption. Qed.
Lemma Fv_pos b f : 0 < f -> 0 < Fv b f. Proof. destruct b; cbn; lra. Qed.
Lemma tiny_csolves k bf be fr f e : 0 < f -> 0 < e -> csolves 1 solve1 (getA (tiny k bf be) fr [f; e]).
Proof. intros. eapply solve1_ok; [intros; apply tiny_A|]. apply sq_pos. apply ka_pos; apply Fv_pos; assumption. Qed.
Lemma tiny_dim k bf be : dim (tiny k bf be) = 1%nat. Proof. destruct k; reflexivity. Qed.
Lemma tiny_sizes k bf be : sizes (tiny k bf be).
Proof.
  unfold sizes. rewrite tiny_dim. cbn [tiny f_nF f_nE f_C f_nc f_Bf f_Be f_p f_face f_edge f_MfI f_MeI f_solve]. repeat split; auto; try (repeat constructor; fail); try (destruct bf; intros ? Q; cbn in Q; inversion Q; repeat constructor; fail); try (destruct be; intros ? Q; cbn in Q; inversion Q; repeat constructor; fail).
  - cbn in H0. destruct bf; inversion H0. reflexivity.
  - cbn in H0. destruct bf; inversion H0. repeat constructor.
  - cbn in H0. destruct be; inversion H0. reflexivity.
  - cbn in H0. destruct be; inversion H0. repeat constructor.
Qed.
Lemma tiny_solvable k bf be srcs f e : 0 < f -> 0 < e -> solvable (tiny k bf be) srcs [f; e].
Proof.
  intros Hf He. pose proof (Fv_pos bf f Hf). pose proof (Fv_pos be e He). split; [reflexivity|]. split; [|split].
  - intros [|i] Hi; [|unfold Fm in Hi; cbn in Hi; lia]. unfold Fm. destruct bf; calc; cbn in *; lra.
  - intros [|i] Hi; [|unfold Em in Hi; cbn in Hi; lia]. unfold Em. destruct be; calc; cbn in *; lra.
  - intros src _. rewrite tiny_dim. apply tiny_csolves; assumption.
Qed.
Lemma aff_d c a v : derivable_pt_lim (fun t => c * (a + t * v)) 0 (c * v).
Proof. apply dpl_scal. apply DcFacts5.affine_d. Qed.
Lemma tiny_smooth k bf be f e : smooth 2 1 (f_face (tiny k bf be)) [f; e] /\ smooth 2 1 (f_edge (tiny k bf be)) [f; e].
Proof.
  split; unfold smooth; cbn [tiny f_face f_edge first_of second_of p_deriv p_val].
  - destruct bf; [|intros; reflexivity]. intros v Lv. destruct v as [|a [|b [|]]]; try discriminate. split; [reflexivity|]. split; [reflexivity|]. intros [|i] Hi; [|cbn in Hi; lia].
    apply (dpl_ext (fun t => f + t * a)). { intros t. cbn. ring. } cbn [mv map dot nth]. replace (1 * a + (0 * b + 0)) with a by ring. apply DcFacts5.affine_d.
  - destruct be; [|intros; reflexivity]. intros v Lv. destruct v as [|a [|b [|]]]; try discriminate. split; [reflexivity|]. split; [reflexivity|]. intros [|i] Hi; [|cbn in Hi; lia].
    apply (dpl_ext (fun t => e + t * b)). { intros t. cbn. ring. } cbn [mv map dot nth]. replace (0 * a + (1 * b + 0)) with b by ring. apply DcFacts5.affine_d.
Qed.
Lemma tiny_regular k bf be srcs f e : 0 < f -> 0 < e -> regular (tiny k bf be) srcs [f; e].
Proof.
  intros Hf He. destruct (tiny_smooth k bf be f e) as [S1 S2]. split; [exact S1|]. split; [exact S2|]. split; [|apply tiny_solvable; assumption].
  exists (Rmin f e). split; [apply Rmin_pos; assumption|]. intros m' L H. destruct (DcFacts5.list2 m' L) as (x & y & ->). pose proof (H 0%nat ltac:(cbn; lia)) as H0. pose proof (H 1%nat ltac:(cbn; lia)) as H1. cbn [nth] in H0, H1.
  apply Rabs_def2 in H0. apply Rabs_def2 in H1. pose proof (Rmin_l f e). pose proof (Rmin_r f e). apply tiny_solvable; lra.
Qed.
(** Receivers of the fields every formulation has *)
Definition plain (r : receiver) : Prop := exists x c, r = rx x c /\ (x = Fe \/ x = Fb \/ x = Fh \/ x = Fj) /\ (c = Real \/ c = Imag).
Lemma plain_ok k bf be r : plain r -> rx_ok (tiny k bf be) r.
Proof. intros (x & c & -> & X & C). repeat split; auto; try (repeat constructor; fail); cbn; destruct X as [->|[->|[->| ->]]]; try discriminate; intros; discriminate. Qed.
Lemma tiny_setup k bf be srcs : NoDup (map s_id srcs) -> Forall (fun src => (exists i fr a b rs, 0 < fr /\ src = raw i fr a b rs \/ 0 < fr /\ src = dip i fr a rs) /\ Forall plain (s_rx src)) srcs -> setup_ok (tiny k bf be) srcs.
Proof.
  intros N F. split; [apply tiny_sizes|]. split; [exact N|]. eapply Forall_impl; [|exact F]. cbv beta. intros src ((i & fr & a & b & rs & H) & P). split.
  - unfold src_ok. destruct H as [[H ->]|[H ->]]; cbn [raw dip s_freq s_kind]; (split; [exact H|]); destruct k; cbn; repeat split; try reflexivity; lra.
  - eapply Forall_impl; [|exact P]. intros r. apply plain_ok.
Qed.
Ltac okp := split; [repeat constructor; cbn; intuition lia|]; repeat constructor; [do 5 eexists; first [left; split; [|reflexivity]; lra | right; split; [|reflexivity]; lra] | repeat (constructor; [do 2 eexists; split; [reflexivity|split; auto]|]); try constructor ..].
Lemma ex2_ok k bf be : setup_ok (tiny k bf be) ex2.
Proof.
  apply tiny_setup; [repeat constructor; cbn; intuition lia|]. unfold plain. repeat (constructor; [split; [do 5 eexists; left; split; [|reflexivity]; lra|repeat (constructor; [do 2 eexists; split; [reflexivity|split; auto]|]); constructor]|]). constructor.
Qed.
Lemma ex2_diff k bf be : diff_ok (tiny k bf be) ex2.
Proof.
  split; [reflexivity|]. split; [|intros _ _; repeat constructor]. assert (N : NoDup (map s_freq ex2)) by (constructor; [cbn; intros [Q|[]]; lra|constructor; [intros []|constructor]]). destruct k; cbn [f_form tiny]; auto.
Qed.
