From Verif Require Import Py Vec VecDeriv Joint Cplx CplxFacts SolveDeriv RichardsFacts RichardsFacts2 DcFacts Fdem SpecFdem FdemFacts FdemFacts2 FdemFacts3 FdemFacts4 FdemFacts5 FdemFacts6 FdemFacts7 FdemFacts8 FdemFacts9 FdemFacts10.
From Verif Require LinSimFacts DcFacts5 EmpirFacts.
From Coq Require Import Reals Lra Lia.
Local Open Scope R_scope.

Ltac calc' := unfold qval, getRHSDeriv, getRHS, getADeriv, getfield, bSecondary, hSecondary, bPrim, hPrim, field_du, field_dm, s_m, s_e, s_eDeriv, cEd, cFd, cEId, EId, cadd, csub, copp, cI, cdivI, creal, czero, cmap, P, getP, edge, pt, val; calc.
Ltac setup_tac := apply tiny_setup; [repeat constructor; cbn; intuition lia|]; unfold plain; repeat (constructor; [split; [first [do 5 eexists; left; split; [|reflexivity]; lra | do 3 eexists; exists 0; eexists; right; split; [|reflexivity]; lra]|repeat (constructor; [do 2 eexists; split; [reflexivity|split; auto]|]); constructor]|]); constructor.
Lemma tiny_len s m src srcs : setup_ok s srcs -> dim s = 1%nat -> In src srcs -> exists x y, sol s m src = ([x], [y]).
Proof.
  intros SU D I. pose proof (len_sol s (proj1 SU) m src (src_good s srcs SU src I)) as [L1 L2]. rewrite D in L1, L2. destruct (sol s m src) as [a b]. cbn [fst snd] in L1, L2. destruct a as [|a [|]]; try discriminate. destruct b as [|b [|]]; try discriminate. eauto.
Qed.
Definition one_raw : source := raw 0 1 0 1 [rx Fe Real; rx Fe Imag].
Lemma one_ok k bf be : setup_ok (tiny k bf be) [one_raw]. Proof. setup_tac. Qed.
(** The solution for [one_raw] is not zero. *)
Lemma one_nz bf be f e x y : 0 < f -> 0 < e -> sol (tiny FormE bf be) [f; e] one_raw = ([x], [y]) -> ~ (x = 0 /\ y = 0).
Proof.
  intros Hf He E [-> ->]. pose proof (sol_ok _ (tiny_sizes FormE bf be) [one_raw] [f; e] one_raw (tiny_solvable FormE bf be _ f e Hf He) (or_introl eq_refl) (src_good _ _ (one_ok FormE bf be) one_raw (or_introl eq_refl))) as H.
  rewrite E, tiny_A in H. pose proof (wpos 1 ltac:(lra)). revert H. destruct bf, be; calc'; intros H; injection H; intros; lra.
Qed.
Definition one_out (m : vec) (y u : cvec) (v : vec) : vec :=
  let s := tiny FormE false true in concat (map (fun r => mv (P s r) (pt (r_comp r) (cadd (field_du s m one_raw (r_field r) y) (field_dm s m m one_raw (r_field r) u v)))) (s_rx one_raw)).
Lemma one_out_eq m y1 y2 u v : one_out m ([y1], [y2]) u v = [y1; y2].
Proof. unfold one_out. calc'. leq; ring. Qed.
Lemma one_loop m v : loop (jrx (tiny FormE false true) m v) [one_raw] = one_out m (du (tiny FormE false true) m v one_raw) (sol (tiny FormE false true) m one_raw) v.
Proof. unfold loop. cbn [map concat]. rewrite app_nil_r. reflexivity. Qed.
(** Fields kept from before another model was used *)
Lemma c66_kept : exists s srcs m1 m2 v f, setup_ok s srcs /\ diff_ok s srcs /\ regular s srcs m1 /\ regular s srcs m2 /\
  snd (fields s (init srcs) m1) = Ok f /\
  let st := fst (fields s (fst (fields s (init srcs) m1)) m2) in
  exists j, snd (Jvec s st m1 v (Some f)) = Ok j /\ snd (Jvec s (init srcs) m1 v None) <> Ok j.
Proof.
  set (s := tiny FormE false true). set (srcs := [one_raw]). exists s, srcs, [1; 1], [1; 2], [0; 1], (fieldsP s srcs [1; 1]).
  assert (SU : setup_ok s srcs) by apply one_ok. assert (DO : diff_ok s srcs) by (split; [reflexivity|]; split; [cbn; discriminate|cbn; discriminate]).
  assert (SV1 : regular s srcs [1; 1]) by (apply tiny_regular; lra). assert (SV2 : regular s srcs [1; 2]) by (apply tiny_regular; lra).
  split; [exact SU|]. split; [exact DO|]. split; [exact SV1|]. split; [exact SV2|]. split; [apply fields_fin; reflexivity|]. cbv zeta.
  destruct (fields_ok s srcs (init srcs) [1; 1] (proj1 (init_inv s srcs)) eq_refl) as (st1 & E1 & I1 & _). rewrite E1. cbn [fst].
  destruct (fields_ok s srcs st1 [1; 2] I1 eq_refl) as (st2 & E2 & (SV & _ & _) & EA & EM). rewrite E2. cbn [fst].
  rewrite (Jvec_fin s srcs SU [1; 1] [0; 1] eq_refl DO).
  set (r := rhs s [1; 1] [0; 1] one_raw). set (x := f_solve s (getA s 1 [1; 2]) r).
  exists (one_out [1; 1] x (sol s [1; 1] one_raw) [0; 1]). split.
  - unfold Jvec. cbn [given]. assert (ES : exists J g, set_model s st2 [1; 1] = (mkSt (make_survey srcs) (Some [1; 1]) (Some (AP s srcs [1; 2])) J g, Ok tt)).
    { unfold set_model. cbn [length f_p s tiny Nat.eqb]. rewrite EM, EA, SV. destruct (list_eq_dec Req_EM_T [1; 2] [1; 1]) as [Q|_]; [exfalso; injection Q; lra|]. do 2 eexists. reflexivity. }
    destruct ES as (J & g & ->). cbn [snd st_sv]. change (sv_groups (make_survey srcs)) with (G [one_raw]). unfold srcs. rewrite G1. unfold over. cbn [length seq combine mapM]. fold srcs. rewrite lookup_ok by (auto; left; reflexivity). cbn [bind]. rewrite qval_ok by reflexivity. cbn [bind].
    assert (EI : forall b, Ainv s (mkSt (make_survey srcs) (Some [1; 1]) (Some (AP s srcs [1; 2])) J g) 0 b = Ok (f_solve s (getA s 1 [1; 2]) b)). { intros b. unfold Ainv. cbn [st_A]. unfold AP. unfold srcs. rewrite G1. reflexivity. }
    rewrite EI. cbn [bind]. change (s_freq one_raw) with 1. change (cadd (copp (getADeriv s 1 [1; 1] (sol s [1; 1] one_raw) [0; 1])) (qval s [1; 1] [0; 1] one_raw)) with r. fold x. reflexivity.
  - unfold srcs, s. rewrite one_loop. fold s. intros Q.
    change (du s [1; 1] [0; 1] one_raw) with (f_solve s (getA s 1 [1; 1]) r) in Q.
    destruct (tiny_len s [1; 1] one_raw srcs SU eq_refl (or_introl eq_refl)) as (a & b & Eu). pose proof (one_nz false true 1 1 a b ltac:(lra) ltac:(lra) Eu) as NZ. assert (Er : r = ([omega 1 * b], [- (omega 1 * a)])). { unfold r, rhs. change (s_freq one_raw) with 1. rewrite Eu. unfold s. calc'. leq; ring. }
    pose proof (tiny_csolves FormE false true 1 1 1 ltac:(lra) ltac:(lra)) as C1. pose proof (tiny_csolves FormE false true 1 1 2 ltac:(lra) ltac:(lra)) as C2. assert (Lr : clen 1 r) by (rewrite Er; split; reflexivity).
    destruct (C1 r Lr) as [H1 _]. destruct (C2 r Lr) as [H2 _]. change (solve1 (getA (tiny FormE false true) 1 [1; 2]) r) with x in H2. set (y := f_solve s (getA s 1 [1; 1]) r) in *. change (solve1 (getA (tiny FormE false true) 1 [1; 1]) r) with y in H1.
    assert (Ly : exists y1 y2, y = ([y1], [y2])) by (unfold y; cbn [s tiny f_solve]; unfold solve1; eauto). assert (Lx : exists y1 y2, x = ([y1], [y2])) by (unfold x; cbn [s tiny f_solve]; unfold solve1; eauto).
    destruct Ly as (y1 & y2 & Ey). destruct Lx as (x1 & x2 & Ex). rewrite Ey, Ex, !one_out_eq in Q. injection Q as Q1 Q2. rewrite Ey in H1. rewrite Ex in H2. clear Ey Ex. rewrite tiny_A in H1, H2. rewrite Er in H1, H2. pose proof (wpos 1 ltac:(lra)) as W. revert H1 H2. unfold s. calc'. intros H1 H2. injection H1 as H1 H1'. injection H2 as H2 H2'.
    subst x1 x2. apply NZ. assert (omega 1 * y2 = 0) by lra. assert (omega 1 * y1 = 0) by lra. apply Rmult_integral in H. apply Rmult_integral in H0. assert (y1 = 0) by (destruct H0; lra). assert (y2 = 0) by (destruct H; lra). subst. split; nra.
Qed.
(** ... and their e and j use the source terms of the present model. *)
Definition one_dip : source := dip 0 1 1 [rx Fe Real].
Lemma dip_out c a b : mv (P (tiny FormB true true) (rx Fe Real)) (fst (getfield (tiny FormB true true) [1; 1] [c; 1] one_dip Fe ([a], [b]))) = [a + (c - 1)].
Proof. calc'. leq. field. Qed.
Lemma c66_kept_source : exists s srcs m1 m2 f, setup_ok s srcs /\ diff_ok s srcs /\ regular s srcs m1 /\ regular s srcs m2 /\
  snd (fields s (init srcs) m1) = Ok f /\
  let st := fst (fields s (fst (fields s (init srcs) m1)) m2) in
  exists d, snd (dpred s st m1 (Some f)) = Ok d /\ snd (dpred s (init srcs) m1 None) <> Ok d.
Proof.
  set (s := tiny FormB true true). set (srcs := [one_dip]). exists s, srcs, [1; 1], [2; 1], (fieldsP s srcs [1; 1]).
  assert (SU : setup_ok s srcs) by (unfold srcs, one_dip; setup_tac). assert (DO : diff_ok s srcs) by (split; [reflexivity|]; split; [exact I|cbn; discriminate]).
  split; [exact SU|]. split; [exact DO|]. split; [apply tiny_regular; lra|]. split; [apply tiny_regular; lra|]. split; [apply fields_fin; reflexivity|]. cbv zeta.
  destruct (fields_ok s srcs (init srcs) [1; 1] (proj1 (init_inv s srcs)) eq_refl) as (st1 & E1 & I1 & _). rewrite E1. cbn [fst].
  destruct (fields_ok s srcs st1 [2; 1] I1 eq_refl) as (st2 & E2 & (SV & _ & _) & EA & EM). rewrite E2. cbn [fst].
  rewrite (dpred_fin s srcs SU [1; 1] eq_refl). set (u := sol s [1; 1] one_dip).
  exists (mv (P s (rx Fe Real)) (fst (getfield s [1; 1] [2; 1] one_dip Fe u))). split.
  - unfold dpred. cbn [given]. rewrite EM, SV. cbn [snd]. change (sv_list (make_survey srcs)) with [one_dip]. cbn [mapM]. rewrite (lookup_ok s srcs SU [1; 1] one_dip (or_introl eq_refl)). fold u. reflexivity.
  - destruct (tiny_len s [1; 1] one_dip srcs SU eq_refl (or_introl eq_refl)) as (a & b & Eu). unfold loop, rxv. cbn [map concat srcs s_rx one_dip dip]. change (sol s [1; 1] (dip 0 1 1 [rx Fe Real])) with u. fold u in Eu. rewrite Eu. rewrite !app_nil_r. change (pt (r_comp (rx Fe Real))) with (@fst vec vec). cbn [r_field rx]. change (dip 0 1 1 [rx Fe Real]) with one_dip. change (sol s [1; 1] one_dip) with u. rewrite Eu. unfold s. rewrite !dip_out. intros Q. injection Q. lra.
Qed.
(** Later diagonals do not use the weights. *)
Lemma c66_jtj_stale : exists s srcs m, setup_ok s srcs /\ diff_ok s srcs /\ regular s srcs m /\ forall W, exists g, snd (getJtJdiag s (init srcs) m (Some W) None) = Ok g /\
  (forall W' f, snd (getJtJdiag s (fst (getJtJdiag s (init srcs) m (Some W) None)) m (Some W') f) = Ok g) /\
  (length W = data_size srcs -> no_zero W -> exists W', length W' = length W /\ snd (getJtJdiag s (init srcs) m (Some W') None) <> Ok g).
Proof.
  set (s := tiny FormE false true). set (srcs := [one_raw]). exists s, srcs, [1; 1]. assert (SU : setup_ok s srcs) by apply one_ok. assert (DO : diff_ok s srcs) by (split; [reflexivity|]; split; [cbn; discriminate|cbn; discriminate]).
  assert (RG : regular s srcs [1; 1]) by (apply tiny_regular; lra).
  assert (CS : forall src, In src srcs -> csolves (dim s) (f_solve s) (getA s (s_freq src) [1; 1])) by apply RG.
  split; [exact SU|]. split; [exact DO|]. split; [exact RG|]. intros W.
  destruct (c66_getJ s srcs SU [1; 1] DO eq_refl CS) as (J & EJ & MJ & HJ & _).
  assert (K : exists g st, getJtJdiag s (init srcs) [1; 1] (Some W) None = (st, Ok g) /\ st_gtg st = Some g /\ st_model st = Some [1; 1]).
  { destruct (set_model_ok s srcs (init srcs) [1; 1] (proj1 (init_inv s srcs)) eq_refl) as (st1 & E1 & I1 & _). unfold getJtJdiag. rewrite E1.
    assert (I2 : Inv s srcs st1 None) by (split; [exact I1|intros ? ? ?; discriminate]). pose proof (proj1 (proj2 (getJ_ok s srcs st1 None [1; 1] false I2))) as H1. pose proof (proj1 (proj2 (getJ_ok s srcs (init srcs) None [1; 1] false (init_inv s srcs)))) as H2. unfold pick in H1, H2.
    assert (G1' : st_gtg st1 = None) by (revert E1; unfold set_model; cbn; intros E1; inversion E1; reflexivity). rewrite G1'. rewrite <- H2, EJ in H1.
    assert (M1 : st_model (fst (getJ s st1 [1; 1] None)) = Some [1; 1]).
    { assert (Em : st_model st1 = Some [1; 1]) by (revert E1; unfold set_model; cbn; intros E1; inversion E1; reflexivity). assert (EJ1 : st_J st1 = None) by (revert E1; unfold set_model; cbn; intros E1; inversion E1; reflexivity). assert (SM : set_model s st1 [1; 1] = (st1, Ok tt)) by (unfold set_model; cbn [length f_p s tiny Nat.eqb]; rewrite Em; destruct (list_eq_dec Req_EM_T [1; 1] [1; 1]) as [_|Q]; [reflexivity|exfalso; apply Q; reflexivity]).
      unfold getJ. rewrite SM, EJ1. cbn [given]. destruct (fields_ok s srcs st1 [1; 1] I1 eq_refl) as (st2 & E2 & _ & EA & EM). rewrite E2, EA. destruct (over _ _); cbn [fst st_model]; exact EM. }
    destruct (getJ s st1 [1; 1] None) as [st2 r2]. cbn [snd fst] in H1, M1. subst r2. eexists. eexists. split; [reflexivity|]. split; [reflexivity|exact M1]. }
  destruct K as (g & st & EK & EG & EM). exists g. rewrite EK. cbn [fst snd]. split; [reflexivity|]. split.
  - intros W' f. unfold getJtJdiag. assert (SM : set_model s st [1; 1] = (st, Ok tt)) by (unfold set_model; cbn [length f_p s tiny Nat.eqb]; rewrite EM; destruct (list_eq_dec Req_EM_T [1; 1] [1; 1]) as [_|Q]; [reflexivity|exfalso; apply Q; reflexivity]). rewrite SM, EG. reflexivity.
  - intros LW NW. exists (vscale 2 W). split; [apply vscale_length|]. intros Q.
    destruct (c66_jtj s srcs SU [1; 1] W DO eq_refl CS LW) as (J1 & g1 & F1 & F2 & _ & F3). rewrite EK in F2. cbn [snd] in F2. rewrite EJ in F1. inversion F1. inversion F2. subst J1 g1. clear F1 F2.
    destruct (c66_jtj s srcs SU [1; 1] (vscale 2 W) DO eq_refl CS ltac:(rewrite vscale_length; exact LW)) as (J1 & g1 & F1 & F2 & _ & F4). rewrite Q in F2. rewrite EJ in F1. inversion F1. inversion F2. subst J1 g1. clear F1 F2.
    specialize (F3 1%nat ltac:(cbn; lia)). specialize (F4 1%nat ltac:(cbn; lia)). rewrite F3 in F4. assert (LJ : length J = 2%nat) by apply MJ. rewrite LJ in F4. cbn [seq map vsum] in F4. rewrite !nth_vscale in F4.
    (* J [0; 1] = 0 otherwise, but the derivative is not zero *)
    pose proof (HJ [0; 1] eq_refl) as HJ1. rewrite (Jvec_fin s srcs SU [1; 1] [0; 1] eq_refl DO) in HJ1. injection HJ1 as HJ1.
    assert (Z : nth 1 (nth 0 J []) 0 = 0 /\ nth 1 (nth 1 J []) 0 = 0).
    { assert (LW2 : length W = 2%nat) by exact LW. destruct (DcFacts5.list2 W LW2) as (w1 & w2 & ->). pose proof (NW 0%nat ltac:(cbn; lia)) as N1. pose proof (NW 1%nat ltac:(cbn; lia)) as N2. cbn [nth] in *.
      set (j1 := nth 1 (nth 0 J []) 0) in *. set (j2 := nth 1 (nth 1 J []) 0) in *. assert (E : (w1 * j1) * (w1 * j1) + (w2 * j2) * (w2 * j2) = 0) by lra. assert (w1 * j1 = 0) by nra. assert (w2 * j2 = 0) by nra. apply Rmult_integral in H. apply Rmult_integral in H0. intuition lra. }
    assert (Z2 : mv J [0; 1] = [0; 0]). { destruct MJ as [_ FJ]. destruct J as [|r1 [|r2 [|]]]; try discriminate. cbn [nth] in Z. pose proof (Forall_inv FJ) as L1. pose proof (Forall_inv (Forall_inv_tail FJ)) as L2. cbv beta in L1, L2. destruct (DcFacts5.list2 r1 L1) as (a1 & b1 & ->). destruct (DcFacts5.list2 r2 L2) as (a2 & b2 & ->). cbn [nth] in Z. destruct Z as [-> ->]. calc'. leq; ring. }
    rewrite Z2 in HJ1. unfold srcs, s in HJ1. rewrite one_loop in HJ1. fold s in HJ1.
    set (r := rhs s [1; 1] [0; 1] one_raw) in *. change (du s [1; 1] [0; 1] one_raw) with (f_solve s (getA s 1 [1; 1]) r) in HJ1.
    destruct (tiny_len s [1; 1] one_raw srcs SU eq_refl (or_introl eq_refl)) as (a & b & Eu). pose proof (one_nz false true 1 1 a b ltac:(lra) ltac:(lra) Eu) as NZ. assert (Er : r = ([omega 1 * b], [- (omega 1 * a)])). { unfold r, rhs. change (s_freq one_raw) with 1. rewrite Eu. unfold s. calc'. leq; ring. }
    pose proof (tiny_csolves FormE false true 1 1 1 ltac:(lra) ltac:(lra)) as C1. assert (Lr : clen 1 r) by (rewrite Er; split; reflexivity).
    destruct (C1 r Lr) as [H1 _]. set (y := f_solve s (getA s 1 [1; 1]) r) in *. change (solve1 (getA (tiny FormE false true) 1 [1; 1]) r) with y in H1.
    assert (Ly : exists y1 y2, y = ([y1], [y2])) by (unfold y; cbn [s tiny f_solve]; unfold solve1; eauto). destruct Ly as (y1 & y2 & Ey). rewrite Ey, one_out_eq in HJ1. injection HJ1 as Q1 Q2. rewrite Ey in H1. clear Ey. rewrite tiny_A in H1. rewrite Er in H1. pose proof (wpos 1 ltac:(lra)) as W0. revert H1. unfold s. calc'. intros H1. injection H1 as H1 H1'. subst y1 y2. apply NZ. split; nra.
Qed.
