(** 2.5D DC: the matrices of the wavenumbers, their derivatives and symmetry. *)
From Coq Require Import Reals Lra Lia.
From Verif Require Import Py Vec VecDeriv Frechet Joint Richards RichardsFacts RichardsFacts2 RichardsFacts3 SolveDeriv Dc SpecDc DcFacts Dc2d SpecDc2d Dc2dFacts.
Local Open Scope R_scope.

Section Matrix.
  Context (s : dc2) (bc : bct) (SZ : sizes2 s) (BC : bc_ok s bc).
  Let n := e_n s.
  Let nf := e_nf s.
  Let nc := e_nc s.
  Lemma Bp_nodal i : e_form s = Nodal -> bc <> Neumann -> Bp s bc i = e_bcm s bc i /\ is_mat n nc (e_bcm s bc i).
  Proof.
    intros F N. destruct SZ as (_ & _ & _ & _ & B & _). specialize (B bc i). rewrite F in B. split; [|exact B]. unfold Bp, bc_needed. rewrite F. destruct bc; [contradiction|reflexivity..].
  Qed.
  Lemma Bp_cell i : e_form s = Cell -> bc <> Dirichlet -> Bp s bc i = e_bcm s bc i /\ is_mat nf n (e_bcm s bc i).
  Proof.
    intros F N. destruct SZ as (_ & _ & _ & _ & B & _). specialize (B bc i). rewrite F in B. split; [|exact B]. unfold Bp, bc_needed. rewrite F. destruct bc; [reflexivity|contradiction|reflexivity].
  Qed.
  Definition gr (i : nat) (u : vec) : vec := gradu s bc (Bp s bc i) u.
  Lemma gr_lin i : e_form s = Cell -> lin_map n nf (gr i).
  Proof.
    intros F. destruct SZ as (G & _). unfold gr, gradu.
    assert (E : bc = Dirichlet \/ bc <> Dirichlet) by (destruct bc; [right|left|right]; congruence). destruct E as [->|E]; [apply lin_mv; exact G|].
    destruct (Bp_cell i F E) as [-> HB]. destruct bc; [|contradiction|]; (apply lin_diff; apply lin_mv; assumption).
  Qed.
  Definition Gx (i : nat) : mx := match bc with Dirichlet => Mx n (e_G s) | _ => Msub (Mx n (e_G s)) (Mx n (Bp s bc i)) end.
  Lemma Gx_wf i : e_form s = Cell -> wfm nf n (Gx i).
  Proof.
    intros F. destruct SZ as (G & _). unfold Gx.
    assert (E : bc = Dirichlet \/ bc <> Dirichlet) by (destruct bc; [right|left|right]; congruence). destruct E as [->|E]; [split; [reflexivity|exact G]|].
    destruct (Bp_cell i F E) as [-> HB]. destruct bc; [|contradiction|]; (split; [split; [reflexivity|exact G]|split; [reflexivity|exact HB]]).
  Qed.
  Lemma Gx_act i y : act false (Gx i) y = gr i y.
  Proof. unfold Gx, gr, gradu. destruct bc; reflexivity. Qed.
  Lemma e0_length k : length (e0 k) = k. Proof. destruct k; cbn; [reflexivity|]. now rewrite vzero_length. Qed.
  (** what the matrix does to a vector *)
  Definition extra (i : nat) (m y : vec) : vec :=
    match e_form s, bc with
    | Cell, Neumann => vmul (e0 n) y
    | Nodal, Dirichlet | Nodal, Robin => vmul (mv (e_bcm s bc i) (e_sig s m)) y
    | _, _ => vzero n
    end.
  Definition bulk (i : nat) (m y : vec) : vec :=
    vadd (match e_form s with Nodal => mtv n (e_G s) (vmul (mv (e_M s) (e_sig s m)) (mv (e_G s) y))
                            | Cell => mv (e_D s) (vmul (map Rinv (mv (e_M s) (e_rho s m))) (gr i y)) end)
         (vscale (ky s i ^ 2) (vmul (mv (e_Mk s) (e_sig s m)) y)).
  Lemma bulk_length i m y : length m = e_p s -> length y = n -> length (bulk i m y) = n.
  Proof.
    intros Lm Ly. destruct SZ as (G & M & Mk & D & B & P & _). unfold bulk. pose proof (proj1 Mk) as LMk. fold n in LMk.
    assert (LK : length (mv (e_Mk s) (e_sig s m)) = n) by ln. destruct (e_form s) eqn:F.
    - assert (length (mtv n (e_G s) (vmul (mv (e_M s) (e_sig s m)) (mv (e_G s) y))) = n) by (eapply mtv_length; exact G). ln.
    - pose proof (proj1 (D eq_refl)) as LD. fold n in LD. ln.
  Qed.
  Lemma Ap_act i m y : length m = e_p s -> length y = n -> act false (Ap s bc m i) y = vadd (bulk i m y) (extra i m y).
  Proof.
    intros Lm Ly. pose proof (bulk_length i m y Lm Ly) as LB. unfold Ap, A_mat, extra. fold n.
    assert (E0 : vadd (bulk i m y) (vzero n) = bulk i m y) by (rewrite vadd_zero_r; congruence).
    destruct (e_form s) eqn:F.
    - assert (HB : bc <> Neumann -> Bp s bc i = e_bcm s bc i) by (intros N; apply (Bp_nodal i F N)).
      destruct bc; [|rewrite HB by discriminate|rewrite HB by discriminate]; cbn [act negb]; unfold bulk in *; rewrite F in *; [rewrite E0|..]; reflexivity.
    - assert (Q : forall z, act false (match bc with Dirichlet => Mx n (e_G s) | _ => Msub (Mx n (e_G s)) (Mx n (Bp s bc i)) end) z = gr i z) by (intros; apply Gx_act).
      unfold bulk in *. rewrite F in *. destruct bc; cbn [act negb] in *; rewrite ?Q; [reflexivity|rewrite E0; reflexivity..].
  Qed.
  Lemma Ap_wf i m : length m = e_p s -> wfm n n (Ap s bc m i).
  Proof.
    intros Lm. destruct SZ as (G & M & Mk & D & B & P & _). pose proof (proj1 M) as LM. pose proof (proj1 Mk) as LMk. fold n nf in G, M, Mk, D, LM, LMk.
    assert (WK : wfm n n (Mscale (ky s i ^ 2) (Mdiag (mv (e_Mk s) (e_sig s m))))) by (split; [ln|reflexivity]).
    unfold Ap, A_mat. fold n. destruct (e_form s) eqn:F.
    - assert (W : wfm n n (Madd (Mmul (MT (Mx n (e_G s))) (Mmul (Mdiag (mv (e_M s) (e_sig s m))) (Mx n (e_G s)))) (Mscale (ky s i ^ 2) (Mdiag (mv (e_Mk s) (e_sig s m)))))).
      { split; [|exact WK]. exists nf. split; [split; [reflexivity|exact G]|]. exists nf. split; [split; [ln|reflexivity]|split; [reflexivity|exact G]]. }
      assert (X : bc <> Neumann -> wfm n n (Mdiag (mv (Bp s bc i) (e_sig s m)))).
      { intros N. destruct (Bp_nodal i F N) as [-> HB]. pose proof (proj1 HB). split; [ln|reflexivity]. }
      destruct bc; [exact W|split; [exact W|apply X; discriminate]..].
    - assert (W : wfm n n (Madd (Mmul (Mx (e_nf s) (e_D s)) (Mmul (Mdiag (map Rinv (mv (e_M s) (e_rho s m)))) (Gx i))) (Mscale (ky s i ^ 2) (Mdiag (mv (e_Mk s) (e_sig s m)))))).
      { split; [|exact WK]. exists nf. split; [split; [reflexivity|exact (D eq_refl)]|]. exists nf. split; [split; [ln|reflexivity]|apply Gx_wf; exact F]. }
      unfold Gx in W. destruct bc; [split; [exact W|split; [apply e0_length|reflexivity]]|exact W..].
  Qed.
  Lemma Ap_lin i m : length m = e_p s -> lin_map n n (act false (Ap s bc m i)).
  Proof. intros L. apply lin_act. apply Ap_wf. exact L. Qed.

  (** The derivative, with the products of the model itself. *)
  Definition dA (i : nat) (m u v : vec) : vec := A_deriv s bc (Bp s bc i) (Bsp s bc m i) i m u v.
  Definition dAT (i : nat) (m u w : vec) : vec := A_derivT s bc (Bp s bc i) (Bsp s bc m i) i m u w.
  Definition dbulk (i : nat) (m u v : vec) : vec :=
    vadd (match e_form s with Nodal => mtv n (e_G s) (vmul (mv (e_G s) u) (mv (e_M s) (mv (e_dsig s m) v)))
      | Cell => let I := map Rinv (mv (e_M s) (e_rho s m)) in mv (e_D s) (vmul (vmul I (vmul I (vopp (gr i u)))) (mv (e_M s) (mv (e_drho s m) v))) end)
      (vscale (ky s i ^ 2) (vmul u (mv (e_Mk s) (mv (e_dsig s m) v)))).
  Definition dextra (i : nat) (m u v : vec) : vec :=
    match e_form s, bc with
    | Nodal, Dirichlet | Nodal, Robin => vmul u (mv (e_bcm s bc i) (mv (e_dsig s m) v))
    | _, _ => vzero n
    end.
  Lemma dbulk_length i m u v : length m = e_p s -> length u = n -> length (dbulk i m u v) = n.
  Proof.
    intros Lm Lu. destruct SZ as (G & M & Mk & D & B & P & _). unfold dbulk. pose proof (proj1 Mk) as LMk. fold n in LMk.
    assert (LK : length (mv (e_Mk s) (mv (e_dsig s m) v)) = n) by ln. destruct (e_form s) eqn:F.
    - assert (length (mtv n (e_G s) (vmul (mv (e_G s) u) (mv (e_M s) (mv (e_dsig s m) v)))) = n) by (eapply mtv_length; exact G). ln.
    - pose proof (proj1 (D eq_refl)) as LD. fold n in LD. cbv zeta. ln.
  Qed.
  Lemma dA_split i m u v : length m = e_p s -> length u = n -> dA i m u v = vadd (dbulk i m u v) (dextra i m u v).
  Proof.
    intros Lm Lu. pose proof (dbulk_length i m u v Lm Lu) as LB. assert (E0 : vadd (dbulk i m u v) (vzero n) = dbulk i m u v) by (rewrite vadd_zero_r; congruence).
    unfold dA, A_deriv, Bsp, dextra. fold n. destruct (e_form s) eqn:F.
    - unfold bc_needed. rewrite F. destruct bc; cbn [fst snd]; unfold dbulk in *; rewrite F in *; [rewrite E0|..]; reflexivity.
    - fold (gr i u). unfold dbulk in *. rewrite F in *. destruct bc; rewrite E0; reflexivity.
  Qed.
  Lemma dA_length i m u v : length m = e_p s -> length u = n -> length (dA i m u v) = n.
  Proof.
    intros Lm Lu. rewrite dA_split by assumption. pose proof (dbulk_length i m u v Lm Lu). apply ln_add; [assumption|]. unfold dextra.
    destruct (e_form s) eqn:F; [|apply vzero_length].
    assert (HB : bc <> Neumann -> length (e_bcm s bc i) = n) by (intros N; apply (Bp_nodal i F N)).
    destruct bc; [apply vzero_length|assert (length (e_bcm s Dirichlet i) = n) by (apply HB; discriminate)|assert (length (e_bcm s Robin i) = n) by (apply HB; discriminate)]; ln.
  Qed.
  Lemma Ap_deriv i m v y : regular2 s bc m -> length v = e_p s -> length y = n ->
    vderiv n (fun t => act false (Ap s bc (vadd m (vscale t v)) i) y) 0 (dA i m y v).
  Proof.
    intros (Lm & Js & Cl & _) Lv Ly. pose proof SZ as (G & M & Mk & D & B & P & _).
    pose proof (Js v Lv) as Ds. pose proof (proj1 M) as LM. pose proof (proj1 Mk) as LMk. pose proof (proj1 G) as LG. fold n nf nc in G, M, Mk, D, P, LM, LMk, LG. destruct (P m Lm) as (Lsg & HPs & Lrh & HPr).
    assert (E0 : vadd m (vscale 0 v) = m) by (rewrite vscale_0, vadd_zero_r; congruence).
    assert (Lt : forall t, length (vadd m (vscale t v)) = e_p s) by (intros; ln).
    assert (LK : length (mv (e_Mk s) (mv (e_dsig s m) v)) = n) by ln.
    rewrite dA_split by assumption. eapply vderiv_ext; [intros t; symmetry; apply Ap_act; [apply Lt|exact Ly]|].
    assert (DK : forall A d, is_mat n nc A -> d = vmul y (mv A (mv (e_dsig s m) v)) -> vderiv n (fun t => vmul (mv A (e_sig s (vadd m (vscale t v)))) y) 0 d).
    { intros A d HA ->. pose proof (proj1 HA) as LA. eapply vderiv_eq; [|apply (vderiv_mul n (fun t => mv A (e_sig s (vadd m (vscale t v)))) (fun _ => y)); [apply (vderiv_lin _ _ _ _ _ (lin_mv _ _ _ HA) Ds)|apply vderiv_const; exact Ly]].
      cbv beta. rewrite E0. assert (length (mv A (mv (e_dsig s m) v)) = n) by ln. vext n. ring. }
    apply vderiv_add.
    - unfold bulk, dbulk. apply vderiv_add; [|apply vderiv_scale; apply DK; [exact Mk|reflexivity]].
      destruct (e_form s) eqn:F.
      + assert (Lg : length (mv (e_G s) y) = nf) by ln.
        apply (vderiv_lin nf n (mtv n (e_G s)) (fun t => vmul (mv (e_M s) (e_sig s (vadd m (vscale t v)))) (mv (e_G s) y))); [apply lin_mtv; exact G|].
        eapply vderiv_eq; [|apply (vderiv_mul nf _ (fun _ => mv (e_G s) y)); [exact (vderiv_lin _ _ _ _ _ (lin_mv _ _ _ M) Ds)|apply vderiv_const; exact Lg]].
        cbv beta. rewrite E0. assert (length (mv (e_M s) (mv (e_dsig s m) v)) = nf) by ln. vext nf. ring.
      + destruct (Cl eq_refl) as [Jr NZ]. pose proof (Jr v Lv) as Dr. pose proof (vderiv_lin _ _ _ _ _ (lin_mv _ _ _ M) Dr) as DM. fold nf in DM.
        assert (Lg : length (gr i y) = nf) by (apply (gr_lin i F); exact Ly). cbv zeta.
        apply (vderiv_lin nf n (mv (e_D s)) (fun t => vmul (map Rinv (mv (e_M s) (e_rho s (vadd m (vscale t v))))) (gr i y))); [apply lin_mv; exact (D eq_refl)|].
        assert (E1 : forall i, (i < nf)%nat -> nth i (mv (e_M s) (e_rho s (vadd m (vscale 0 v)))) 0 <> 0) by (rewrite E0; exact NZ).
        pose proof (vderiv_inv _ _ _ DM E1) as DI. cbv beta in DI. rewrite E0 in DI.
        eapply vderiv_eq; [|apply (vderiv_mul nf _ (fun _ => gr i y)); [exact DI|apply vderiv_const; exact Lg]].
        cbv beta. rewrite E0. assert (length (mv (e_M s) (mv (e_drho s m) v)) = nf) by ln. assert (length (mv (e_M s) (e_rho s m)) = nf) by ln.
        vext nf. unfold sq. field. apply NZ; auto.
    - unfold extra, dextra. destruct (e_form s) eqn:F.
      + assert (HB : bc <> Neumann -> is_mat n nc (e_bcm s bc i)) by (intros N; apply (Bp_nodal i F N)).
        destruct bc; [apply vderiv_const; apply vzero_length|apply DK; [apply HB; discriminate|reflexivity]..].
      + destruct bc; [|apply vderiv_const; apply vzero_length..]. eapply vderiv_eq; [|apply (vderiv_const n (vmul (e0 n) y))]; [reflexivity|]. pose proof (e0_length n). ln.
  Qed.
  Lemma dA_adjoint i m u v w : length m = e_p s -> length u = n -> length v = e_p s -> length w = n ->
    length (dAT i m u w) = e_p s /\ dot w (dA i m u v) = dot (dAT i m u w) v.
  Proof.
    intros Lm Lu Lv Lw. pose proof SZ as (G & M & Mk & D & B & P & _). destruct (P m Lm) as (Lsg & HPs & Lrh & HPr).
    pose proof (proj1 M) as LM. pose proof (proj1 Mk) as LMk. pose proof (proj1 G) as LG. fold n nf nc in G, M, Mk, D, P, LM, LMk, LG.
    assert (T : forall r A Dm a, is_mat r nc A -> is_mat nc (e_p s) Dm -> length a = r -> length (mtv (e_p s) Dm (mtv nc A a)) = e_p s /\ dot a (mv A (mv Dm v)) = dot (mtv (e_p s) Dm (mtv nc A a)) v).
    { intros r A Dm a HA HD La. assert (length (mtv nc A a) = nc) by (eapply mtv_length; exact HA). split; [eapply mtv_length; exact HD|].
      pose proof (proj1 HD). rewrite (mv_mtv_adjoint r nc) by (auto; ln). apply (mv_mtv_adjoint nc (e_p s)); assumption. }
    assert (Luw : length (vmul u w) = n) by ln.
    destruct (T n (e_Mk s) (e_dsig s m) (vmul u w) Mk HPs Luw) as [K1 K2].
    assert (LKv : length (mv (e_Mk s) (mv (e_dsig s m) v)) = n) by ln.
    assert (LMv : length (mv (e_M s) (mv (e_dsig s m) v)) = nf) by ln. assert (LMr : length (mv (e_M s) (mv (e_drho s m) v)) = nf) by ln.
    assert (EK : dot w (vscale (ky s i ^ 2) (vmul u (mv (e_Mk s) (mv (e_dsig s m) v)))) = dot (vscale (ky s i ^ 2) (mtv (e_p s) (e_dsig s m) (mtv nc (e_Mk s) (vmul u w)))) v).
    { rewrite dot_vscale_r, dot_vscale_l. f_equal. rewrite <- K2. rewrite dot_vmul. reflexivity. }
    unfold dA, dAT, A_deriv, A_derivT. fold n nc nf. destruct (e_form s) eqn:F.
    - assert (Lgu : length (mv (e_G s) u) = nf) by ln. assert (Lgw : length (mv (e_G s) w) = nf) by ln.
      destruct (T nf (e_M s) (e_dsig s m) (vmul (mv (e_G s) u) (mv (e_G s) w)) M HPs ltac:(ln)) as [T1 T2].
      assert (L1 : length (mtv n (e_G s) (vmul (mv (e_G s) u) (mv (e_M s) (mv (e_dsig s m) v)))) = n) by (eapply mtv_length; exact G).
      assert (E1 : dot w (mtv n (e_G s) (vmul (mv (e_G s) u) (mv (e_M s) (mv (e_dsig s m) v)))) = dot (mtv (e_p s) (e_dsig s m) (mtv nc (e_M s) (vmul (mv (e_G s) u) (mv (e_G s) w)))) v).
      { rewrite <- T2. rewrite dot_comm, <- (mv_mtv_adjoint nf n) by (auto; ln). rewrite dot_vmul. apply dot_comm. }
      cbv zeta. set (mk := vscale (ky s i ^ 2) (vmul u (mv (e_Mk s) (mv (e_dsig s m) v)))) in *. set (mkT := vscale (ky s i ^ 2) (mtv (e_p s) (e_dsig s m) (mtv nc (e_Mk s) (vmul u w)))) in *.
      assert (Lk : length mk = n) by (unfold mk; ln). assert (LkT : length mkT = e_p s) by (unfold mkT; ln). clearbody mk mkT.
      set (a1 := mtv n (e_G s) _) in *. set (b1 := mtv (e_p s) (e_dsig s m) (mtv nc (e_M s) _)) in *. clearbody a1 b1.
      assert (E2 : dot w (vadd a1 mk) = dot (vadd b1 mkT) v) by (rewrite dot_vadd_r by congruence; rewrite dot_vadd_l by congruence; rewrite E1, EK; reflexivity).
      assert (N : bc = Neumann \/ bc <> Neumann) by (destruct bc; [left; reflexivity|right; discriminate..]).
      destruct N as [->|N]; [split; [ln|exact E2]|].
      assert (EB : Bsp s bc m i = (e_bcm s bc i, e_dsig s m)) by (unfold Bsp, bc_needed; rewrite F; destruct bc; [contradiction|reflexivity..]).
      destruct (Bp_nodal i F N) as [_ HB]. rewrite EB. cbn [fst snd].
      destruct (T n (e_bcm s bc i) (e_dsig s m) (vmul u w) HB HPs Luw) as [B1 B2]. pose proof (proj1 HB) as LB.
      assert (LBv : length (mv (e_bcm s bc i) (mv (e_dsig s m) v)) = n) by ln.
      assert (EE : dot w (vadd (vadd a1 mk) (vmul u (mv (e_bcm s bc i) (mv (e_dsig s m) v)))) = dot (vadd (vadd b1 mkT) (mtv (e_p s) (e_dsig s m) (mtv nc (e_bcm s bc i) (vmul u w)))) v).
      { rewrite dot_vadd_r by (transitivity n; [ln|symmetry; ln]). rewrite dot_vadd_l by (transitivity (e_p s); [ln|symmetry; ln]). rewrite E2. f_equal. rewrite <- B2. rewrite dot_vmul. reflexivity. }
      destruct bc; [contradiction|split; [ln|exact EE]..].
    - pose proof (D eq_refl) as HD. pose proof (proj1 HD) as LD. fold n nf in HD, LD. cbv zeta. fold (gr i u).
      assert (Lg : length (gr i u) = nf) by (apply (gr_lin i F); exact Lu).
      assert (LDt : length (mtv nf (e_D s) w) = nf) by (eapply mtv_length; exact HD).
      set (I := map Rinv (mv (e_M s) (e_rho s m))) in *. assert (LI : length I = nf) by (unfold I; ln). clearbody I.
      set (c := vmul I (vmul I (vopp (gr i u)))). assert (Lc : length c = nf) by (unfold c; ln). clearbody c.
      destruct (T nf (e_M s) (e_drho s m) (vmul c (mtv nf (e_D s) w)) M HPr ltac:(ln)) as [T1 T2]. split; [ln|].
      rewrite dot_vadd_r by (transitivity n; [ln|symmetry; ln]). rewrite dot_vadd_l by (transitivity (e_p s); [ln|symmetry; ln]). rewrite EK. f_equal. rewrite <- T2.
      rewrite (mv_mtv_adjoint n nf) by (auto; ln). rewrite dot_vmul. reflexivity.
  Qed.
  (** The solution is differentiable. *)
  Lemma solve_jac2 i m v q : regular2 s bc m -> (i < length (e_ks s))%nat -> length v = e_p s -> length q = n ->
    vderiv n (fun t => e_solve s (Ap s bc (vadd m (vscale t v)) i) q) 0 (e_solve s (Ap s bc m i) (vopp (dA i m (e_solve s (Ap s bc m i) q) v))).
  Proof.
    intros RG Hi Lv Lq. pose proof RG as (Lm & _ & _ & e & He & Near). pose proof SZ as (_ & _ & _ & _ & _ & _ & _ & Ls & _).
    assert (E0 : vadd m (vscale 0 v) = m) by (rewrite vscale_0, vadd_zero_r; congruence).
    assert (Lt : forall t, length (vadd m (vscale t v)) = e_p s) by (intros; ln).
    assert (S0 : solves n (e_solve s) (Ap s bc m i)). { apply (Near m Lm); [|exact Hi]. intros j Hj. rewrite Rminus_eq_0, Rabs_R0. exact He. }
    set (N := norm1 v). pose proof (norm1_nonneg v) as HN. fold N in HN.
    assert (Hd : 0 < e / (N + 1)) by (apply Rdiv_lt_0_compat; lra).
    pose proof (solve_deriv n (fun t => act false (Ap s bc (vadd m (vscale t v)) i)) (fun y => dA i m y v) (e_solve s (Ap s bc m i)) (fun t => e_solve s (Ap s bc (vadd m (vscale t v)) i) q) q) as T.
    cbv beta in T. rewrite E0 in T. apply (T) with (e := e / (N + 1)); clear T.
    - intros t. apply Ap_lin. apply Lt.
    - intros y Ly. apply Ap_deriv; assumption.
    - apply solves_lin; [apply Ap_lin; exact Lm|intros; apply Ls; assumption|exact S0].
    - intros y Ly. symmetry. apply S0; auto. apply Ap_lin; assumption.
    - intros t. apply Ls. exact Lq.
    - exact Hd.
    - intros t Ht. refine (proj1 (Near _ (Lt t) _ i Hi q Lq)). intros j Hj. rewrite (nA (e_p s)) by (auto; ln). rewrite nth_vscale. replace (nth j m 0 + t * nth j v 0 - nth j m 0) with (t * nth j v 0) by ring.
      rewrite Rabs_mult. apply Rle_lt_trans with (Rabs t * (N + 1)); [apply Rmult_le_compat_l; [apply Rabs_pos|]; pose proof (norm1_nth v j); unfold N; lra|].
      apply (Rmult_lt_compat_r (N + 1)) in Ht; [|lra]. unfold Rdiv in Ht. rewrite Rmult_assoc, Rinv_l in Ht by lra. lra.
  Qed.
  Lemma sym_solve2 i m : length m = e_p s -> solves n (e_solve s) (Ap s bc m i) -> symmetric n (Ap s bc m i) ->
    forall a b, length a = n -> length b = n -> dot a (e_solve s (Ap s bc m i) b) = dot (e_solve s (Ap s bc m i) a) b.
  Proof.
    intros Lm S Y a b La Lb. pose proof SZ as (_ & _ & _ & _ & _ & _ & _ & Ls & _).
    rewrite <- (proj1 (S a La)) at 1. rewrite <- Y by (apply Ls; assumption). rewrite (proj1 (S b Lb)). reflexivity.
  Qed.
  (** Symmetry *)
  Lemma diag_sym d a b : dot a (vmul d b) = dot (vmul d a) b. Proof. rewrite dot_vmul. reflexivity. Qed.
  Lemma sym2 m i : length m = e_p s ->
    (e_form s = Cell -> exists c, length c = nf /\ forall x, length x = n -> gr i x = vmul c (mtv nf (e_D s) x)) -> symmetric n (Ap s bc m i).
  Proof.
    intros Lm GT a b La Lb. rewrite !Ap_act by assumption. pose proof (bulk_length i m a Lm La) as Lba. pose proof (bulk_length i m b Lm Lb) as Lbb.
    pose proof SZ as (G & M & Mk & D & B & P & _). pose proof (proj1 M) as LM. pose proof (proj1 G) as LG. pose proof (proj1 Mk) as LMk. fold n nf nc in G, M, Mk, D, P, LM, LMk, LG.
    assert (LX : forall y, length y = n -> length (extra i m y) = n).
    { intros y Ly. unfold extra. destruct (e_form s) eqn:F; [|pose proof (e0_length n); destruct bc; [ln|apply vzero_length..]].
      assert (HB : bc <> Neumann -> length (e_bcm s bc i) = n) by (intros N; apply (Bp_nodal i F N)).
      destruct bc; [apply vzero_length|assert (length (e_bcm s Dirichlet i) = n) by (apply HB; discriminate)|assert (length (e_bcm s Robin i) = n) by (apply HB; discriminate)]; ln. }
    rewrite dot_vadd_r by (rewrite LX; congruence). rewrite dot_vadd_l by (rewrite LX; congruence). f_equal.
    - unfold bulk. assert (LK : length (mv (e_Mk s) (e_sig s m)) = n) by ln.
      assert (EK : dot a (vscale (ky s i ^ 2) (vmul (mv (e_Mk s) (e_sig s m)) b)) = dot (vscale (ky s i ^ 2) (vmul (mv (e_Mk s) (e_sig s m)) a)) b) by (rewrite dot_vscale_r, dot_vscale_l, diag_sym; reflexivity).
      destruct (e_form s) eqn:F.
      + assert (T : forall x, length x = nf -> length (mtv n (e_G s) x) = n) by (intros; eapply mtv_length; exact G).
        assert (Lc : length (mv (e_M s) (e_sig s m)) = nf) by ln. assert (Lga : length (mv (e_G s) a) = nf) by ln. assert (Lgb : length (mv (e_G s) b) = nf) by ln.
        rewrite dot_vadd_r by (rewrite T by ln; symmetry; ln). rewrite dot_vadd_l by (rewrite T by ln; symmetry; ln). rewrite EK. f_equal.
        rewrite dot_comm, <- (mv_mtv_adjoint nf n) by (auto; ln). rewrite <- (mv_mtv_adjoint nf n) by (auto; ln). rewrite <- diag_sym. apply dot_comm.
      + destruct (GT eq_refl) as (c & Lc & GE). pose proof (D eq_refl) as HD. pose proof (proj1 HD) as LD. fold n nf in HD, LD.
        assert (T : forall x, length x = n -> length (mtv nf (e_D s) x) = nf) by (intros; eapply mtv_length; exact HD). pose proof (T a La). pose proof (T b Lb).
        assert (LI : length (map Rinv (mv (e_M s) (e_rho s m))) = nf) by ln. set (I := map Rinv (mv (e_M s) (e_rho s m))) in *. clearbody I.
        rewrite !GE by assumption.
        rewrite dot_vadd_r by (transitivity n; [ln|symmetry; ln]). rewrite dot_vadd_l by (transitivity n; [ln|symmetry; ln]). rewrite EK. f_equal.
        rewrite (mv_mtv_adjoint n nf) by (auto; ln). rewrite (dot_comm (mv _ _)). rewrite (mv_mtv_adjoint n nf) by (auto; ln). set (x := mtv nf (e_D s) a) in *. set (y := mtv nf (e_D s) b) in *. clearbody x y.
        rewrite (diag_sym I x), (diag_sym c (vmul I x)), (dot_comm y). f_equal. vext nf. ring.
    - unfold extra. destruct (e_form s), bc; try apply diag_sym; rewrite dot_zero_r, dot_zero_l; reflexivity.
  Qed.
End Matrix.
