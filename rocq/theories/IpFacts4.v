From Verif Require Import Py Vec VecDeriv Frechet Joint Richards RichardsFacts RichardsFacts2 RichardsFacts3 LinSimFacts SolveDeriv Dc SpecDc DcFacts DcFacts2 DcFacts3 DcFacts4 Ip SpecIp IpFacts IpFacts2 IpFacts3 EmpirFacts Dc1dFacts5.
From Coq Require Import Reals Lra Lia.
Local Open Scope R_scope.

Section Lin.
  Context (b : dc) (p : nat) (E : mat) (charge : receiver -> bool) (srcs : list source) (prop : vec).
  Let s := linear_ip b p E charge.
  Context (OK : ip_ok s srcs prop).
  Let vw := inherited s prop prop.
  Let SO : setup_ok vw srcs := proj1 OK.
  Let nd := data_size vw srcs.
  Let pol := polarized b p E prop.
  Definition fixed (P : vec) (solve : mx -> vec -> vec) : dc :=
    mkDc (d_form b) (d_neumann b) p (d_n b) (d_nf b) (d_D b) (d_G b) (d_nc b) (d_M b) (d_bc b) (fun _ => P) (fun _ => deta_scaled (d_form b) prop E) solve (d_interp b) (d_closest b) (d_storeJ b) (d_mini b).
  Lemma prop_len : length prop = d_nc b. Proof. pose proof OK as (_ & L & _). exact L. Qed.
  Lemma low0 : is_mat (d_nc b) p E -> lowered (d_form b) prop (mv E (vzero p)) = prop.
  Proof.
    intros HE. apply lowered_zero; [unfold mv; rewrite map_length, (proj1 HE); symmetry; apply prop_len|]. apply mv_zero. destruct HE as [_ HF]. rewrite Forall_forall in HF. exact HF.
  Qed.
  Lemma J0_pol v : is_mat (d_nc b) p E -> J0 pol srcs (vzero p) v = J0 vw srcs [] v.
  Proof. intros HE. transitivity (J0 (fixed (lowered (d_form b) prop (mv E (vzero p))) (d_solve b)) srcs [] v); [reflexivity|]. rewrite (low0 HE). reflexivity. Qed.
  Lemma F0_pol : is_mat (d_nc b) p E -> F0 pol srcs (vzero p) = F0 vw srcs [].
  Proof. intros HE. transitivity (F0 (fixed (lowered (d_form b) prop (mv E (vzero p))) (d_solve b)) srcs []); [reflexivity|]. rewrite (low0 HE). reflexivity. Qed.
  Lemma idpred_val m : length m = p -> snd (idpred s (iinit srcs prop) m None) = Ok (Some (vmul (sc b p E charge srcs prop) (J0 vw srcs [] m))).
  Proof.
    intros Lm. destruct (idpred_ok b p E charge srcs prop OK _ m (init_inv b p E charge srcs prop) Lm) as (? & Eq & _). unfold s. rewrite Eq. cbn [snd]. rewrite (jv_ok b p E charge srcs prop OK m Lm). reflexivity.
  Qed.
  Lemma charges_loop : charges s srcs = loop (fun _ r => map (fun _ => charge r) (r_m r)) srcs. Proof. reflexivity. Qed.
  Lemma scaled_pd m : vmul (sc b p E charge srcs prop) (J0 vw srcs [] m) = per_datum (charges s srcs) (J0 vw srcs [] m) (F0 vw srcs []).
  Proof.
    rewrite charges_loop. pose proof OK as (_ & _ & _ & _ & [MN|[MN LN]]).
    - assert (EU : U vw srcs = srcs) by (unfold U, used; cbn in MN; cbn; rewrite MN; reflexivity).
      assert (ED : forall d, mini_data vw 0 Rminus Rplus d = d) by (intros d; unfold mini_data; cbn in MN; cbn; rewrite MN; reflexivity).
      unfold J0, F0. rewrite !ED, EU. rewrite (per_datum_loop charge); [reflexivity| |]; intros src r H1 H2; apply (meas_length vw (proj1 SO)); apply (rx_in vw srcs SO); rewrite ?EU; assumption.
    - assert (EC : forall r, charge r = false) by exact MN.
      assert (S1 : sc b p E charge srcs prop = repeat 1 nd).
      { unfold sc. fold s. fold vw. change (loop (fun src r => if charge r then map Rinv (meas vw src r (sol vw [] src)) else vconst (nD r) 1) srcs = repeat 1 nd).
        rewrite (loop_ext _ (fun _ r => map (fun _ => 1) (r_m r))); [rewrite loop_const; f_equal; exact LN|]. intros src r _ _. rewrite EC. unfold vconst, nD. clear. induction (r_m r); [reflexivity|]. cbn. f_equal. assumption. }
      rewrite S1. rewrite (loop_ext _ (fun _ r => map (fun _ => false) (r_m r))); [|intros src r _ _; rewrite EC; reflexivity]. rewrite loop_const.
      assert (LJ : length (J0 vw srcs [] m) = nd) by (apply J0_length; exact SO). assert (LF : length (F0 vw srcs []) = nd) by (apply (mini_lin vw srcs SO); apply (loop_meas_len vw srcs SO)).
      replace (survey_nD srcs) with nd by (symmetry; exact LN). rewrite per_datum_none by assumption. apply (vmul_ones vw nd). exact LJ.
  Qed.
  Lemma c78_seigel m : polarizable b p E prop srcs -> length m = p -> exists d,
    vderiv (data_size b srcs) (fun t => dc_data pol srcs (vscale t m)) 0 d /\
    snd (idpred s (iinit srcs prop) m None) = Ok (Some (per_datum (charges s srcs) d (dc_data pol srcs (vzero p)))).
  Proof.
    intros (SP & HE & NN & NZ & NR) Lm. exists (J0 vw srcs [] m). split.
    - rewrite <- (J0_pol m HE).
      assert (RG : regular pol (vzero p)).
      { split; [apply vzero_length|]. split; [apply lowered_jac; [exact HE|apply prop_len]|]. split; [|exact NR]. intros F i Hi. change (nth i (mv (d_M b) (lowered (d_form b) prop (mv E (vzero p)))) 0 <> 0). rewrite (low0 HE). apply NZ; assumption. }
      eapply vderiv_ext; [|exact (data_jac pol srcs SP (vzero p) NN RG m Lm)]. intros t. cbv beta. unfold dc_data. rewrite (dpred_val pol srcs SP) by ln. cbn [val]. f_equal. rewrite vadd_zero_l; [reflexivity|]. ln.
    - rewrite (idpred_val m Lm), scaled_pd. do 3 f_equal. unfold dc_data. rewrite (dpred_val pol srcs SP) by (apply vzero_length). cbn [val]. symmetry. apply F0_pol. exact HE.
  Qed.

  (** ** Uniform chargeability *)
  Context (HE : is_mat (d_nc b) p E) (NN : d_neumann b = false).
  Context (NZ : d_form b = Cell -> forall i, (i < d_nf b)%nat -> nth i (mv (d_M b) prop) 0 <> 0).
  Lemma dprop_uniform m h : mv E m = vconst (d_nc b) h -> mv (deta_scaled (d_form b) prop E) m = vscale (match d_form b with Nodal => - h | Cell => h end) prop.
  Proof.
    intros Em. rewrite mv_scaled, Em. pose proof prop_len as Lp.
    assert (G : forall f (l : vec) k, length l = k -> map (fun ce : R * R => match f with Nodal => - fst ce | Cell => fst ce end * snd ce) (combine l (vconst k h)) = vscale (match f with Nodal => - h | Cell => h end) l).
    { clear. intros f l. induction l as [|x l IH]; intros [|k] L; try discriminate; [reflexivity|]. unfold vconst in *. cbn. f_equal; [destruct f; ring|]. apply IH. cbn in L. lia. }
    apply G. exact Lp.
  Qed.
  Lemma ADeriv_uniform m h u : mv E m = vconst (d_nc b) h -> length u = d_n b -> getADeriv vw [] u m = vscale (- h) (act false (getA vw []) u).
  Proof.
    intros Em Lu. pose proof (proj1 SO) as (G & M & D & B & P & _). pose proof (dprop_uniform m h Em) as DP. pose proof prop_len as Lp.
    change (d_nf vw) with (d_nf b) in *. change (d_n vw) with (d_n b) in *. change (d_G vw) with (d_G b) in *. change (d_M vw) with (d_M b) in *. change (d_nc vw) with (d_nc b) in *. change (d_bc vw) with (d_bc b) in *. change (d_D vw) with (d_D b) in *. change (d_form vw) with (d_form b) in *.
    unfold getADeriv, getA, mass_deriv. change (d_neumann vw) with (d_neumann b). rewrite NN. change (d_form vw) with (d_form b).
    change (d_dprop vw []) with (deta_scaled (d_form b) prop E). rewrite DP. change (d_prop vw []) with prop. change (d_G vw) with (d_G b). change (d_M vw) with (d_M b). change (d_bc vw) with (d_bc b). change (d_D vw) with (d_D b). change (d_nf vw) with (d_nf b). change (d_n vw) with (d_n b).
    destruct (lin_mv _ _ _ M) as (_ & _ & LM). destruct (lin_mtv _ _ _ G) as (LGt & _ & LG).
    assert (L1 : length (mv (d_M b) prop) = d_nf b) by (unfold mv; rewrite map_length; apply M). assert (L2 : length (mv (d_G b) u) = d_nf b) by (unfold mv; rewrite map_length; apply G).
    pose proof (proj1 G) as LG0. pose proof (proj1 M) as LM0. destruct (d_form b) eqn:EF; cbn [act negb].
    - pose proof (proj1 (B eq_refl)) as LB0. destruct (lin_mv _ _ _ (B eq_refl)) as (_ & _ & LB). rewrite LM, LB by exact Lp. assert (L3 : length (mv (d_bc b) prop) = d_n b) by (unfold mv; rewrite map_length; apply (B eq_refl)).
      replace (vmul (mv (d_G b) u) (vscale (- h) (mv (d_M b) prop))) with (vscale (- h) (vmul (mv (d_M b) prop) (mv (d_G b) u))) by (vext (d_nf b); ring).
      rewrite LG by ln. assert (length (mtv (d_n b) (d_G b) (vmul (mv (d_M b) prop) (mv (d_G b) u))) = d_n b) by (apply LGt; ln). vext (d_n b). ring.
    - pose proof (proj1 (D eq_refl)) as LD0. destruct (lin_mv _ _ _ (D eq_refl)) as (_ & _ & LD). rewrite LM by exact Lp.
      rewrite <- LD by ln. f_equal. vext (d_nf b). field. apply NZ; auto.
  Qed.
  Lemma du_uniform m h src : mv E m = vconst (d_nc b) h -> du vw [] m src = vscale h (sol vw [] src).
  Proof.
    intros Em. pose proof OK as (_ & _ & SV & _). change (solves (d_n b) (d_solve vw) (getA vw [])) in SV. pose proof (src_length vw (proj1 SO) src) as Lq. change (d_n vw) with (d_n b) in Lq.
    destruct (SV _ Lq) as [Sq _]. fold (sol vw [] src) in Sq. assert (Ls : length (sol vw [] src) = d_n b) by (apply (sol_length vw srcs SO [] src)).
    unfold du. rewrite (ADeriv_uniform m h) by assumption. rewrite Sq. symmetry. destruct (SV (vopp (vscale (- h) (src_eval vw src))) ltac:(ln)) as [_ Un]. apply Un; [ln|].
    assert (GL : lin_map (d_n b) (d_n b) (act false (getA vw []))). { change (getA vw []) with (getA vw (vzero p)). apply (getA_lin vw (proj1 SO)). apply vzero_length. }
    destruct GL as (_ & _ & GL). rewrite GL by exact Ls. rewrite Sq. vext (d_n b). ring.
  Qed.
  Lemma J0_uniform m h : mv E m = vconst (d_nc b) h -> J0 vw srcs [] m = vscale h (F0 vw srcs []).
  Proof.
    intros Em. unfold J0, F0. destruct (mini_lin vw srcs SO) as (_ & _ & ML). rewrite <- ML by (apply (loop_meas_len vw srcs SO)). f_equal.
    rewrite (loop_ext _ (fun src r => vscale h (meas vw src r (sol vw [] src)))).
    - unfold loop, vscale. rewrite concat_map, map_map. f_equal. apply map_ext. intros src. rewrite concat_map, map_map. reflexivity.
    - intros src r H1 H2. rewrite (du_uniform m h) by exact Em. destruct (meas_lin vw (proj1 SO) src r (rx_in vw srcs SO src r H1 H2)) as (_ & _ & L3). apply L3. apply (sol_length vw srcs SO).
  Qed.
  Lemma c78_uniform m h d i : length m = p -> mv E m = vconst (d_nc b) h -> snd (idpred s (iinit srcs prop) m None) = Ok (Some d) -> (i < data_size b srcs)%nat ->
    let primary := nth i (dc_data (polarized b p E prop) srcs (vzero p)) 0 in setup_ok (polarized b p E prop) srcs -> primary <> 0 ->
    nth i d 0 = if nth i (charges s srcs) false then h else h * primary.
  Proof.
    intros Lm Em. rewrite (idpred_val m Lm), scaled_pd. intros Q Hi pr SP NP. injection Q as Q. subst d.
    assert (EP : pr = nth i (F0 vw srcs []) 0). { unfold pr, dc_data. fold pol. fold pol in SP. rewrite (dpred_val pol srcs SP) by (apply vzero_length). cbn [val]. rewrite (F0_pol HE). reflexivity. }
    clearbody pr. subst pr. rewrite (J0_uniform m h Em).
    assert (LF : length (F0 vw srcs []) = nd) by (apply (mini_lin vw srcs SO); apply (loop_meas_len vw srcs SO)).
    assert (LC : length (charges s srcs) = nd).
    { rewrite charges_loop. rewrite loop_len by (intros; unfold nD; apply map_length). pose proof OK as (_ & _ & _ & _ & [MN|[_ MN]]); [|exact MN]. cbn in MN. unfold nd, data_size. cbn. rewrite MN. reflexivity. }
    change (i < nd)%nat in Hi. unfold per_datum.
    rewrite (nth_indep _ 0 ((fun x : bool * (R * R) => if fst x then fst (snd x) / snd (snd x) else fst (snd x)) (false, (0, 0)))) by (rewrite map_length, !combine_length; unfold vscale; rewrite map_length; lia).
    rewrite (map_nth (fun x : bool * (R * R) => if fst x then fst (snd x) / snd (snd x) else fst (snd x))). rewrite combine_nth by (rewrite combine_length; unfold vscale; rewrite map_length; lia). rewrite combine_nth by (unfold vscale; rewrite map_length; reflexivity).
    cbn [fst snd]. rewrite nth_vscale. destruct (nth i (charges s srcs) false); [field; exact NP|reflexivity].
  Qed.
End Lin.
