From Coq Require Import Reals Lra Field Lia.
From Verif Require Import Py Vec VecDeriv Joint Cplx Mt1d EmpirFacts ParamFacts Coords CoordsFacts Cx NsemRx SpecNsemRx.
Local Open Scope R_scope.

(** ** The phase *)
Lemma arctan2_atan2 y x : arctan2 y x = atan2 y x.
Proof.
  unfold arctan2, atan2. destruct (Rlt_dec 0 x); [reflexivity|]. destruct (Rlt_dec x 0).
  - destruct (Rlt_dec y 0), (Rle_dec 0 y); try lra; reflexivity.
  - destruct (Rlt_dec 0 y); [reflexivity|]. destruct (Rlt_dec y 0); lra.
Qed.
Lemma cont_sign g t g' : derivable_pt_lim g t g' -> g t <> 0 -> exists d, 0 < d /\ forall h, Rabs h < d -> 0 < g (t + h) * g t.
Proof.
  intros Dg Hg. assert (C : continuity_pt g t) by (apply derivable_continuous_pt; exists g'; exact Dg).
  destruct (C (Rabs (g t)) ltac:(apply Rabs_pos_lt; exact Hg)) as (a & Ha & K). exists a. split; [exact Ha|]. intros h Hh.
  destruct (Req_dec h 0) as [->|Hn]; [rewrite Rplus_0_r; apply Rsqr_pos_lt; exact Hg|].
  specialize (K (t + h)). cbn in K. unfold R_dist in K.
  assert (Rabs (g (t + h) - g t) < Rabs (g t)) as B.
  { apply K. split; [split; [exact I|intros E; apply Hn; lra]|]. replace (t + h - t) with h by ring. exact Hh. }
  destruct (Rtotal_order (g t) 0) as [N|[N|N]]; [|contradiction|].
  - rewrite (Rabs_left (g t)) in B by exact N. apply Rabs_def2 in B. nra.
  - rewrite (Rabs_right (g t)) in B by lra. apply Rabs_def2 in B. nra.
Qed.
Lemma atan_opp' x : atan (- x) = - atan x. Proof. apply atan_opp. Qed.
(** Where y is not zero, arctan2 is a quarter turn from the arctangent of x / y. *)
Lemma arctan2_pos y x : 0 < y -> arctan2 y x = PI / 2 - atan (x / y).
Proof.
  intros H. unfold arctan2. destruct (Rlt_dec 0 x) as [P|P].
  - rewrite <- (Rinv_div x y). rewrite atan_inv; [reflexivity|]. apply Rdiv_lt_0_compat; assumption.
  - destruct (Rlt_dec x 0) as [N|N].
    + destruct (Rlt_dec y 0); [lra|]. replace (y / x) with (- / ((- x) / y)) by (field; lra).
      rewrite atan_opp, atan_inv by (apply Rdiv_lt_0_compat; lra). replace (- x / y) with (- (x / y)) by (field; lra). rewrite atan_opp. lra.
    + replace x with 0 by lra. destruct (Rlt_dec 0 y); [|lra]. replace (0 / y) with 0 by (field; lra). rewrite atan_0. ring.
Qed.
Lemma arctan2_neg y x : y < 0 -> arctan2 y x = - (PI / 2) - atan (x / y).
Proof.
  intros H. unfold arctan2. destruct (Rlt_dec 0 x) as [P|P].
  - replace (y / x) with (- / (x / - y)) by (field; lra). rewrite atan_opp, atan_inv by (apply Rdiv_lt_0_compat; lra).
    replace (x / - y) with (- (x / y)) by (field; lra). rewrite atan_opp. lra.
  - destruct (Rlt_dec x 0) as [N|N].
    + destruct (Rlt_dec y 0); [|lra]. replace (y / x) with (/ (x / y)) by (field; lra).
      rewrite atan_inv; [lra|]. replace (x / y) with ((- x) / (- y)) by (field; lra). apply Rdiv_lt_0_compat; lra.
    + replace x with 0 by lra. destruct (Rlt_dec 0 y); [lra|]. destruct (Rlt_dec y 0); [|lra]. replace (0 / y) with 0 by (field; lra). rewrite atan_0. ring.
Qed.
Lemma arctan2_deriv (y x : R -> R) t y' x' : derivable_pt_lim y t y' -> derivable_pt_lim x t x' -> 0 < x t \/ y t <> 0 ->
  derivable_pt_lim (fun s => arctan2 (y s) (x s)) t (- y t / (y t ^ 2 + x t ^ 2) * x' + x t / (y t ^ 2 + x t ^ 2) * y').
Proof.
  intros Dy Dx H. destruct (Req_dec (y t) 0) as [Z|N].
  - assert (P : 0 < x t) by (destruct H; [assumption|contradiction]).
    destruct (cont_sign x t x' Dx ltac:(lra)) as (d & Hd & K).
    apply (dpl_local (fun s => atan (y s / x s))).
    + exists d. split; [exact Hd|]. intros h Hh. specialize (K h Hh). unfold arctan2.
      destruct (Rlt_dec 0 (x (t + h))); [reflexivity|]. nra.
    + eapply dpl_eq; [|apply dpl_atan; apply dpl_div; [exact Dy|exact Dx|lra]]. cbn beta.
      rewrite Z. field. nra.
  - destruct (cont_sign y t y' Dy N) as (d & Hd & K).
    assert (Q : 0 < y t * y t) by (apply Rsqr_pos_lt; exact N).
    destruct (Rtotal_order (y t) 0) as [L|[L|L]]; [|contradiction|].
    + apply (dpl_local (fun s => - (PI / 2) - atan (x s / y s))).
      * exists d. split; [exact Hd|]. intros h Hh. specialize (K h Hh). rewrite arctan2_neg; [reflexivity|nra].
      * eapply dpl_eq; [|apply dpl_minus; [apply dpl_const|apply dpl_atan; apply dpl_div; [exact Dx|exact Dy|lra]]]. cbn beta.
        field. repeat split; nra.
    + apply (dpl_local (fun s => PI / 2 - atan (x s / y s))).
      * exists d. split; [exact Hd|]. intros h Hh. specialize (K h Hh). rewrite arctan2_pos; [reflexivity|nra].
      * eapply dpl_eq; [|apply dpl_minus; [apply dpl_const|apply dpl_atan; apply dpl_div; [exact Dx|exact Dy|lra]]]. cbn beta.
        field. repeat split; nra.
Qed.

(** ** Components *)
Lemma comp_dpl al c (Z : R -> cx) t dZ : cdl Z t dZ -> (c = CPhi -> off_cut (Z t)) ->
  derivable_pt_lim (fun s => comp_eval al c (Z s)) t (comp_deriv al c (Z t) dZ).
Proof.
  intros [A B] H. destruct c; cbn [comp_eval comp_deriv].
  - exact A.
  - exact B.
  - eapply dpl_eq; [|apply dpl_scal; apply dpl_plus; apply dpl_pow2; [exact A|exact B]]. cbn beta. ring.
  - apply dpl_scal. apply arctan2_deriv; [exact B|exact A|]. exact (H eq_refl).
  - apply dpl_const.
Qed.
Lemma comp_adj_ok al c Z v dZ : Re (comp_adj al c Z v *x dZ) = v * comp_deriv al c Z dZ.
Proof.
  destruct c, Z as [a b], dZ as [p q]; cbn [comp_adj comp_deriv]; unfold xmul, xr, xopp, xi, xscale, xdivr, x0, Re, Im; cbn [fst snd]; try ring.
  replace (b ^ 2 + a ^ 2) with (a ^ 2 + b ^ 2) by ring. unfold Rdiv. ring.
Qed.

(** ** Transfer functions at a location *)
Lemma cross_independent x y : independent x y <-> cross x y <> x0.
Proof.
  unfold independent, cross. split; intros H E; apply H.
  - replace (fst x *x snd y) with ((fst x *x snd y -x snd x *x fst y) +x snd x *x fst y) by ring. rewrite E. ring.
  - rewrite E. ring.
Qed.
Lemma transfer_unique o x y a b a' b' : independent x y -> transfer o x y a b -> transfer o x y a' b' -> a = a' /\ b = b'.
Proof.
  intros I. apply cross_independent in I. intros [P Q] [P' Q']. unfold cross in I.
  assert (A : forall a b, fst o = a *x fst x +x b *x fst y -> snd o = a *x snd x +x b *x snd y ->
      a = (fst o *x snd y -x snd o *x fst y) /x (fst x *x snd y -x snd x *x fst y) /\
      b = (fst x *x snd o -x snd x *x fst o) /x (fst x *x snd y -x snd x *x fst y)).
  { intros c d -> ->. split; field; exact I. }
  destruct (A a b P Q) as [-> ->]. destruct (A a' b' P' Q') as [-> ->]. split; reflexivity.
Qed.
Lemma imp3_transfer e hx hy : independent hx hy -> transfer e hx hy (imp3 AX e hx hy) (imp3 AY e hx hy).
Proof.
  intros I. apply cross_independent in I. destruct e, hx, hy. unfold transfer, imp3, imp_h, popp, cross in *. cbn [fst snd] in *. split; field; exact I.
Qed.
Lemma tip3_transfer o hx hy : independent hx hy -> transfer o hx hy (tip3 AX o hx hy) (tip3 AY o hx hy).
Proof.
  intros I. apply cross_independent in I. destruct o, hx, hy. unfold transfer, tip3, tip_h, popp, cross in *. cbn [fst snd] in *. split; field; exact I.
Qed.
(** The admittances are right where the second polarisation of h, resp. the first, or the
    asymmetry of the electric fields vanishes. *)
Lemma adm3_transfer h ex ey : independent ex ey -> (transfer h ex ey (adm3 AX h ex ey) (adm3 AY h ex ey) <->
  (fst h *x (snd ex -x fst ey) = x0 /\ snd h *x (snd ex -x fst ey) = x0)).
Proof.
  intros I. pose proof I as J. apply cross_independent in I. destruct h as [a b], ex as [p q], ey as [r s]. unfold cross in I. cbn [fst snd] in I.
  set (ax' := (a *x s -x b *x r) /x (p *x s -x q *x r)). set (ay' := (p *x b -x q *x a) /x (p *x s -x q *x r)).
  assert (T : transfer (a, b) (p, q) (r, s) ax' ay') by (unfold transfer, ax', ay'; cbn [fst snd]; split; field; exact I).
  assert (D1 : adm3 AX (a, b) (p, q) (r, s) -x ax' = xopp (b *x (q -x r) /x (p *x s -x q *x r))) by (unfold adm3, ax', cross; cbn [fst snd]; field; exact I).
  assert (D2 : adm3 AY (a, b) (p, q) (r, s) -x ay' = a *x (q -x r) /x (p *x s -x q *x r)) by (unfold adm3, ay', cross; cbn [fst snd]; field; exact I).
  cbn [fst snd]. split.
  - intros T'. destruct (transfer_unique _ _ _ _ _ _ _ J T' T) as [E1 E2]. rewrite E1 in D1. rewrite E2 in D2. split.
    + replace (a *x (q -x r)) with ((a *x (q -x r) /x (p *x s -x q *x r)) *x (p *x s -x q *x r)) by (field; exact I). rewrite <- D2. ring.
    + replace (b *x (q -x r)) with (xopp (xopp (b *x (q -x r) /x (p *x s -x q *x r))) *x (p *x s -x q *x r)) by (field; exact I). rewrite <- D1. ring.
  - intros [H1 H2]. rewrite H2 in D1. rewrite H1 in D2.
    replace (adm3 AX (a, b) (p, q) (r, s)) with ((adm3 AX (a, b) (p, q) (r, s) -x ax') +x ax') by ring. rewrite D1.
    replace (adm3 AY (a, b) (p, q) (r, s)) with ((adm3 AY (a, b) (p, q) (r, s) -x ay') +x ay') by ring. rewrite D2.
    replace (xopp (x0 /x (p *x s -x q *x r)) +x ax') with ax' by (field; exact I). replace (x0 /x (p *x s -x q *x r) +x ay') with ay' by (field; exact I). exact T.
Qed.

(** ** Derivatives at a location *)
Definition pdl (f : R -> pol) (t : R) (d : pol) : Prop := cdl (fun s => fst (f s)) t (fst d) /\ cdl (fun s => snd (f s)) t (snd d).
Lemma cross_cdl a b t da db : pdl a t da -> pdl b t db -> cdl (fun s => cross (a s) (b s)) t (dcross (a t) (b t) da db).
Proof.
  intros [A1 A2] [B1 B2]. unfold cross, dcross.
  eapply cdl_eq; [|apply cdl_sub; apply cdl_mul; eassumption]. cbn beta. ring.
Qed.
Lemma dratio_cdl f g t a b : cdl f t a -> cdl g t b -> g t <> x0 -> cdl (fun s => f s /x g s) t (dratio (f t) (g t) a b).
Proof. intros A B H. eapply cdl_eq; [|apply cdl_div; eassumption]. unfold dratio. field. exact H. Qed.
Lemma popp_pdl a t da : pdl a t da -> pdl (fun s => popp (a s)) t (popp da).
Proof. intros [A B]. split; cbn; apply cdl_opp; assumption. Qed.
Lemma imp3_cdl b e hx hy t de dhx dhy : pdl e t de -> pdl hx t dhx -> pdl hy t dhy -> independent (hx t) (hy t) ->
  cdl (fun s => imp3 b (e s) (hx s) (hy s)) t (imp3_deriv b (e t) (hx t) (hy t) de dhx dhy).
Proof.
  intros A B C I. apply cross_independent in I. unfold imp3, imp3_deriv. apply (dratio_cdl (fun s => cross (e s) (imp_h b (hx s) (hy s))) (fun s => cross (hx s) (hy s))); [|apply cross_cdl; assumption|exact I].
  destruct b; cbn [imp_h].
  - apply cross_cdl; assumption.
  - apply (cross_cdl e (fun s => popp (hx s))); [assumption|apply popp_pdl; assumption].
Qed.
Lemma tip3_cdl b o hx hy t do_ dhx dhy : pdl o t do_ -> pdl hx t dhx -> pdl hy t dhy -> independent (hx t) (hy t) ->
  cdl (fun s => tip3 b (o s) (hx s) (hy s)) t (tip3_deriv b (o t) (hx t) (hy t) do_ dhx dhy).
Proof.
  intros A B C I. apply cross_independent in I. unfold tip3, tip3_deriv. apply (dratio_cdl (fun s => cross (tip_h b (hx s) (hy s)) (o s)) (fun s => cross (hx s) (hy s))); [|apply cross_cdl; assumption|exact I].
  destruct b; cbn [tip_h].
  - apply (cross_cdl (fun s => popp (hy s)) o); [apply popp_pdl; assumption|assumption].
  - apply cross_cdl; assumption.
Qed.
Lemma adm3_top b h ex ey : adm3 b h ex ey = adm_top b h ex ey /x cross ex ey.
Proof. unfold adm3, adm_top, fact, p_ind. f_equal. destruct b; ring. Qed.
Lemma p_ind_cdl b f t d : pdl f t d -> cdl (fun s => p_ind b (f s)) t (p_ind b d).
Proof. intros [A B]. destruct b; assumption. Qed.
Lemma adm3_cdl b h ex ey t dh dex dey : pdl h t dh -> pdl ex t dex -> pdl ey t dey -> independent (ex t) (ey t) ->
  cdl (fun s => adm3 b (h s) (ex s) (ey s)) t (adm3_deriv b (h t) (ex t) (ey t) dh dex dey).
Proof.
  intros A B C I. apply cross_independent in I. eapply cdl_ext; [intros s; symmetry; apply adm3_top|]. unfold adm3_deriv.
  apply (dratio_cdl (fun s => adm_top b (h s) (ex s) (ey s)) (fun s => cross (ex s) (ey s))); [|apply cross_cdl; assumption|exact I].
  unfold adm_top. destruct A as [A1 A2].
  eapply cdl_eq; [|apply cdl_mul; [apply cdl_const|apply cdl_sub; apply cdl_mul; [exact A1|apply p_ind_cdl; exact C|exact A2|apply p_ind_cdl; exact B]]].
  cbn beta. ring.
Qed.
Lemma ratio_cdl f g t a b : cdl f t a -> cdl g t b -> g t <> x0 -> cdl (fun s => ratio (f s) (g s)) t (ratio_deriv (f t) (g t) a b).
Proof. intros A B H. unfold ratio, ratio_deriv. apply cdl_div; assumption. Qed.
Lemma pabs2_alt a : pabs2 a = nrm2 (fst a) + nrm2 (snd a).
Proof. unfold pabs2. rewrite !pow2_sqrt; [reflexivity| |]; unfold nrm2; nra. Qed.
Lemma nrm2_dpl f t d : cdl f t d -> derivable_pt_lim (fun s => nrm2 (f s)) t (2 * Re (cconj (f t) *x d)).
Proof.
  intros [A B]. unfold nrm2. eapply dpl_eq; [|apply dpl_plus; apply dpl_mult; [exact A|exact A|exact B|exact B]].
  cbn beta. unfold cconj, xmul, Re, Im. cbn. ring.
Qed.
Lemma pabs2_dpl f t d : pdl f t d -> derivable_pt_lim (fun s => pabs2 (f s)) t (2 * preal (f t) d).
Proof.
  intros [A B]. eapply dpl_ext; [intros s; symmetry; apply pabs2_alt|]. unfold preal.
  eapply dpl_eq; [|apply dpl_plus; apply nrm2_dpl; eassumption]. cbn beta. ring.
Qed.
Lemma app_dpl w ex ey hx hy hz t dex dey dhx dhy dhz : pdl ex t dex -> pdl ey t dey -> pdl hx t dhx -> pdl hy t dhy -> pdl hz t dhz ->
  app_bot (ex t) (ey t) <> 0 ->
  derivable_pt_lim (fun s => app w (ex s) (ey s) (hx s) (hy s) (hz s)) t (app_deriv w (ex t) (ey t) (hx t) (hy t) (hz t) dex dey dhx dhy dhz).
Proof.
  intros A B C D E N. unfold app, app_deriv.
  eapply dpl_eq; [|apply dpl_div; [apply dpl_scal; apply (dpl_plus (fun s => pabs2 (hx s) + pabs2 (hy s)) (fun s => pabs2 (hz s))); [apply dpl_plus|]; apply pabs2_dpl; eassumption
                                  |apply (dpl_plus (fun s => pabs2 (ex s)) (fun s => pabs2 (ey s))); apply pabs2_dpl; eassumption|exact N]].
  cbn beta. unfold app_top, app_bot in *. field. exact N.
Qed.

(** ** Adjoints at a location *)
Definition pdot (a b : pol) : cx := fst a *x fst b +x snd a *x snd b.
Lemma imp3_adj_ok b e hx hy w de dhx dhy : independent hx hy ->
  let g := imp3_adj b e hx hy w in
  pdot (g1 g) de +x pdot (g2 g) dhx +x pdot (g3 g) dhy = w *x imp3_deriv b e hx hy de dhx dhy.
Proof.
  intros I. apply cross_independent in I. destruct e, hx, hy, de, dhx, dhy. unfold cross in I. cbn [fst snd] in I.
  destruct b; unfold imp3_adj, imp3_deriv, pdot, g1, g2, g3, dratio, dcross, cross, imp_h, popp, pmul, padd, psub; cbn [fst snd]; field; exact I.
Qed.
Lemma tip3_adj_ok b e hx hy w de dhx dhy : independent hx hy ->
  let g := tip3_adj b e hx hy w in
  pdot (g1 g) de +x pdot (g2 g) dhx +x pdot (g3 g) dhy = w *x tip3_deriv b e hx hy de dhx dhy.
Proof.
  intros I. apply cross_independent in I. destruct e, hx, hy, de, dhx, dhy. unfold cross in I. cbn [fst snd] in I.
  destruct b; unfold tip3_adj, tip3_deriv, pdot, g1, g2, g3, dratio, dcross, cross, tip_h, popp, pmul, padd, psub; cbn [fst snd]; field; exact I.
Qed.
Lemma adm3_adj_ok b e hx hy w de dhx dhy : independent hx hy ->
  let g := adm3_adj b e hx hy w in
  pdot (g1 g) de +x pdot (g2 g) dhx +x pdot (g3 g) dhy = w *x adm3_deriv b e hx hy de dhx dhy.
Proof.
  intros I. apply cross_independent in I. destruct e, hx, hy, de, dhx, dhy. unfold cross in I. cbn [fst snd] in I.
  destruct b; unfold adm3_adj, adm3_deriv, pdot, g1, g2, g3, dratio, dcross, cross, adm_top, p_ind, p_add, fact, popp, pmul, padd, psub; cbn [fst snd]; field; exact I.
Qed.
Lemma ratio_adj_ok p q w dp dq : q <> x0 ->
  fst (ratio_adj p q w) *x dp +x snd (ratio_adj p q w) *x dq = w *x ratio_deriv p q dp dq.
Proof. intros H. unfold ratio_adj, ratio_deriv. cbn [fst snd]. field. exact H. Qed.
