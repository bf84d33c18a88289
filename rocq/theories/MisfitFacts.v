From Verif Require Import Py Vec VecDeriv Survey DataM SpecData DataFacts Misfit SpecMisfit.
Local Open Scope R_scope.

(** ** Diagonal matrices *)
Lemma unit_row_length n i x : length (unit_row n i x) = n.
Proof. revert i; induction n; intros [|i]; cbn; auto. f_equal; apply vzero_length. Qed.
Lemma unit_row_dot n i x v : (i < n)%nat -> length v = n -> dot (unit_row n i x) v = x * nth i v 0.
Proof.
  revert i v; induction n; intros i v Hi Hv; [lia|]. destruct v as [|y v]; [cbn in Hv; lia|]. cbn in Hv.
  destruct i; cbn.
  - rewrite dot_zero_l; ring.
  - rewrite IHn by lia. ring.
Qed.
Lemma sdiag_from_length n i w : length (sdiag_from n i w) = length w.
Proof. revert i; induction w; cbn; intros; auto. Qed.
Lemma sdiag_from_mv n i w v : (i + length w <= n)%nat -> length v = n ->
  mv (sdiag_from n i w) v = vmul w (firstn (length w) (skipn i v)).
Proof.
  revert i; induction w as [|x w IH]; intros i Hi Hv; [reflexivity|]. cbn [length] in *.
  cbn [sdiag_from mv map]. rewrite unit_row_dot by lia.
  assert (E : skipn i v = nth i v 0 :: skipn (S i) v).
  { clear - Hi Hv. revert v Hv; generalize (length w) as k; intros k. revert n Hi.
    induction i; intros n Hi v Hv; destruct v; cbn in *; try lia; [reflexivity|].
    apply (IHi (n - 1)%nat); cbn in *; lia. }
  rewrite E. cbn [firstn]. cbn [vmul zipw]. f_equal. apply IH; lia.
Qed.
Lemma sdiag_mv w v : length v = length w -> mv (sdiag w) v = vmul w v.
Proof.
  intros H. unfold sdiag. rewrite sdiag_from_mv; auto. cbn. rewrite <- H, firstn_all. reflexivity.
Qed.
Lemma sdiag_is_mat w : is_mat (length w) (length w) (sdiag w).
Proof.
  split; [apply sdiag_from_length|]. unfold sdiag. generalize (length w) as n, 0%nat as i.
  induction w as [|x w IH]; intros n i; cbn; constructor; auto using unit_row_length.
Qed.
Lemma vmul_comm a b : vmul a b = vmul b a.
Proof. revert b; induction a as [|x a IH]; intros [|y b]; cbn; auto. f_equal; [ring|apply IH]. Qed.
Lemma dot_vmul_l w a b : dot (vmul w a) b = dot a (vmul w b).
Proof. revert a b; induction w as [|x w IH]; intros [|y a] [|z b]; cbn; auto. fold (vmul w a) (vmul w b). rewrite IH; ring. Qed.
Lemma sdiag_mtv w v : length v = length w -> mtv (length w) (sdiag w) v = vmul w v.
Proof.
  intros H. apply dot_ext.
  - rewrite (mtv_length _ _ _ _ (sdiag_is_mat w)), vmul_length; auto.
  - intros u Hu. rewrite (mtv_length _ _ _ _ (sdiag_is_mat w)) in Hu.
    rewrite <- (mv_mtv_adjoint _ _ _ _ _ (sdiag_is_mat w)) by auto.
    rewrite sdiag_mv by auto. symmetry. apply dot_vmul_l.
Qed.

(** ** Values and derivatives *)
Lemma finite_part_spec l v : finite_part l = Some v <-> l = map Fin v.
Proof.
  revert v; induction l as [|x l IH]; intros v; cbn.
  - split; [injection 1 as <-; reflexivity|]. destruct v; [reflexivity|discriminate].
  - destruct x as [x| |].
    + destruct (finite_part l) as [u|] eqn:E.
      * split.
        -- injection 1 as <-. cbn. f_equal. apply IH; reflexivity.
        -- destruct v as [|y v]; [discriminate|]. cbn. injection 1 as -> H. apply IH in H. congruence.
      * split; [discriminate|]. destruct v as [|y v]; [discriminate|]. cbn. injection 1 as -> H.
        apply IH in H. discriminate.
    + split; [discriminate|]. destruct v; discriminate.
    + split; [discriminate|]. destruct v; discriminate.
Qed.
Lemma finite_part_none l : finite_part l = None <-> Exists (fun x => x = NaN \/ x = Infinite) l.
Proof.
  induction l as [|x l IH]; cbn.
  - split; [discriminate|inversion 1].
  - destruct x as [x| |].
    + destruct (finite_part l) as [u|] eqn:E.
      * split; [discriminate|]. inversion 1; subst; [destruct H1; discriminate|].
        apply IH in H1; discriminate.
      * split; [|reflexivity]. intros _. right. apply IH; reflexivity.
    + split; [left; auto|reflexivity].
    + split; [left; auto|reflexivity].
Qed.
Lemma chi_squared_dot d dobs std : length d = length dobs -> length std = length dobs ->
  dot (vmul (map (fun s => 1 / s) std) (vsub d dobs)) (vmul (map (fun s => 1 / s) std) (vsub d dobs))
  = chi_squared d dobs std.
Proof.
  revert dobs std; induction d as [|x d IH]; intros [|y dobs] [|s std]; cbn; intros; try lia; auto.
  rewrite <- IH by lia. unfold vmul, vsub. cbn. unfold Rdiv. ring.
Qed.

Section MisfitProps.
  Context (nP nD : nat) (d : vec -> vec) (Jvec Jtvec : vec -> vec -> vec) (dobs : vec).
  Let dpred m := map Fin (d m).
  Hypothesis Hdobs : length dobs = nD.

  Lemma misfit_value m std : length (d m) = nD -> length std = nD ->
    misfit dpred dobs (sdiag (map (fun s => 1 / s) std)) m = Ok (chi_squared (d m) dobs std).
  Proof.
    intros H1 H2. unfold misfit, residual, dpred.
    rewrite (proj2 (finite_part_spec _ (d m)) eq_refl). cbn [bind].
    rewrite sdiag_mv by (rewrite map_length, vsub_length; congruence).
    f_equal. apply chi_squared_dot; congruence.
  Qed.

  Let phi := phi d dobs.
  Lemma misfit_ok W m : misfit dpred dobs W m = Ok (phi W m).
  Proof.
    unfold phi, SpecMisfit.phi, misfit, residual, dpred. rewrite (proj2 (finite_part_spec _ (d m)) eq_refl). reflexivity.
  Qed.

  Lemma misfit_gradient W m g :
    is_mat nD nD W -> length m = nP ->
    has_jacobian nP nD d m (Jvec m) ->
    (forall v w, length v = nP -> length w = nD -> dot w (Jvec m v) = dot (Jtvec m w) v) ->
    (forall w, length w = nD -> length (Jtvec m w) = nP) ->
    misfit_deriv dpred Jtvec dobs W m = Ok g -> has_gradient nP (phi W) m g.
  Proof.
    intros HW Hm HJ Hadj HlJ Hg.
    unfold misfit_deriv, residual, dpred in Hg.
    rewrite (proj2 (finite_part_spec _ (d m)) eq_refl) in Hg. cbn [bind] in Hg. injection Hg as <-.
    assert (Ld : length (d m) = nD).
    { assert (length (vzero nP) = nP) as Lz by apply vzero_length.
      destruct (HJ (vzero nP) Lz) as (L & _ & _). specialize (L 0).
      rewrite vscale_vzero, vadd_zero_r in L by assumption. exact L. }
    set (r := vsub (d m) dobs).
    assert (Lr : length r = nD) by (unfold r; rewrite vsub_length; congruence).
    assert (LWr : length (mv W r) = nD) by (rewrite mv_length; apply HW).
    assert (LWWr : length (mtv (length dobs) W (mv W r)) = nD).
    { rewrite Hdobs. apply (mtv_length _ _ _ _ HW). }
    split; [rewrite vscale_length; apply HlJ; assumption|].
    intros h Hh.
    apply (dpl_ext (fun t => dot (mv W (vsub (d (vadd m (vscale t h))) dobs)) (mv W (vsub (d (vadd m (vscale t h))) dobs)))).
    { intros t. unfold phi, SpecMisfit.phi, misfit, residual, dpred.
      rewrite (proj2 (finite_part_spec _ (d (vadd m (vscale t h)))) eq_refl). reflexivity. }
    pose proof (HJ h Hh) as HV.
    pose proof (vderiv_mv _ _ _ _ _ _ HW (vderiv_sub _ _ _ _ _ _ HV (vderiv_const nD dobs 0 Hdobs))) as HD.
    eapply dpl_eq; [|apply (deriv_normsq _ _ _ _ HD)].
    cbn beta. rewrite vscale_0.
    replace (vadd m (vzero (length h))) with m by (rewrite Hh, vadd_zero_r; auto).
    fold r. destruct HV as (_ & LJ & _).
    replace (vsub (Jvec m h) (vzero nD)) with (Jvec m h).
    2:{ rewrite vsub_as_add, vscale_vzero, vadd_zero_r; auto. }
    rewrite dot_vscale_l. rewrite <- Hadj by (assumption).
    rewrite Hdobs. rewrite (mv_mtv_adjoint _ _ _ _ _ HW) by assumption. reflexivity.
  Qed.

  (** Hessian action. *)
  Section Hessian.
    Variable m : vec.
    Hypothesis Hadj : forall v w, length v = nP -> length w = nD -> dot w (Jvec m v) = dot (Jtvec m w) v.
    Hypothesis HJ : forall v, length v = nP -> length (Jvec m v) = nD.
    Lemma hessian_form W u v : is_mat nD nD W -> length u = nP -> length v = nP ->
      (forall w, length w = nD -> mtv nD W w = mv W w) ->
      dot (misfit_deriv2 Jvec Jtvec W m v) u = 2 * dot (mv W (Jvec m v)) (mv W (Jvec m u)).
    Proof.
      intros HW Hu Hv Hsym. unfold misfit_deriv2. rewrite dot_vscale_l.
      assert (L : length (mv W (Jvec m v)) = nD) by (rewrite mv_length; apply HW).
      assert (L2 : length (mv W (mv W (Jvec m v))) = nD) by (rewrite mv_length; apply HW).
      rewrite <- Hadj by assumption. rewrite <- (Hsym _ L).
      rewrite <- (mv_mtv_adjoint _ _ _ _ _ HW) by auto. reflexivity.
    Qed.
  End Hessian.
End MisfitProps.

(** Exact second-order expansion for linear simulations. *)
Lemma misfit_quadratic nP nD (d : vec -> vec) Jvec Jtvec dobs W m h g :
  length dobs = nD -> is_mat nD nD W -> length m = nP -> length h = nP -> length (d m) = nD ->
  length (Jvec m h) = nD ->
  d (vadd m h) = vadd (d m) (Jvec m h) ->
  (forall v w, length v = nP -> length w = nD -> dot w (Jvec m v) = dot (Jtvec m w) v) ->
  (forall w, length w = nD -> mtv nD W w = mv W w) ->
  misfit_deriv (fun m => map Fin (d m)) Jtvec dobs W m = Ok g ->
  phi d dobs W (vadd m h) = phi d dobs W m + dot g h + / 2 * dot h (misfit_deriv2 Jvec Jtvec W m h).
Proof.
  intros Hdobs HW Hm Hh Ld LJ Hlin Hadj Hsym Hg.
  unfold misfit_deriv, residual in Hg.
  rewrite (proj2 (finite_part_spec _ (d m)) eq_refl) in Hg. cbn [bind] in Hg. injection Hg as <-.
  unfold phi, misfit, residual.
  rewrite (proj2 (finite_part_spec _ (d m)) eq_refl), (proj2 (finite_part_spec _ (d (vadd m h))) eq_refl).
  cbn [bind]. rewrite Hlin.
  set (r := vsub (d m) dobs). set (j := Jvec m h) in *.
  assert (Lr : length r = nD) by (unfold r; rewrite vsub_length; congruence).
  assert (E : vsub (vadd (d m) j) dobs = vadd r j).
  { unfold r. rewrite !vsub_as_add, <- !vadd_assoc. f_equal. apply vadd_comm. }
  rewrite E, mv_vadd by congruence.
  assert (LW : forall v, length (mv W v) = nD) by (intros; rewrite mv_length; apply HW).
  rewrite (dot_comm h). unfold misfit_deriv2; rewrite !dot_vscale_l. fold j.
  rewrite <- !Hadj by (auto; rewrite Hdobs; apply (mtv_length _ _ _ _ HW)).
  fold j. rewrite Hdobs. rewrite <- (mv_mtv_adjoint _ _ _ _ _ HW) by auto.
  rewrite <- (Hsym (mv W j)) by auto. rewrite <- (mv_mtv_adjoint _ _ _ _ _ HW) by auto.
  rewrite dot_vadd_l, !dot_vadd_r by (rewrite !LW; reflexivity).
  rewrite (dot_comm (mv W j) (mv W r)). field.
Qed.

(** ... and the transpose missing from [deriv2] matters. *)
Lemma deriv2_nonsym : exists W m v,
  is_mat 2 2 W /\ length v = 2%nat /\
  dot (misfit_deriv2 (fun _ v => v) (fun _ w => w) W m v) v <> 2 * dot (mv W v) (mv W v).
Proof.
  exists [[0; 1]; [0; 0]], [], [0; 1]. split; [|split].
  - split; [reflexivity|]. repeat constructor.
  - reflexivity.
  - unfold misfit_deriv2; cbn. lra.
Qed.

(** ** The cached weights *)
Lemma W_fresh o std : mf_W o = None -> std_getter Rabs (mf_data o) = Ok std -> Forall (fun s => 0 < s) std ->
  W_getter o = (Ok (sdiag (map (fun s => 1 / s) std)), mkMf (mf_data o) (Some (sdiag (map (fun s => 1 / s) std)))).
Proof.
  intros H1 H2 H3. unfold W_getter; rewrite H1, H2.
  replace (existsb (fun s => negb (Rltb 0 s)) std) with false; [reflexivity|].
  symmetry. clear - H3. induction H3 as [|s std Hs H IH]; cbn; [reflexivity|]. rewrite IH.
  unfold Rltb. destruct (Rlt_dec 0 s); [reflexivity|contradiction].
Qed.
Lemma W_nonpositive o std : mf_W o = None -> std_getter Rabs (mf_data o) = Ok std ->
  Exists (fun s => s <= 0) std -> W_getter o = (Err GenericException, o).
Proof.
  intros H1 H2 H3. unfold W_getter; rewrite H1, H2.
  replace (existsb (fun s => negb (Rltb 0 s)) std) with true; [reflexivity|].
  symmetry. clear - H3. induction H3 as [s std Hs|s std H IH]; cbn.
  - unfold Rltb. destruct (Rlt_dec 0 s); [lra|reflexivity].
  - rewrite IH. apply orb_true_r.
Qed.
Definition touches_data (p : mf_op) : bool := match p with MData _ | MReplace _ => true | _ => false end.
Lemma mf_run_data l o ps : (forall p, In p ps -> touches_data p = true) -> mf_W (mf_run l o ps) = mf_W o.
Proof.
  unfold mf_run. revert o; induction ps as [|p ps IH]; cbn [fold_left]; intros o H; [reflexivity|].
  rewrite IH by (intros; apply H; cbn; auto).
  pose proof (H p (or_introl eq_refl)). destruct p; cbn in *; try discriminate; reflexivity.
Qed.
Lemma W_current l d ps std : (forall p, In p ps -> touches_data p = true) ->
  let o := mf_run l (mkMf d None) ps in
  std_getter Rabs (mf_data o) = Ok std -> Forall (fun s => 0 < s) std ->
  fst (W_getter o) = Ok (sdiag (map (fun s => 1 / s) std)).
Proof.
  intros H o Hs Hp. rewrite (W_fresh o std); auto. unfold o. rewrite mf_run_data; auto.
Qed.
Lemma W_sticky l o ps W : fst (W_getter o) = Ok W -> (forall p, In p ps -> p = MRead \/ touches_data p = true) ->
  fst (W_getter (mf_run l (snd (W_getter o)) ps)) = Ok W.
Proof.
  intros H. assert (E : mf_W (snd (W_getter o)) = Some W).
  { unfold W_getter in *. destruct (mf_W o) as [W'|] eqn:E; cbn in *; [congruence|].
    destruct (std_getter Rabs (mf_data o)); [|discriminate].
    destruct (existsb _ a); [discriminate|]. cbn in *; congruence. }
  generalize (snd (W_getter o)) as o' , E. clear. unfold mf_run.
  induction ps as [|p ps IH]; cbn [fold_left]; intros o E H.
  - unfold W_getter; rewrite E; reflexivity.
  - apply IH; [|intros; apply H; cbn; auto].
    destruct (H p (or_introl eq_refl)) as [->|Hp].
    + cbn. unfold W_getter; rewrite E; cbn; exact E.
    + destruct p; cbn in *; try discriminate; exact E.
Qed.
Lemma W_stale : exists l d ps std, std_getter Rabs (mf_data (mf_run l (mkMf d None) ps)) = Ok std /\
  Forall (fun s => 0 < s) std /\
  fst (W_getter (mf_run l (mkMf d None) ps)) <> Ok (sdiag (map (fun s => 1 / s) std)).
Proof.
  exists [], (mkData 1 [5] None (Some [1])), [MRead; MData (OSetFloor (UScalar 2))], [2].
  assert (E1 : std_getter Rabs (mkData 1 [5] None (Some [1])) = Ok [1]).
  { unfold std_getter; cbn. do 2 f_equal. replace (0 + 1 * 1) with 1 by ring. apply sqrt_1. }
  assert (W1 : W_getter (mkMf (mkData 1 [5] None (Some [1])) None)
     = (Ok (sdiag [1 / 1]), mkMf (mkData 1 [5] None (Some [1])) (Some (sdiag [1 / 1])))).
  { assert (F1 : Forall (fun s => 0 < s) [1]) by (constructor; auto; lra).
    exact (W_fresh (mkMf (mkData 1 [5] None (Some [1])) None) [1] eq_refl E1 F1). }
  assert (R1 : mf_run [] (mkMf (mkData 1 [5] None (Some [1])) None) [MRead; MData (OSetFloor (UScalar 2))]
     = mkMf (mkData 1 [5] None (Some [2])) (Some (sdiag [1 / 1]))).
  { unfold mf_run. cbn [fold_left mf_step]. rewrite W1. cbn [snd mf_data mf_W].
    unfold data_step, set_floor. cbn. unfold Rltb. destruct (Rlt_dec 2 0); [exfalso; lra|]. reflexivity. }
  rewrite R1. split; [|split].
  - unfold std_getter; cbn. do 2 f_equal. replace (0 + 2 * 2) with (Rsqr 2) by (unfold Rsqr; ring). apply sqrt_Rsqr; lra.
  - constructor; auto; lra.
  - cbn. injection 1. lra.
Qed.
Lemma W_set_get o w : length w = length (d_dobs (mf_data o)) ->
  W_setter o w = (mkMf (mf_data o) (Some (sdiag w)), None) /\ fst (W_getter (fst (W_setter o w))) = Ok (sdiag w).
Proof. intros H; unfold W_setter; rewrite (proj2 (Nat.eqb_eq _ _) H); split; reflexivity. Qed.
Lemma misfit_nonfinite dpred Jtvec dobs W m :
  Exists (fun x => x = NaN \/ x = Infinite) (dpred m) ->
  misfit dpred dobs W m = Err ValueError /\ misfit_deriv dpred Jtvec dobs W m = Err ValueError.
Proof.
  intros H. apply finite_part_none in H. unfold misfit, misfit_deriv, residual. rewrite H. split; reflexivity.
Qed.
Lemma sdiag_symmetric w v : length v = length w -> mtv (length w) (sdiag w) v = mv (sdiag w) v.
Proof. intros H; rewrite sdiag_mtv, sdiag_mv; auto. Qed.
