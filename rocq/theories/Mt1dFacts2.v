(** The reverse sweep gives the derivatives of the recursion. *)
From Verif Require Import Py Vec VecDeriv ParamFacts2 Cx Mt1d Mt1dFacts.
From Coq Require Import Lra.
Local Open Scope R_scope.

Section D.
  Variables (w mu : R).
  Hypothesis (Hw : 0 < w) (Hmu : 0 < mu).

  Definition dalpha (s : R) (s' : R) : cx := xscale s' ((0, / 2 * w * mu) /x alpha w mu s).
  Lemma alpha_deriv f t a : derivable_pt_lim f t a -> 0 < f t ->
    cdl (fun s => alpha w mu (f s)) t (dalpha (f t) a).
  Proof.
    intros D H.
    assert (HP : 0 < w * mu * f t / 2) by (assert (0 < w * mu) by nra; nra).
    assert (DX : derivable_pt_lim (fun s => w * mu * f s / 2) t (w * mu / 2 * a)).
    { eapply dpl_ext; [|apply (dpl_scal (w * mu / 2)); exact D]. intros; cbn; field. }
    pose proof (dpl_sqrt (fun s => w * mu * f s / 2) t _ HP DX) as DS.
    pose proof (sqrt_lt_R0 _ HP) as SP.
    set (q := sqrt (w * mu * f t / 2)) in *.
    split; cbn.
    - eapply dpl_eq; [|exact DS]. fold q. cbn.
      unfold nrm2, Re, Im. cbn. fold q. field. split; nra.
    - eapply dpl_eq; [|exact DS]. fold q. cbn.
      unfold nrm2, Re, Im. cbn. fold q. field. split; nra.
  Qed.
  Definition dratio (s s' : R) : cx := xdivr (dalpha s s') s -x xscale s' (xdivr (ratio w mu s) s).
  Lemma ratio_deriv f t a : derivable_pt_lim f t a -> 0 < f t ->
    cdl (fun s => ratio w mu (f s)) t (dratio (f t) a).
  Proof.
    intros D H. pose proof (alpha_deriv f t a D H) as [A B].
    unfold dratio. set (da := dalpha (f t) a) in *. unfold ratio. set (al := alpha w mu (f t)) in *.
    split; cbn [xdivr xsub xscale Re Im fst snd].
    - eapply dpl_eq; [|apply (derivable_pt_lim_div (fun s => Re (alpha w mu (f s))) f t); [exact A|exact D|lra]].
      unfold Rsqr. fold al. field. lra.
    - eapply dpl_eq; [|apply (derivable_pt_lim_div (fun s => Im (alpha w mu (f s))) f t); [exact B|exact D|lra]].
      unfold Rsqr. fold al. field. lra.
  Qed.
  Definition dtnh (s s' t t' : R) : cx :=
    let T := tnh w mu s t in (x1 -x T *x T) *x (xscale t' (alpha w mu s) +x xscale t (dalpha s s')).
  Lemma tnh_deriv f g t a b : derivable_pt_lim f t a -> derivable_pt_lim g t b -> 0 < f t -> 0 < g t ->
    cdl (fun s => tnh w mu (f s) (g s)) t (dtnh (f t) a (g t) b).
  Proof.
    intros A B HA HB. unfold tnh.
    pose proof (alpha_deriv f t a A HA) as DA.
    pose proof (cdl_mul _ _ _ _ _ (cdl_real _ _ _ B) DA) as DM. cbn beta in DM.
    assert (DM' : cdl (fun s => xscale (g s) (alpha w mu (f s))) t
                    (xscale b (alpha w mu (f t)) +x xscale (g t) (dalpha (f t) a))).
    { eapply cdl_ext; [|eapply cdl_eq; [|exact DM]]; [intros; cbn; symmetry; apply xscale_mul|].
      rewrite !xscale_mul. reflexivity. }
    apply (cdl_ctanh _ _ _ DM'). apply tnh_arg; assumption.
  Qed.

  (** One layer *)
  Lemma layer_deriv (sg th : R -> R) (Zf : R -> cx) t a b D gZ :
    derivable_pt_lim sg t a -> derivable_pt_lim th t b -> cdl Zf t D ->
    0 < sg t -> 0 < th t -> good (Zf t) ->
    let l := (sg t, th t) in
    let r := ratio w mu (sg t) in
    let T := tnh w mu (sg t) (th t) in
    let Zn := Zf t in
    let top := top_ w mu l Zn in
    let bot := bot_ w mu l Zn in
    let Zi := r *x (top /x bot) in
    let gtop := r /x bot *x gZ in
    let gbot := xopp Zi /x bot *x gZ in
    let gratio := top /x bot *x gZ +x Zn *x T /x (r *x r) *x gbot -x Zn /x (r *x r) *x gtop in
    let gtanh := xopp Zn /x r *x gbot -x gtop in
    let gZ' := xopp T /x r *x gbot +x gtop /x r in
    exists D', cdl (fun s => ratio w mu (sg s) *x (top_ w mu (sg s, th s) (Zf s) /x bot_ w mu (sg s, th s) (Zf s))) t D' /\
      gZ *x D' = gratio *x dratio (sg t) a +x gtanh *x dtnh (sg t) a (th t) b +x gZ' *x D.
  Proof.
    intros DA DB DZ HA HB HG l r T Zn top bot Zi gtop gbot gratio gtanh gZ'.
    assert (Hr : r <> x0) by (apply ratio_neq; assumption).
    assert (Hb : bot <> x0) by (apply (good_step w mu Hw Hmu l Zn HA HB HG)).
    pose proof (ratio_deriv sg t a DA HA) as Dr.
    pose proof (tnh_deriv sg th t a b DA DB HA HB) as DT.
    pose proof (cdl_div _ _ _ _ _ DZ Dr Hr) as Dq. cbn beta in Dq.
    pose proof (cdl_sub _ _ _ _ _ Dq DT) as Dtop.
    pose proof (cdl_sub _ _ _ _ _ (cdl_const x1 t) (cdl_mul _ _ _ _ _ Dq DT)) as Dbot. cbn beta in Dbot.
    pose proof (cdl_mul _ _ _ _ _ Dr (cdl_div _ _ _ _ _ Dtop Dbot Hb)) as DF. cbn beta in DF.
    eexists. split; [exact DF|].
    fold r T Zn. set (dr := dratio (sg t) a). set (dT := dtnh (sg t) a (th t) b).
    unfold gratio, gtanh, gZ', gbot, gtop, Zi, top, bot, top_, bot_, l in *. cbn [fst snd] in *. fold r T Zn in Hb |- *.
    field. repeat split; try assumption.
    intros E. apply Hb. transitivity ((r -x Zn *x T) /x r); [field; exact Hr|]. rewrite E. field. exact Hr.
  Qed.

  (** The gradient along a direction (a, b) of a layer *)
  Lemma layer_grad s t a b gr gt : 0 < s -> 
    gr *x dratio s a +x gt *x dtnh s a t b =
    d_sigma w mu (s, t) (gr, gt) *x xr a +x d_thick w mu (s, t) (gr, gt) *x xr b.
  Proof.
    intros H. pose proof (alpha_neq w mu Hw Hmu s H) as Ha.
    unfold dratio, dtnh, d_sigma, d_thick, dalpha. cbn [fst snd].
    rewrite !xdivr_div by lra. rewrite !xscale_mul. set (T := tnh w mu s t).
    field. split; first [exact Ha|apply xr_neq; lra].
  Qed.
  Lemma bottom_grad s a g : 0 < s -> g *x dratio s a = d_sigma_b w mu s g *x xr a.
  Proof.
    intros H. pose proof (alpha_neq w mu Hw Hmu s H) as Ha.
    unfold dratio, d_sigma_b, dalpha. rewrite !xdivr_div by lra. rewrite !xscale_mul.
    field. split; first [exact Ha|apply xr_neq; lra].
  Qed.

  (** Curves of layers and their velocities *)
  Definition at_ (cs : list ((R -> R) * (R -> R))) (s : R) : list (R * R) := map (fun c => (fst c s, snd c s)) cs.
  Fixpoint total (ls : list (R * R)) (gs : list (cx * cx)) (vs : list (R * R)) : cx :=
    match ls, gs, vs with
    | l :: ls', g :: gs', v :: vs' =>
        (d_sigma w mu l g *x xr (fst v) +x d_thick w mu l g *x xr (snd v)) +x total ls' gs' vs'
    | _, _, _ => x0
    end.
  Lemma Z_deriv (sb : R -> R) t b' : derivable_pt_lim sb t b' -> 0 < sb t ->
    forall cs vs, Forall2 (fun c v => derivable_pt_lim (fst c) t (fst v) /\ derivable_pt_lim (snd c) t (snd v)) cs vs ->
    pos_layers (at_ cs t) ->
    exists D, cdl (fun s => Ztop w mu (at_ cs s) (sb s)) t D /\
      forall gZ, let (gs, gb) := sweep w mu gZ (at_ cs t) (Zs w mu (at_ cs t) (sb t)) in
        gZ *x D = total (at_ cs t) gs vs +x d_sigma_b w mu (sb t) gb *x xr b'.
  Proof.
    intros Db Hb cs vs HF. induction HF as [|[sg th] [a b] cs vs [DA DB] HF IH]; intros HP.
    - exists (xopp (dratio (sb t) b')). split.
      + unfold Ztop. cbn. apply cdl_opp. now apply ratio_deriv.
      + intros gZ. cbn. transitivity (xopp gZ *x dratio (sb t) b'); [ring|]. rewrite bottom_grad by exact Hb. ring.
    - cbn in DA, DB. cbn [at_ map] in HP. fold (at_ cs t) in HP.
      inversion HP as [|x y [P1 P2] P3]; subst. cbn in P1, P2.
      destruct (IH P3) as (D & HD & HG). clear IH.
      pose proof (good_Z w mu Hw Hmu _ _ P3 Hb) as GZ.
      destruct (layer_deriv sg th (fun s => Ztop w mu (at_ cs s) (sb s)) t a b D x1 DA DB HD P1 P2 GZ) as (D' & HD' & _).
      exists D'. split.
      + eapply cdl_ext; [|exact HD']. intros s. unfold Ztop. cbn [at_ map Zs hd fst snd]. reflexivity.
      + intros gZ. cbn [at_ map sweep Zs hd tl fst snd]. fold (at_ cs t).
        change (hd x0 (Zs w mu (at_ cs t) (sb t))) with (Ztop w mu (at_ cs t) (sb t)).
        match goal with |- context [sweep w mu ?g (at_ cs t) _] => specialize (HG g); set (gz := g) in * end.
        destruct (sweep w mu gz (at_ cs t) (Zs w mu (at_ cs t) (sb t))) as [gs gb].
        cbn [total fst snd].
        destruct (layer_deriv sg th (fun s => Ztop w mu (at_ cs s) (sb s)) t a b D gZ DA DB HD P1 P2 GZ) as (D2 & HD2 & E2).
        assert (D' = D2).
        { destruct HD' as [X1 X2], HD2 as [Y1 Y2]. apply cx_eq; eapply uniqueness_limite; eassumption. }
        subst D2. cbv zeta in E2. rewrite E2. rewrite layer_grad by exact P1.
        fold gz. rewrite HG. ring.
  Qed.
End D.
