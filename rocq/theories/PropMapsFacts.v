(** Proofs about the elementwise maps. *)
From Verif Require Import Py Vec VecDeriv Frechet MapsM SpecMaps MapsFacts PropMaps SpecPropMaps.
Local Open Scope R_scope.

Lemma mu_0_pos : 0 < mu_0. Proof. unfold mu_0. lra. Qed.

Lemma fits_at1 n v i : length v = n -> (i < n)%nat -> at1 v i = nth i v 0.
Proof. intros L H. unfold at1. destruct v as [|x [|y v]]; try reflexivity. cbn in L. replace i with O by lia. reflexivity. Qed.
Lemma bzip_ok n f a b : fits n a -> fits n b -> exists c, bzip f a b = Ok c /\ fits n c /\
  (forall i, (i < n)%nat -> at1 c i = f (at1 a i) (at1 b i)) /\ (length a = n \/ length b = n -> length c = n).
Proof.
  intros Ha Hb. unfold bzip. destruct (Nat.eqb_spec (length a) (length b)) as [E|E].
  - exists (zipw f a b). split; [reflexivity|]. rewrite (zipw_length f) by assumption.
    assert (Lz := zipw_length f a b E). unfold fits. rewrite Lz. split; [destruct Ha; auto|]. split; [|intuition congruence].
    intros i Hi. destruct Ha as [La|La].
    + rewrite !(fits_at1 n) by congruence. apply zipw_nth; congruence.
    + destruct a as [|x [|]]; try discriminate. destruct b as [|y [|]]; try discriminate. reflexivity.
  - destruct Ha as [La|La], Hb as [Lb|Lb]; try congruence.
    + destruct b as [|y [|]]; try discriminate. 
      assert (H : (match a with [x] => Ok (map (f x) [y]) | _ => Ok (map (fun x => f x y) a) end) = Ok (map (fun x => f x y) a)).
      { destruct a as [|x [|]]; reflexivity. }
      exists (map (fun x => f x y) a). split; [destruct a as [|x [|]]; reflexivity|].
      unfold fits. rewrite map_length. split; [auto|]. split; [|auto]. intros i Hi.
      rewrite (fits_at1 n (map _ _)), (fits_at1 n a) by (rewrite ?map_length; assumption). rewrite map_nth_lt by congruence. reflexivity.
    + destruct a as [|x [|]]; try discriminate. exists (map (f x) b). split; [reflexivity|].
      unfold fits. rewrite map_length. split; [auto|]. split; [|auto]. intros i Hi.
      rewrite (fits_at1 n (map _ _)), (fits_at1 n b) by (rewrite ?map_length; assumption). rewrite map_nth_lt by congruence. reflexivity.
Qed.
Lemma cells_length p m : length (cells p m) = length m.
Proof. unfold cells. rewrite map_length, seq_length. reflexivity. Qed.
Lemma nth_map_seq {A} (g : nat -> A) n i d : (i < n)%nat -> nth i (map g (seq 0 n)) d = g i.
Proof. intros H. rewrite (nth_indep _ d (g O)) by (rewrite map_length, seq_length; assumption). rewrite (map_nth g (seq 0 n) O). rewrite seq_nth by assumption. reflexivity. Qed.
Lemma nth_cells p m i : (i < length m)%nat -> nth i (cells p m) 0 = cellmap p i (nth i m 0).
Proof. intros H. unfold cells. rewrite nth_map_seq by assumption. reflexivity. Qed.
Lemma cells_map p m g : (forall i x, cellmap p i x = g x) -> map g m = cells p m.
Proof.
  intros H. apply vec_ext; [rewrite cells_length, map_length; reflexivity|]. intros i Hi. rewrite map_length in Hi.
  rewrite nth_cells, map_nth_lt, H by assumption. reflexivity.
Qed.
Ltac by_at1 n := apply vec_ext; [congruence|]; intros i Hi; rewrite <- ?(fits_at1 n) by lia.

Lemma tr_spec p m : params_ok (length m) p -> pm_tr p m = Ok (cells p m).
Proof.
  intros H. destruct p; cbn [pm_tr].
  - f_equal. apply cells_map. reflexivity.
  - f_equal. apply cells_map. reflexivity.
  - f_equal. apply cells_map. reflexivity.
  - destruct H as (Hl & Hu & Hn). set (n := length m) in *.
    destruct (bzip_ok n Rminus up lo Hu Hl) as (w & -> & Fw & Aw & _). cbn [bind].
    assert (Lm : length (map expit m) = n) by (rewrite map_length; reflexivity).
    destruct (bzip_ok n Rmult w (map expit m) Fw (or_introl Lm)) as (z & -> & Fz & Az & Lz). cbn [bind].
    specialize (Lz (or_intror Lm)).
    destruct (bzip_ok n Rplus lo z Hl Fz) as (y & -> & _ & Ay & Ly). specialize (Ly (or_intror Lz)). f_equal.
    apply vec_ext; [rewrite cells_length; assumption|]. intros i Hi. rewrite Ly in Hi.
    rewrite nth_cells by assumption. rewrite <- (fits_at1 n) by assumption. rewrite Ay, Az, Aw by assumption.
    rewrite (fits_at1 n (map expit m)) by assumption. rewrite map_nth_lt by assumption. cbn. unfold expit, Rdiv. ring.
  - f_equal. apply cells_map. reflexivity.
  - f_equal. apply cells_map. intros. cbn. ring.
  - f_equal. apply cells_map. reflexivity.
  - destruct H as [Hw Hn]. set (n := length m) in *.
    destruct (bzip_ok n Rmult w m Hw (or_introl eq_refl)) as (y & -> & _ & Ay & Ly). specialize (Ly (or_intror eq_refl)). f_equal.
    apply vec_ext; [rewrite cells_length; assumption|]. intros i Hi. rewrite Ly in Hi.
    rewrite nth_cells by assumption. rewrite <- (fits_at1 n) by assumption. rewrite Ay by assumption.
    rewrite (fits_at1 n m) by auto. reflexivity.
Qed.

(** The inverse on one cell. *)
Definition cellinv (p : pmap) (i : nat) (u : R) : R :=
  match p with
  | PExp => ln u | PRecip => 1 / u | PLog => exp u
  | PLogistic lo up => logit ((u - at1 lo i) / (at1 up i - at1 lo i))
  | PChi => u / mu_0 - 1 | PEffSus a => u / a | PMuRel => 1 / mu_0 * u | PWeight w => / at1 w i * u
  end.
Lemma inv_spec p u : params_ok (length u) p -> exists m, pm_inv p u = Ok m /\ length m = length u /\
  forall i, (i < length u)%nat -> nth i m 0 = cellinv p i (nth i u 0).
Proof.
  intros H. destruct p; cbn [pm_inv]; try (eexists; split; [reflexivity|]; split; [apply map_length|]; intros i Hi; rewrite map_nth_lt by assumption; reflexivity).
  - destruct H as (Hl & Hu & Hn). set (n := length u) in *.
    destruct (bzip_ok n Rminus u lo (or_introl eq_refl) Hl) as (a & -> & Fa & Aa & La). cbn [bind]. specialize (La (or_introl eq_refl)).
    destruct (bzip_ok n Rminus up lo Hu Hl) as (w & -> & Fw & Aw & _). cbn [bind].
    destruct (bzip_ok n Rdiv a w Fa Fw) as (z & -> & Fz & Az & Lz). cbn [bind]. specialize (Lz (or_introl La)).
    eexists. split; [reflexivity|]. split; [rewrite map_length; assumption|]. intros i Hi.
    rewrite map_nth_lt by congruence. rewrite <- (fits_at1 n z) by assumption. rewrite Az, Aw, Aa by assumption.
    rewrite (fits_at1 n u) by auto. reflexivity.
  - destruct H as [Hw Hn]. set (n := length u) in *. assert (Fi : fits n (map Rinv w)) by (unfold fits in *; rewrite map_length; assumption).
    destruct (bzip_ok n Rmult (map Rinv w) u Fi (or_introl eq_refl)) as (y & -> & _ & Ay & Ly). specialize (Ly (or_intror eq_refl)).
    exists y. split; [reflexivity|]. split; [assumption|]. intros i Hi. rewrite <- (fits_at1 n) by assumption. rewrite Ay by assumption.
    rewrite (fits_at1 n u) by auto. cbn [cellinv]. f_equal.
    destruct Hw as [Lw|Lw]; [rewrite !(fits_at1 n) by (rewrite ?map_length; assumption); rewrite map_nth_lt by congruence; reflexivity|].
    destruct w as [|x [|]]; try discriminate. reflexivity.
Qed.
Lemma expit_bounds x : 0 < 1 / (1 + exp (- x)) < 1.
Proof.
  pose proof (exp_pos (- x)). split; [apply Rdiv_lt_0_compat; lra|]. unfold Rdiv. rewrite Rmult_1_l, <- Rinv_1.
  apply Rinv_lt_contravar; lra.
Qed.
Lemma logit_expit x : logit (1 / (1 + exp (- x))) = x.
Proof.
  unfold logit. pose proof (exp_pos (- x)).
  replace (1 / (1 + exp (- x)) / (1 - 1 / (1 + exp (- x)))) with (/ exp (- x)) by (field; lra).
  rewrite <- exp_Ropp, Ropp_involutive. apply ln_exp.
Qed.
Lemma expit_logit p : 0 < p < 1 -> 1 / (1 + exp (- logit p)) = p.
Proof.
  intros H. unfold logit. assert (0 < p / (1 - p)) by (apply Rdiv_lt_0_compat; lra).
  rewrite exp_Ropp, exp_ln by assumption. field. repeat split; lra.
Qed.
Lemma cell_inv_tr n p i x : (i < n)%nat -> params_ok n p -> cell_dom p x -> cellinv p i (cellmap p i x) = x.
Proof.
  intros Hi Hp Hx. pose proof mu_0_pos. destruct p; cbn in *.
  - apply ln_exp.
  - field. assumption.
  - apply exp_ln. assumption.
  - destruct Hp as (_ & _ & Hn). specialize (Hn i Hi). 
    replace ((at1 lo i + (at1 up i - at1 lo i) / (1 + exp (- x)) - at1 lo i) / (at1 up i - at1 lo i)) with (1 / (1 + exp (- x))).
    + apply logit_expit.
    + pose proof (exp_pos (- x)). field. split; [lra|]. intros E. apply Hn. lra.
  - field. lra.
  - field. assumption.
  - field. lra.
  - destruct Hp as [_ Hp]. specialize (Hp i Hi). field. assumption.
Qed.
Lemma Rdiv_01 a b : (0 < a /\ a < b) \/ (b < a /\ a < 0) -> 0 < a / b < 1.
Proof.
  intros [[H1 H2]|[H1 H2]].
  - assert (0 < / b) by (apply Rinv_0_lt_compat; lra). split; [apply Rdiv_lt_0_compat; lra|].
    apply (Rmult_lt_reg_r b); [lra|]. unfold Rdiv. rewrite Rmult_assoc, Rinv_l by lra. lra.
  - replace (a / b) with ((- a) / (- b)) by (field; lra). split; [apply Rdiv_lt_0_compat; lra|].
    apply (Rmult_lt_reg_r (- b)); [lra|]. unfold Rdiv. rewrite Rmult_assoc, Rinv_l by lra. lra.
Qed.
Lemma cell_tr_inv n p i u : (i < n)%nat -> params_ok n p -> cell_range p i u -> cellmap p i (cellinv p i u) = u.
Proof.
  intros Hi Hp Hu. pose proof mu_0_pos. destruct p; cbn in *.
  - apply exp_ln. assumption.
  - field. assumption.
  - apply ln_exp.
  - destruct Hp as (_ & _ & Hn). specialize (Hn i Hi).
    set (l := at1 lo i) in *. set (h := at1 up i) in *.
    assert (0 < (u - l) / (h - l) < 1).
    { apply Rdiv_01. unfold Rmin, Rmax in Hu. destruct (Rle_dec l h); [left|right]; lra. }
    replace ((h - l) / (1 + exp (- logit ((u - l) / (h - l))))) with ((h - l) * (1 / (1 + exp (- logit ((u - l) / (h - l)))))) by (unfold Rdiv; ring).
    rewrite expit_logit by assumption. field. intros E. apply Hn. lra.
  - field. lra.
  - field. assumption.
  - field. lra.
  - destruct Hp as [_ Hp]. specialize (Hp i Hi). field. assumption.
Qed.
Lemma cell_in_range n p i x : (i < n)%nat -> params_ok n p -> cell_dom p x -> cell_range p i (cellmap p i x).
Proof.
  intros Hi Hp Hx. destruct p; cbn in *; try exact I.
  - apply exp_pos.
  - unfold Rdiv. rewrite Rmult_1_l. apply Rinv_neq_0_compat. assumption.
  - destruct Hp as (_ & _ & Hn). specialize (Hn i Hi). set (l := at1 lo i) in *. set (h := at1 up i) in *.
    replace ((h - l) / (1 + exp (- x))) with ((h - l) * (1 / (1 + exp (- x)))) by (unfold Rdiv; ring).
    pose proof (expit_bounds x) as B. set (t := 1 / (1 + exp (- x))) in *. unfold Rmin, Rmax. destruct (Rle_dec l h) as [A|A].
    + assert (l < h) by lra. nra.
    + assert (h < l) by lra. nra.
Qed.
Lemma cell_in_dom n p i u : (i < n)%nat -> params_ok n p -> cell_range p i u -> cell_dom p (cellinv p i u).
Proof.
  intros Hi Hp Hu. destruct p; cbn in *; try exact I.
  - unfold Rdiv. rewrite Rmult_1_l. apply Rinv_neq_0_compat. assumption.
  - apply exp_pos.
Qed.

Lemma round_trip_1 p m : params_ok (length m) p -> in_dom p m ->
  exists y, pm_tr p m = Ok y /\ length y = length m /\ in_range p y /\ pm_inv p y = Ok m.
Proof.
  intros Hp Hd. exists (cells p m). split; [apply tr_spec; assumption|]. assert (L := cells_length p m). split; [assumption|].
  split; [intros i Hi; rewrite L in Hi; rewrite nth_cells by assumption; eapply cell_in_range; try eassumption; apply Hd; assumption|].
  destruct (inv_spec p (cells p m)) as (m' & -> & Lm & Am); [rewrite L; assumption|]. rewrite L in *. f_equal.
  apply vec_ext; [assumption|]. intros i Hi. rewrite Lm in Hi. rewrite Am by assumption. rewrite nth_cells by assumption.
  eapply cell_inv_tr; try eassumption. apply Hd. assumption.
Qed.
Lemma round_trip_2 p u : params_ok (length u) p -> in_range p u ->
  exists m, pm_inv p u = Ok m /\ length m = length u /\ in_dom p m /\ pm_tr p m = Ok u.
Proof.
  intros Hp Hr. destruct (inv_spec p u Hp) as (m & E & Lm & Am). exists m. split; [assumption|]. split; [assumption|].
  split; [intros i Hi; rewrite Lm in Hi; rewrite Am by assumption; eapply cell_in_dom; try eassumption; apply Hr; assumption|].
  rewrite tr_spec by (rewrite Lm; assumption). f_equal. apply vec_ext; [rewrite cells_length; assumption|].
  intros i Hi. rewrite cells_length in Hi. rewrite nth_cells by assumption. rewrite Lm in Hi. rewrite Am by assumption.
  eapply cell_tr_inv; try eassumption. apply Hr. assumption.
Qed.

(** ** Derivatives *)
Definition cellder (p : pmap) (i : nat) (x : R) : R :=
  match p with
  | PExp => exp x | PRecip => - (1 / (x * x)) | PLog => log_deriv x
  | PLogistic lo up => (at1 up i - at1 lo i) * expit x * (1 - expit x)
  | PChi => mu_0 | PEffSus a => a | PMuRel => mu_0 | PWeight w => at1 w i
  end.
Lemma dl_eq f x a b : derivable_pt_lim f x a -> a = b -> derivable_pt_lim f x b.
Proof. intros H <-. exact H. Qed.
Lemma dl_ext f g x a : (forall y, f y = g y) -> derivable_pt_lim f x a -> derivable_pt_lim g x a.
Proof. intros E H eps He. destruct (H eps He) as [d Hd]. exists d. intros h Hh Hh2. rewrite <- !E. apply Hd; assumption. Qed.
Lemma dl_affine a b x : derivable_pt_lim (fun y => a * y + b) x a.
Proof.
  intros eps He. exists (mkposreal 1 Rlt_0_1). intros h Hh _. replace ((a * (x + h) + b - (a * x + b)) / h - a) with 0 by (field; assumption).
  rewrite Rabs_R0. assumption.
Qed.
Lemma dl_expit x : derivable_pt_lim expit x (expit x * (1 - expit x)).
Proof.
  pose proof (exp_pos (- x)) as P. unfold expit.
  eapply dl_eq.
  - apply (derivable_pt_lim_div (fun _ => 1) (fun y => 1 + exp (- y)) x 0 (- exp (- x))).
    + apply derivable_pt_lim_const.
    + eapply dl_eq; [apply (derivable_pt_lim_plus (fun _ => 1) (fun y => exp (- y)) x 0 (exp (- x) * -1))|ring].
      * apply derivable_pt_lim_const.
      * apply (derivable_pt_lim_comp (fun y => - y) exp x (-1) (exp (- x))); [|apply derivable_pt_lim_exp].
        eapply dl_ext; [|apply (dl_affine (-1) 0)]. intros. cbn. ring.
    + lra.
  - unfold Rsqr. field. lra.
Qed.
Lemma cell_derivable n p i x : (i < n)%nat -> params_ok n p -> cell_dom p x -> (p = PLog -> / 10000000000000000 <= x) ->
  derivable_pt_lim (cellmap p i) x (cellder p i x).
Proof.
  intros Hi Hp Hx Ht. destruct p; cbn in *.
  - apply derivable_pt_lim_exp.
  - eapply dl_eq.
    + apply (derivable_pt_lim_div (fun _ => 1) (fun y => y) x 0 1); [apply derivable_pt_lim_const|apply derivable_pt_lim_id|assumption].
    + unfold Rsqr. field. assumption.
  - eapply dl_eq; [apply derivable_pt_lim_ln; assumption|]. unfold log_deriv, log_tol. rewrite Rabs_right by lra.
    specialize (Ht eq_refl). destruct (Rle_dec _ x); [|contradiction]. unfold Rdiv. ring.
  - eapply dl_ext with (f := fun y => at1 lo i + (at1 up i - at1 lo i) * expit y); [intros; cbn; unfold expit, Rdiv; ring|].
    eapply dl_eq; [apply (derivable_pt_lim_plus (fun _ => at1 lo i) (fun y => (at1 up i - at1 lo i) * expit y));
      [apply derivable_pt_lim_const|apply derivable_pt_lim_scal, dl_expit]|ring].
  - eapply dl_ext; [|apply (dl_affine mu_0 mu_0)]. intros; cbn; ring.
  - eapply dl_ext; [|apply (dl_affine amb 0)]. intros; cbn; ring.
  - eapply dl_ext; [|apply (dl_affine mu_0 0)]. intros; cbn; ring.
  - eapply dl_ext; [|apply (dl_affine (at1 w i) 0)]. intros; cbn; ring.
Qed.
Lemma frechet_cells p x d : (forall i, (i < length x)%nat -> derivable_pt_lim (cellmap p i) (nth i x 0) (nth i d 0)) ->
  length d = length x -> frechet (length x) (length x) (cells p) x (diagm d).
Proof.
  intros Hd Ld. apply frechet_components; [reflexivity|rewrite <- Ld; apply diagm_mat|intros; rewrite cells_length; assumption|].
  intros i Hi eps He. destruct (Hd i Hi eps He) as [e Hdd]. exists e. split; [apply cond_pos|]. intros h Lh Hh.
  rewrite nth_diagm by congruence. rewrite dot_diag_row by congruence.
  destruct (Nat.ltb_spec i (length d)); [|lia].
  rewrite !nth_cells by (rewrite ?vadd_length; congruence). rewrite nth_vadd by congruence.
  set (t := nth i h 0) in *. pose proof (norm1_nth h i) as Hn. fold t in Hn.
  destruct (Req_EM_T t 0) as [->|Ht].
  - replace (nth i x 0 + 0) with (nth i x 0) by ring. replace (_ - _ - _ * 0) with 0 by ring. rewrite Rabs_R0.
    pose proof (norm1_nonneg h). nra.
  - specialize (Hdd t Ht ltac:(lra)).
    replace (cellmap p i (nth i x 0 + t) - cellmap p i (nth i x 0) - nth i d 0 * t)
       with (((cellmap p i (nth i x 0 + t) - cellmap p i (nth i x 0)) / t - nth i d 0) * t) by (field; assumption).
    rewrite Rabs_mult. pose proof (Rabs_pos t). nra.
Qed.
Lemma mscale_eye c n : mscale c (eye n) = diagm (vconst n c).
Proof.
  unfold mscale, eye, diagm. rewrite !vconst_length, map_map. apply map_ext_in. intros i Hi. apply in_seq in Hi.
  unfold diag_row, vscale. rewrite map_map. apply map_ext. intros j. 
  assert (A : forall c, nth i (vconst n c) 0 = c).
  { intros a. unfold vconst. rewrite nth_indep with (d' := a) by (rewrite repeat_length; lia). apply nth_repeat. }
  rewrite !A. destruct (Nat.eqb j i); ring.
Qed.
Lemma ncol_diagm d : (0 < length d)%nat -> ncol (diagm d) = length d.
Proof. intros H. apply (ncol_mat (length d)); [assumption|apply diagm_mat]. Qed.
(** All the pieces of [deriv] in terms of the diagonal [d]. *)
Lemma deriv_diag p m : (0 < length m)%nat -> params_ok (length m) p -> in_dom p m -> deriv_dom p m ->
  exists d, length d = length m /\ (forall i, (i < length m)%nat -> nth i d 0 = cellder p i (nth i m 0)) /\
    pm_deriv p (Some (length m)) m None = Ok (DSp (diagm d)) /\
    forall v, length v = length m -> pm_deriv p (Some (length m)) m (Some v) = Ok (DV (vmul d v)).
Proof.
  intros Hm Hp Hd Ht.
  assert (SD : forall f, (forall i x, cellder p i x = f x) -> (forall v, pm_deriv p (Some (length m)) m v = by_sdiag (map f m) v) ->
    exists d, length d = length m /\ (forall i, (i < length m)%nat -> nth i d 0 = cellder p i (nth i m 0)) /\
    pm_deriv p (Some (length m)) m None = Ok (DSp (diagm d)) /\
    forall v, length v = length m -> pm_deriv p (Some (length m)) m (Some v) = Ok (DV (vmul d v))).
  { intros f Hf E. exists (map f m). split; [apply map_length|]. split; [intros i Hi; rewrite map_nth_lt, Hf by assumption; reflexivity|].
    split; [rewrite E; reflexivity|]. intros v Lv. rewrite E. cbn [by_sdiag dmul]. rewrite ncol_diagm by (rewrite map_length; assumption).
    rewrite map_length, Lv, Nat.eqb_refl. rewrite mv_diagm by (rewrite map_length; assumption). reflexivity. }
  assert (SC : forall c, (forall i x, cellder p i x = c) -> (forall v, pm_deriv p (Some (length m)) m v = by_scal (Some (length m)) c v) ->
    exists d, length d = length m /\ (forall i, (i < length m)%nat -> nth i d 0 = cellder p i (nth i m 0)) /\
    pm_deriv p (Some (length m)) m None = Ok (DSp (diagm d)) /\
    forall v, length v = length m -> pm_deriv p (Some (length m)) m (Some v) = Ok (DV (vmul d v))).
  { intros c Hc E. exists (vconst (length m) c). split; [apply vconst_length|].
    assert (A : forall i, (i < length m)%nat -> nth i (vconst (length m) c) 0 = c).
    { intros i Hi. unfold vconst. rewrite nth_indep with (d' := c) by (rewrite repeat_length; lia). apply nth_repeat. }
    split; [intros i Hi; rewrite A, Hc by assumption; reflexivity|]. split; [rewrite E; cbn [by_scal]; rewrite mscale_eye; reflexivity|].
    intros v Lv. rewrite E. cbn [by_scal]. do 2 f_equal. rewrite <- Lv. clear. induction v; cbn; [reflexivity|]. f_equal. assumption. }
  destruct p.
  - apply (SD exp); reflexivity.
  - apply (SD (fun x => - (1 / (x * x)))); reflexivity.
  - apply (SD log_deriv); reflexivity.
  - destruct Hp as (Hl & Hu & Hn). set (n := length m) in *.
    assert (Ls : length (map expit m) = n) by apply map_length.
    assert (Lo : length (map (fun x => 1 - x) (map expit m)) = n) by (rewrite map_length; assumption).
    destruct (bzip_ok n Rminus up lo Hu Hl) as (w & Ew & Fw & Aw & _).
    destruct (bzip_ok n Rmult w (map expit m) Fw (or_introl Ls)) as (a & Ea & Fa & Aa & La). specialize (La (or_intror Ls)).
    destruct (bzip_ok n Rmult a _ Fa (or_introl Lo)) as (d & Ed & Fd & Ad & Ld). specialize (Ld (or_intror Lo)).
    exists d. split; [assumption|]. split; [|split].
    + intros i Hi. rewrite <- (fits_at1 n d) by assumption. rewrite Ad, Aa, Aw by assumption.
      rewrite !(fits_at1 n (map _ _)) by assumption. rewrite !map_nth_lt by (rewrite ?map_length; assumption). reflexivity.
    + cbn [pm_deriv]. rewrite Ew. cbn [bind]. rewrite Ea. cbn [bind]. rewrite Ed. reflexivity.
    + intros v Lv. cbn [pm_deriv]. rewrite Ew. cbn [bind]. rewrite Ea. cbn [bind]. rewrite Ed. cbn [bind by_row].
      unfold bzip. rewrite Ld, Lv, Nat.eqb_refl. reflexivity.
  - apply (SC mu_0); reflexivity.
  - apply (SC amb); reflexivity.
  - apply (SC mu_0); reflexivity.
  - cbn in Ht. exists w. split; [assumption|]. split; [|split].
    + intros i Hi. cbn. rewrite (fits_at1 (length m)) by assumption. reflexivity.
    + reflexivity.
    + intros v Lv. cbn [pm_deriv by_row]. unfold bzip. rewrite Ht, Lv, Nat.eqb_refl. reflexivity.
Qed.
Lemma pm_deriv_ok p m : (0 < length m)%nat -> params_ok (length m) p -> in_dom p m -> deriv_dom p m ->
  exists J, pm_deriv p (Some (length m)) m None = Ok (DSp J) /\ frechet (length m) (length m) (cells p) m J /\
    forall v, length v = length m -> pm_deriv p (Some (length m)) m (Some v) = Ok (DV (mv J v)).
Proof.
  intros Hm Hp Hd Ht. destruct (deriv_diag p m Hm Hp Hd Ht) as (d & Ld & Ad & E1 & E2). exists (diagm d).
  split; [assumption|]. split.
  - apply frechet_cells; [|assumption]. intros i Hi. rewrite Ad by assumption. eapply cell_derivable; try eassumption; [apply Hd; assumption|].
    intros ->. apply Ht. assumption.
  - intros v Lv. rewrite E2 by assumption. rewrite mv_diagm by congruence. reflexivity.
Qed.
(** ** Exceptions *)
Lemma log_small x : 0 < x < / 10000000000000000 -> pm_deriv PLog (Some 1%nat) [x] (Some [1]) = Ok (DV [0]) /\
  derivable_pt_lim ln x (/ x) /\ / x <> 0.
Proof.
  intros H. split; [|split; [apply derivable_pt_lim_ln; lra|apply Rinv_neq_0_compat; lra]].
  cbn. unfold log_deriv, log_tol. rewrite Rabs_right by lra. destruct (Rle_dec _ x); [lra|]. do 3 f_equal. ring.
Qed.
Lemma short_weights a b c m : pm_tr (PWeight [c]) [a; b] = Ok [c * a; c * b] /\ pm_deriv (PWeight [c]) (Some 2%nat) m None = Ok (DSp [[c]]).
Proof. split; reflexivity. Qed.
Lemma wildcard_scalings p m : In p [PChi; PMuRel] -> pm_deriv p None m None = Err ValueError.
Proof. intros [<-|[<-|[]]]; reflexivity. Qed.
Lemma logistic_one_cell x : exists p, logistic_init (Some 1%nat) [0; 0] [1; 1] = Ok p /\
  pm_tr p [x] = Ok [0 + (1 - 0) * expit x; 0 + (1 - 0) * expit x] /\ forall y, pm_tr p [x] = Ok y -> pm_inv p y <> Ok [x].
Proof.
  eexists. split.
  - unfold logistic_init. cbn. destruct (Req_EM_T (1 - 0) 0); [lra|]. cbn. reflexivity.
  - split; [reflexivity|]. intros y [= <-]. cbn. discriminate.
Qed.
Lemma logistic_init_ok np lo up : forall p, logistic_init np lo up = Ok p -> p = PLogistic lo up /\
  forall n, np = Some n -> fits n lo /\ fits n up \/ n = 1%nat.
Proof.
  intros p. unfold logistic_init. destruct np as [n|].
  - destruct (bshapes (length lo) n) eqn:E1, (bshapes (length up) n) eqn:E2; cbn; try discriminate.
    destruct (bshapes (length lo) (length up)); try discriminate. destruct (bzip _ _ _); cbn; try discriminate. destruct (existsb _ _); try discriminate.
    intros [= <-]. split; [reflexivity|]. intros ? [= <-]. unfold bshapes, fits in *.
    destruct (Nat.eqb_spec n 1); [auto|]. left. rewrite !orb_false_r in *. apply orb_prop in E1, E2. rewrite !Nat.eqb_eq in *. auto.
  - destruct (bshapes (length lo) (length up)); try discriminate. destruct (bzip _ _ _); cbn; try discriminate. destruct (existsb _ _); try discriminate.
    intros [= <-]. split; [reflexivity|discriminate].
Qed.
(** Accepted bounds (for more than one cell) satisfy the hypotheses of the round trip. *)
Lemma logistic_params n lo up p : (1 < n)%nat -> logistic_init (Some n) lo up = Ok p -> params_ok n p.
Proof.
  intros Hn E. destruct (logistic_init_ok _ _ _ _ E) as [-> F]. destruct (F n eq_refl) as [[Fl Fu]|]; [|lia].
  split; [assumption|]. split; [assumption|]. intros i Hi Heq. unfold logistic_init in E.
  destruct (_ && _); [|discriminate]. destruct (bshapes (length lo) (length up)); [|discriminate].
  destruct (bzip_ok n Rminus up lo Fu Fl) as (e & Ee & Fe & Ae & _). rewrite Ee in E. cbn [bind] in E.
  destruct (existsb _ e) eqn:Ex; [discriminate|]. specialize (Ae i Hi).
  assert (Hin : In (at1 e i) e).
  { destruct Fe as [Le|Le]; [rewrite (fits_at1 n) by assumption; apply nth_In; congruence|]. destruct e as [|x [|]]; try discriminate. left; reflexivity. }
  assert (existsb (fun d => if Req_EM_T d 0 then true else false) e = true).
  { apply existsb_exists. exists (at1 e i). split; [assumption|]. destruct (Req_EM_T (at1 e i) 0); [reflexivity|]. lra. }
  congruence.
Qed.
