(** Impedances, data and sensitivities along a curve of models. *)
From Verif Require Import Py Vec VecDeriv EmpirFacts ParamFacts XyzIOFacts2 Cx Mt1d SpecMt1d Mt1dFacts Mt1dFacts2.
From Coq Require Import Lra.
Local Open Scope R_scope.

Lemma xdot_app a b u v : length a = length u -> xdot (a ++ b) (u ++ v) = xdot a u +x xdot b v.
Proof.
  revert u; induction a as [|d a IH]; intros [|x u] H; cbn in *; try lia; [ring|].
  rewrite IH by lia. ring.
Qed.
Lemma xdot_rev a u : length a = length u -> xdot (rev a) (rev u) = xdot a u.
Proof.
  revert u; induction a as [|d a IH]; intros [|x u] H; cbn in *; try lia; [reflexivity|].
  rewrite xdot_app by (rewrite !rev_length; lia). rewrite IH by lia. cbn. ring.
Qed.
Lemma Re_xdot l v : Re (xdot l v) = dot (map Re l) v.
Proof. revert v; induction l as [|d l IH]; intros [|a v]; cbn; auto. rewrite IH. ring. Qed.
Lemma Im_xdot l v : Im (xdot l v) = dot (map Im l) v.
Proof. revert v; induction l as [|d l IH]; intros [|a v]; cbn; auto. rewrite IH. ring. Qed.

Lemma sweep_length w mu ls : forall gZ zs, length (fst (sweep w mu gZ ls zs)) = length ls.
Proof.
  induction ls as [|l ls IH]; intros gZ zs; cbn; [reflexivity|].
  match goal with |- context [sweep w mu ?g ls ?z] => specialize (IH g z); destruct (sweep w mu g ls z) end.
  cbn in *. lia.
Qed.
Lemma total_xdot w mu : forall ls gs a b, length gs = length ls -> length a = length ls -> length b = length ls ->
  total w mu ls gs (combine a b) =
  xdot (map (fun lg => d_sigma w mu (fst lg) (snd lg)) (combine ls gs)) a
  +x xdot (map (fun lg => d_thick w mu (fst lg) (snd lg)) (combine ls gs)) b.
Proof.
  induction ls as [|l ls IH]; intros [|g gs] [|x a] [|y b] H1 H2 H3; cbn in *; try lia; [ring|].
  rewrite IH by lia. ring.
Qed.

Lemma combine_nth_map {A} n (a b : A -> vec) (s : A) : length (a s) = n -> length (b s) = n ->
  combine (a s) (b s) = map (fun k => (nth k (a s) 0, nth k (b s) 0)) (seq 0 n).
Proof.
  intros HA HB. apply (nth_ext _ _ (0, 0) (0, 0)).
  - rewrite combine_length, map_length, seq_length. lia.
  - intros i Hi. rewrite combine_length in Hi.
    rewrite combine_nth by congruence. rewrite (nth_indep _ (0,0) ((fun k => (nth k (a s) 0, nth k (b s) 0)) 0%nat)) by (rewrite map_length, seq_length; lia).
    rewrite (map_nth (fun k => (nth k (a s) 0, nth k (b s) 0))). rewrite seq_nth by lia. reflexivity.
Qed.

Lemma vderiv_rev n f t f' : vderiv n f t f' -> vderiv n (fun s => rev (f s)) t (rev f').
Proof.
  intros (H1 & H2 & H3). split; [|split].
  - intros s. rewrite rev_length. apply H1.
  - rewrite rev_length. exact H2.
  - intros i Hi. eapply dpl_ext; [|eapply dpl_eq; [|apply (H3 (n - S i)%nat); lia]].
    + intros s. cbn. rewrite rev_nth by (rewrite H1; exact Hi). rewrite H1. reflexivity.
    + rewrite rev_nth by lia. rewrite H2. reflexivity.
Qed.
Lemma Forall_nth_pos l : Forall (fun x => 0 < x) l -> forall i, (i < length l)%nat -> 0 < nth i l 0.
Proof. intros H i Hi. rewrite Forall_forall in H. apply H. now apply nth_In. Qed.

Lemma imp_deriv mu f n (S T : R -> vec) t S' T' : 0 < mu -> 0 < f ->
  vderiv (Datatypes.S n) S t S' -> vderiv n T t T' ->
  Forall (fun x => 0 < x) (S t) -> Forall (fun x => 0 < x) (T t) ->
  exists Zf ds dt, (forall s, impedance mu f (S s) (T s) = Ok (Zf s)) /\
    impedance_deriv mu f (S t) (T t) = Ok (Zf t, ds, dt) /\
    length ds = Datatypes.S n /\ length dt = n /\
    cdl Zf t (xdot ds S' +x xdot dt T') /\ good (Zf t).
Proof.
  intros Hmu Hf DS DT PS PT.
  assert (Hw : 0 < 2 * PI * f) by (pose proof PI_RGT_0; nra).
  set (w := 2 * PI * f) in *.
  pose proof (vderiv_rev _ _ _ _ (vderiv_tl _ _ _ _ DS)) as DA.
  pose proof (vderiv_rev _ _ _ _ DT) as DTr.
  set (cs := map (fun k => ((fun s => nth k (rev (tl (S s))) 0), (fun s => nth k (rev (T s)) 0))) (seq 0 n)).
  set (vs := map (fun k => (nth k (rev (tl S')) 0, nth k (rev T') 0)) (seq 0 n)).
  assert (Hat : forall s, at_ cs s = combine (rev (tl (S s))) (rev (T s))).
  { intros s. unfold at_, cs. rewrite map_map. cbn.
    rewrite (combine_nth_map n (fun s => rev (tl (S s))) (fun s => rev (T s)) s); [reflexivity|apply DA|apply DTr]. }
  assert (HF : Forall2 (fun c v => derivable_pt_lim (fst c) t (fst v) /\ derivable_pt_lim (snd c) t (snd v)) cs vs).
  { unfold cs, vs. assert (G : forall ks, (forall k, In k ks -> (k < n)%nat) ->
      Forall2 (fun c v => derivable_pt_lim (fst c) t (fst v) /\ derivable_pt_lim (snd c) t (snd v))
        (map (fun k => ((fun s => nth k (rev (tl (S s))) 0), (fun s => nth k (rev (T s)) 0))) ks)
        (map (fun k => (nth k (rev (tl S')) 0, nth k (rev T') 0)) ks)).
    { induction ks as [|k ks IH]; intros Hk; cbn; constructor.
      - cbn. split; [apply DA|apply DTr]; apply Hk; left; reflexivity.
      - apply IH. intros k' H'. apply Hk. right. exact H'. }
    apply G. intros k Hk. apply in_seq in Hk. lia. }
  destruct DS as (L1 & L2 & D3). destruct DT as (K1 & K2 & K3).
  assert (HSc : forall s, S s = nth 0 (S s) 0 :: tl (S s)).
  { intros s. specialize (L1 s). destruct (S s); [discriminate|reflexivity]. }
  assert (HPL : pos_layers (at_ cs t)).
  { rewrite Hat. unfold pos_layers. rewrite Forall_forall in PS, PT. apply Forall_forall. intros [a b] Hab. cbn. split.
    - apply in_combine_l in Hab. apply in_rev in Hab. apply PS. rewrite HSc. right. exact Hab.
    - apply in_combine_r in Hab. apply in_rev in Hab. apply PT. exact Hab. }
  assert (Hb : 0 < nth 0 (S t) 0) by (apply Forall_nth_pos; [exact PS|rewrite L1; lia]).
  destruct (Z_deriv w mu Hw Hmu (fun s => nth 0 (S s) 0) t (nth 0 S' 0) (D3 0%nat ltac:(lia)) Hb cs vs HF HPL) as (D & HD & HG).
  exists (fun s => Ztop w mu (at_ cs s) (nth 0 (S s) 0)).
  specialize (HG x1). destruct (sweep w mu x1 (at_ cs t) (Zs w mu (at_ cs t) (nth 0 (S t) 0))) as [gs gb] eqn:Es.
  assert (Lgs : length gs = length (at_ cs t)).
  { pose proof (sweep_length w mu (at_ cs t) x1 (Zs w mu (at_ cs t) (nth 0 (S t) 0))) as X. rewrite Es in X. exact X. }
  assert (Lat : length (at_ cs t) = n) by (unfold at_, cs; rewrite !map_length, seq_length; reflexivity).
  exists (d_sigma_b w mu (nth 0 (S t) 0) gb :: rev (map (fun lg => d_sigma w mu (fst lg) (snd lg)) (combine (at_ cs t) gs))),
         (rev (map (fun lg => d_thick w mu (fst lg) (snd lg)) (combine (at_ cs t) gs))).
  assert (HL : forall s, layers (S s) (T s) = Ok (at_ cs s, nth 0 (S s) 0)).
  { intros s. rewrite Hat. rewrite (HSc s) at 1. cbn. 
    assert (E : length (tl (S s)) = length (T s)) by (rewrite K1; specialize (L1 s); destruct (S s); [discriminate|cbn in *; lia]).
    rewrite E, Nat.eqb_refl. reflexivity. }
  split; [|split; [|split; [|split; [|split]]]].
  - intros s. unfold impedance. rewrite HL. reflexivity.
  - unfold impedance_deriv. rewrite HL. cbn -[Zs]. fold w. rewrite Es. reflexivity.
  - cbn. rewrite rev_length, map_length, combine_length. lia.
  - rewrite rev_length, map_length, combine_length. lia.
  - eapply cdl_eq; [|exact HD]. transitivity (x1 *x D); [ring|]. rewrite HG.
    assert (Evs : vs = combine (rev (tl S')) (rev T')).
    { unfold vs. symmetry. apply (combine_nth_map n (fun _ : unit => rev (tl S')) (fun _ => rev T') tt).
      - rewrite rev_length. destruct S'; [discriminate|cbn in *; lia].
      - rewrite rev_length. exact K2. }
    assert (ES' : S' = nth 0 S' 0 :: tl S') by (destruct S'; [discriminate|reflexivity]).
    assert (LtS' : length (tl S') = n) by (destruct S'; [discriminate|cbn in *; lia]).
    rewrite Evs, total_xdot by (rewrite ?rev_length; lia).
    assert (EX : xdot (d_sigma_b w mu (nth 0 (S t) 0) gb :: rev (map (fun lg => d_sigma w mu (fst lg) (snd lg)) (combine (at_ cs t) gs))) S'
      = d_sigma_b w mu (nth 0 (S t) 0) gb *x xr (nth 0 S' 0) +x xdot (rev (map (fun lg => d_sigma w mu (fst lg) (snd lg)) (combine (at_ cs t) gs))) (tl S'))
      by (destruct S'; [discriminate|reflexivity]).
    rewrite EX.
    set (A := map (fun lg => d_sigma w mu (fst lg) (snd lg)) (combine (at_ cs t) gs)).
    set (B := map (fun lg => d_thick w mu (fst lg) (snd lg)) (combine (at_ cs t) gs)).
    assert (LA : length A = n) by (unfold A; rewrite map_length, combine_length; lia).
    assert (LB : length B = n) by (unfold B; rewrite map_length, combine_length; lia).
    rewrite <- (xdot_rev A (rev (tl S'))) by (rewrite rev_length; lia).
    rewrite <- (xdot_rev B (rev T')) by (rewrite rev_length; lia).
    rewrite !rev_involutive. ring.
  - apply good_Z; assumption.
Qed.

(** ** Components *)
Lemma arctan2_dpl (y x : R -> R) t y' x' : derivable_pt_lim y t y' -> derivable_pt_lim x t x' -> x t < 0 -> y t < 0 ->
  derivable_pt_lim (fun s => arctan2 (y s) (x s)) t (- y t / (x t ^ 2 + y t ^ 2) * x' + x t / (x t ^ 2 + y t ^ 2) * y').
Proof.
  intros Dy Dx Hx Hy.
  assert (cont : forall g t0 g', derivable_pt_lim g t0 g' -> g t0 < 0 -> exists d, 0 < d /\ forall h, Rabs h < d -> g (t0 + h) < 0).
  { intros g t0 g' Dg Hg.
    assert (C : continuity_pt g t0) by (apply derivable_continuous_pt; exists g'; exact Dg).
    destruct (C (- g t0) ltac:(lra)) as (a & Ha & K). exists a. split; [exact Ha|]. intros h Hh.
    destruct (Req_dec h 0) as [->|Hn]; [rewrite Rplus_0_r; exact Hg|].
    specialize (K (t0 + h)). cbn in K. unfold R_dist in K.
    assert (Rabs (g (t0 + h) - g t0) < - g t0) as B.
    { apply K. split; [split; [exact I|intros E; apply Hn; lra]|]. replace (t0 + h - t0) with h by ring. exact Hh. }
    apply Rabs_def2 in B. lra. }
  destruct (cont x t x' Dx Hx) as (d1 & P1 & Q1). destruct (cont y t y' Dy Hy) as (d2 & P2 & Q2).
  apply (dpl_local (fun s => atan (y s / x s) - PI)).
  - exists (Rmin d1 d2). split; [apply Rmin_pos; assumption|]. intros h Hh.
    assert (B1 : Rabs h < d1) by (eapply Rlt_le_trans; [exact Hh|apply Rmin_l]).
    assert (B2 : Rabs h < d2) by (eapply Rlt_le_trans; [exact Hh|apply Rmin_r]).
    specialize (Q1 h B1). specialize (Q2 h B2). unfold arctan2.
    destruct (Rlt_dec 0 (x (t + h))); [lra|]. destruct (Rlt_dec (x (t + h)) 0); [|lra].
    destruct (Rlt_dec (y (t + h)) 0); [reflexivity|lra].
  - eapply dpl_eq; [|apply dpl_minus; [apply dpl_atan; apply dpl_div; [exact Dy|exact Dx|lra]|apply dpl_const]].
    cbn beta. assert (0 < x t * x t) by nra. field. repeat split; nra.
Qed.

Lemma sqrt_nrm2 Z : sqrt (nrm2 Z) ^ 2 = nrm2 Z.
Proof. apply pow2_sqrt. unfold nrm2. nra. Qed.

Lemma datum_measured mu f Z c : c <> CComplex -> datum mu f Z c = [measured mu f Z c].
Proof. destruct c; intros H; cbn -[sqrt pow]; try reflexivity; [|contradiction]. rewrite sqrt_nrm2. reflexivity. Qed.

Lemma measured_deriv mu f (Zf : R -> cx) t row v c : 0 < mu -> 0 < f -> c <> CComplex ->
  cdl Zf t (xdot row v) -> good (Zf t) ->
  exists r, jrow mu f (Zf t) row c = Some r /\ length r = length row /\
    derivable_pt_lim (fun s => measured mu f (Zf s) c) t (dot r v).
Proof.
  intros Hmu Hf Hc [D1 D2] HG. apply good_quadrant in HG. destruct HG as [G1 G2].
  pose proof PI_RGT_0 as PP.
  assert (dmap : forall g a b, (forall d, g d = a * Re d + b * Im d) ->
     dot (map g row) v = a * Re (xdot row v) + b * Im (xdot row v)).
  { intros g a b E. rewrite Re_xdot, Im_xdot. clear - E. revert v.
    induction row as [|d l IH]; intros [|x v]; cbn; try ring. rewrite E, IH. ring. }
  destruct c; cbn [jrow measured]; try contradiction; eexists; (split; [reflexivity|]); (split; [apply map_length|]).
  - rewrite <- Re_xdot. exact D1.
  - rewrite <- Im_xdot. exact D2.
  - rewrite (dmap _ (/ (PI * f * mu) * Re (Zf t)) (/ (PI * f * mu) * Im (Zf t))) by (intros; ring).
    unfold nrm2. eapply dpl_ext; [|eapply dpl_eq; [|apply (dpl_scal (/ (2 * PI * f * mu))); apply dpl_plus; [apply (dpl_mult _ _ _ _ _ D1 D1)|apply (dpl_mult _ _ _ _ _ D2 D2)]]].
    + intros s. cbv beta. field. repeat split; lra.
    + cbv beta. field. repeat split; lra.
  - set (b := Re (Zf t) ^ 2 + Im (Zf t) ^ 2).
    rewrite (dmap _ (180 / PI * (- Im (Zf t) / b)) (180 / PI * (Re (Zf t) / b))) by (intros; ring).
    eapply dpl_eq; [|apply (dpl_scal (180 / PI)); apply (arctan2_dpl (fun s => Im (Zf s)) (fun s => Re (Zf s))); eassumption].
    cbn beta. fold b. ring.
Qed.

(** ** Frequencies *)
Lemma searchsorted_nth : forall l f, (forall i j, (i < j < length l)%nat -> nth i l 0 < nth j l 0) -> In f l ->
  (searchsorted l f < length l)%nat /\ nth (searchsorted l f) l 0 = f.
Proof.
  induction l as [|g l IH]; intros f HS Hin; [destruct Hin|]. cbn [searchsorted].
  destruct Hin as [->|Hin].
  - destruct (Rlt_dec f f); [lra|]. cbn. split; [lia|reflexivity].
  - assert (g < f) as L.
    { destruct (In_nth _ _ 0 Hin) as (k & Hk & E). rewrite <- E. apply (HS 0%nat (S k)). cbn. lia. }
    destruct (Rlt_dec g f); [|contradiction].
    assert (HS' : forall i j, (i < j < length l)%nat -> nth i l 0 < nth j l 0).
    { intros i j Hij. apply (HS (S i) (S j)). cbn. lia. }
    destruct (IH f HS' Hin) as [A B]. cbn. split; [lia|exact B].
Qed.
Definition incr (l : list R) : Prop := forall i j, (i < j < length l)%nat -> nth i l 0 < nth j l 0.
Lemma incr_cons g l : incr l -> (forall x, In x l -> g < x) -> incr (g :: l).
Proof.
  intros H K [|i] [|j] Hij; cbn in *; try lia.
  - apply K. apply nth_In. lia.
  - apply H. lia.
Qed.
Lemma incr_inv g l : incr (g :: l) -> incr l /\ forall x, In x l -> g < x.
Proof.
  intros H. split.
  - intros i j Hij. apply (H (S i) (S j)). cbn. lia.
  - intros x Hx. destruct (In_nth _ _ 0 Hx) as (k & Hk & <-). apply (H 0%nat (S k)). cbn. lia.
Qed.
Lemma insert_in f l x : In x (insert_f f l) <-> x = f \/ In x l.
Proof.
  induction l as [|g l IH]; cbn; [intuition congruence|].
  destruct (Req_EM_T f g) as [->|N]; [cbn; intuition congruence|].
  destruct (Rlt_dec f g); cbn; [intuition congruence|]. rewrite IH. intuition congruence.
Qed.
Lemma insert_incr f l : incr l -> incr (insert_f f l).
Proof.
  induction l as [|g l IH]; cbn; intros H.
  - intros i j Hij. cbn in Hij. lia.
  - destruct (Req_EM_T f g) as [->|N]; [exact H|]. apply incr_inv in H. destruct H as [H K].
    destruct (Rlt_dec f g).
    + apply incr_cons; [apply incr_cons; assumption|]. intros x [<-|Hx]; [assumption|]. specialize (K x Hx). lra.
    + apply incr_cons; [auto|]. intros x Hx. apply insert_in in Hx. destruct Hx as [->|Hx]; [lra|auto].
Qed.
Lemma frequencies_ok ss : incr (frequencies ss) /\ forall f, In f (frequencies ss) <-> exists c, In c ss /\ s_freq c = f.
Proof.
  unfold frequencies.
  assert (G : forall acc, incr acc -> incr (fold_left (fun acc s => insert_f (s_freq s) acc) ss acc) /\
     forall f, In f (fold_left (fun acc s => insert_f (s_freq s) acc) ss acc) <-> In f acc \/ exists c, In c ss /\ s_freq c = f).
  { induction ss as [|c ss IH]; intros acc H; cbn.
    - split; [exact H|]. intros f. split; [auto|]. intros [A|(c & [] & _)]. exact A.
    - destruct (IH _ (insert_incr (s_freq c) acc H)) as [A B]. split; [exact A|]. intros f. rewrite B, insert_in. split.
      + intros [[->|X]|(c' & X & Y)]; eauto.
      + intros [X|(c' & [<-|X] & Y)]; [left; right; exact X|left; left; congruence|right; eauto]. }
  destruct (G [] ltac:(intros i j Hij; cbn in Hij; lia)) as [A B]. split; [exact A|].
  intros f. rewrite B. split; [intros [[]|X]; exact X|auto].
Qed.
