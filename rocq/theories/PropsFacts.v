(** Proofs about physical properties and the model setter. *)
From Verif Require Import Py Vec VecDeriv PropsM SpecProps CgFacts.
Local Open Scope R_scope.

Lemma holds_step st d o : holds_exactly st d -> holds_exactly (pstep st o) (def_step d o).
Proof.
  intros [Hv Hm]. split.
  - intros s v. specialize (Hv s v) as Hvs.
    destruct o as [s0 v0|s0 m0|s0|s0|]; cbn.
    + destruct s0, s; cbn; split; intros E; try discriminate; congruence.
    + destruct s0, s; cbn; split; intros E; try discriminate; congruence.
    + pose proof (Hv P) as HP. pose proof (Hv Q) as HQ. cbn in HP, HQ.
      destruct d as [[sd vd|sd md]|]; [|destruct s0, s; cbn in *; firstorder congruence|destruct s0, s; cbn in *; firstorder congruence].
      destruct s0, s, sd; cbn in *; split; intros E; try discriminate; try congruence;
        (apply Hvs in E || apply HP in E || apply HQ in E || apply HP || apply HQ); congruence.
    + destruct d as [[sd vd|sd md]|]; destruct s0, s; cbn in *; try exact Hvs; try (destruct sd; cbn; exact Hvs);
        destruct sd; cbn; rewrite Hvs; split; intros; congruence.
    + exact Hvs.
  - intros s m. specialize (Hm s m) as Hms.
    destruct o as [s0 v0|s0 m0|s0|s0|]; cbn.
    + destruct s0, s; cbn; split; intros E; try discriminate; congruence.
    + destruct s0, s; cbn; split; intros E; try discriminate; congruence.
    + destruct d as [[sd vd|sd md]|]; destruct s0, s; cbn in *; try exact Hms; try (destruct sd; cbn; exact Hms);
        destruct sd; cbn; rewrite Hms; split; intros; congruence.
    + pose proof (Hm P) as HP. pose proof (Hm Q) as HQ. cbn in HP, HQ.
      destruct d as [[sd vd|sd md]|]; [destruct s0, s; cbn in *; firstorder congruence| |destruct s0, s; cbn in *; firstorder congruence].
      destruct s0, s, sd; cbn in *; split; intros E; try discriminate; try congruence;
        (apply Hms in E || apply HP in E || apply HQ in E || apply HP || apply HQ); congruence.
    + exact Hms.
Qed.
Lemma holds_run ops : holds_exactly (fold_left pstep ops pst0) (current_def ops).
Proof.
  unfold current_def. assert (H0 : holds_exactly pst0 None) by (split; intros [] ?; cbn; split; discriminate).
  revert H0. generalize pst0 (@None def). induction ops as [|o ops IH]; intros st d H; cbn; [assumption|].
  apply IH, holds_step, H.
Qed.

(** ** Reciprocals *)
Lemma vinv_nth v i : (i < length v)%nat -> nth i (vinv v) 0 = 1 / nth i v 0.
Proof. intros. unfold vinv. rewrite (map_nth_lt (fun x => 1 / x)) by assumption. reflexivity. Qed.
Lemma vinv_length v : length (vinv v) = length v.
Proof. apply map_length. Qed.
Lemma recip_vinv_l v : recip_pair (vinv v) v.
Proof.
  split; [apply vinv_length|]. intros i Hi Ha Hb. rewrite vinv_length in Hi. rewrite vinv_nth by assumption. field. assumption.
Qed.
Lemma recip_sym a b : recip_pair a b -> recip_pair b a.
Proof. intros [L H]. split; [auto|]. intros i Hi Ha Hb. rewrite Rmult_comm. apply H; auto; lia. Qed.
Lemma read_recip opt model ops a b : let st := fold_left pstep ops pst0 in
  read_value opt model st P = Ok (Some a) -> read_value opt model st Q = Ok (Some b) -> recip_pair a b.
Proof.
  cbn zeta. pose proof (holds_run ops) as [Hv Hm]. set (st := fold_left pstep ops pst0) in *. unfold read_value, read_map.
  cbn [other].
  destruct (getv st P) as [v|] eqn:EP.
  - apply Hv in EP. destruct (getv st Q) as [w|] eqn:EQ; [apply Hv in EQ; congruence|].
    intros [= <-] [= <-]. apply recip_sym, recip_vinv_l.
  - destruct (getv st Q) as [w|] eqn:EQ.
    + intros [= <-] [= <-]. apply recip_vinv_l.
    + destruct (getm st P) as [m|] eqn:MP; destruct (getm st Q) as [m'|] eqn:MQ; cbn [option_map];
        try (apply Hm in MP; apply Hm in MQ; congruence); destruct model as [x|]; try discriminate; try (destruct opt; discriminate).
      * intros [= <-] [= <-]. apply recip_sym, recip_vinv_l.
      * intros [= <-] [= <-]. apply recip_vinv_l.
Qed.
Lemma read_both opt model ops a : let st := fold_left pstep ops pst0 in
  forall s, read_value opt model st s = Ok (Some a) -> exists b, read_value opt model st (other s) = Ok (Some b).
Proof.
  cbn zeta. set (st := fold_left pstep ops pst0). intros s. unfold read_value, read_map.
  replace (other (other s)) with s by (destruct s; reflexivity).
  destruct (getv st s) as [v|]; destruct (getv st (other s)) as [w|]; eauto.
  destruct (getm st s) as [m|]; destruct (getm st (other s)) as [m'|]; cbn [option_map]; destruct model; try discriminate; eauto.
  all: destruct opt; discriminate.
Qed.
(** The derivative of the reciprocal is the chain rule. *)
Lemma scale_rows_mv d J v : length d = length J -> mv (scale_rows d J) v = vmul d (mv J v).
Proof.
  revert J; induction d as [|x d IH]; intros [|r J] H; cbn in *; try lia; [reflexivity|].
  unfold scale_rows, mv, vmul in *. cbn. f_equal; [|apply IH; lia]. fold (vscale x r). apply dot_vscale_l.
Qed.
Lemma recip_map_jacobian n k m x : length (pm_deriv m x) = k -> length x = n ->
  has_jacobian n k (pm_val m) x (mv (pm_deriv m x)) ->
  (forall i, (i < k)%nat -> nth i (pm_val m x) 0 <> 0) ->
  has_jacobian n k (pm_val (recip_map m)) x (mv (pm_deriv (recip_map m) x)).
Proof.
  intros LJ Lx HJ Hnz h Lh. destruct (HJ h Lh) as (H1 & H2 & H3).
  assert (E0 : vadd x (vscale 0 h) = x).
  { rewrite vscale_0, Lh. apply vadd_zero_r. assumption. }
  assert (Lv : length (pm_val m x) = k) by (rewrite <- E0; apply H1).
  cbn [recip_map pm_val pm_deriv]. rewrite scale_rows_mv by (rewrite map_length; congruence).
  split; [intros t; rewrite vinv_length; apply H1|]. split; [rewrite vmul_length; rewrite ?map_length, ?mv_length; congruence|].
  intros i Hi. rewrite nth_vmul by (rewrite ?map_length, ?mv_length; congruence).
  rewrite (map_nth_lt (fun y => - / (y * y))) by congruence.
  apply (dpl_ext (fun t => 1 / nth i (pm_val m (vadd x (vscale t h))) 0)).
  { intros t. rewrite vinv_nth; [reflexivity|rewrite H1; assumption]. }
  specialize (H3 i Hi). specialize (Hnz i Hi).
  eapply dpl_eq; [|apply (derivable_pt_lim_div (fun _ => 1) (fun t => nth i (pm_val m (vadd x (vscale t h))) 0) 0 0 (nth i (mv (pm_deriv m x) h) 0)); [apply dpl_const|exact H3|rewrite E0; exact Hnz]].
  rewrite E0. unfold Rsqr. field. exact Hnz.
Qed.
Lemma read_deriv_recip ops x s m : let st := fold_left pstep ops pst0 in
  getm st s = Some m ->
  read_deriv (Some x) st s = Some (pm_deriv m x) /\ read_deriv (Some x) st (other s) = Some (pm_deriv (recip_map m) x).
Proof.
  cbn zeta. pose proof (holds_run ops) as [Hv Hm]. set (st := fold_left pstep ops pst0) in *. intros E.
  unfold read_deriv, read_map. rewrite E. split; [reflexivity|].
  destruct (getm st (other s)) as [m'|] eqn:E'.
  - apply Hm in E, E'. destruct s; cbn in *; congruence.
  - replace (other (other s)) with s by (destruct s; reflexivity). rewrite E. reflexivity.
Qed.

(** ** Caches *)
Section CacheFacts.
  Context {V : Type} (f : vec -> V).
  Lemma upd_nth l i j v : i <> j -> nth j (upd l i v) [] = nth j l [].
  Proof.
    revert i j; induction l as [|x l IH]; intros [|i] [|j] H; cbn; auto; try congruence.
  Qed.
  Lemma upd_length l i v : length (upd l i v) = length l.
  Proof. revert i; induction l as [|x l IH]; intros [|i]; cbn; auto. Qed.
  Definition cinv (s : cst (V := V)) : Prop :=
    (forall j, cur s = Some j -> (j < length (heap s))%nat) /\
    (forall c, cached s = Some c -> exists j, cur s = Some j /\ c = f (deref s j)).
  Lemma cinv_step s o : cinv s -> clean_op s o -> cinv (fst (fst (cstep f s o))) /\
    (forall c, snd (cstep f s o) = Some c -> exists j, cur s = Some j /\ c = f (deref s j)).
  Proof.
    intros [HB HI] Hc. destruct o as [v|i v|i|]; cbn [cstep].
    - cbn. split; [|discriminate]. split.
      + intros j Hj. cbn; rewrite app_length. specialize (HB j Hj). cbn. lia.
      + intros c Hcc. destruct (HI c Hcc) as (j & Hj & ->). exists j. split; [assumption|].
        unfold deref. cbn. rewrite app_nth1; [reflexivity|]. apply HB; assumption.
    - cbn. split; [|discriminate]. split.
      + intros j Hj. cbn in *. rewrite upd_length. auto.
      + intros c Hcc. destruct (HI c Hcc) as (j & Hj & ->). exists j. split; [assumption|].
        unfold deref. cbn. rewrite upd_nth; [reflexivity|]. cbn in Hc. congruence.
    - destruct Hc as [Hi Hc]. destruct (cur s) as [j|] eqn:Ej.
      + destruct (Nat.eqb_spec i j) as [->|Hne]; cbn; [split; [split; [rewrite Ej; auto|rewrite Ej; auto]|discriminate]|].
        destruct (Hc j eq_refl) as [E|[E|[e E]]].
        * destruct (allclose (deref s j) (deref s i)) as [[|]|e] eqn:Ea; cbn.
          -- split; [|discriminate]. split; [intros k [= <-]; assumption|]. intros c Hcc.
             destruct (HI c Hcc) as (j' & [= <-] & ->). exists i. split; [reflexivity|]. unfold deref in *. cbn. rewrite E. reflexivity.
          -- split; [|discriminate]. split; [intros k [= <-]; assumption|]. discriminate.
          -- split; [|discriminate]. split; [rewrite Ej; auto|]. rewrite Ej; auto.
        * rewrite E. cbn. split; [|discriminate]. split; [intros k [= <-]; assumption|]. discriminate.
        * rewrite E. cbn. split; [|discriminate]. split; [rewrite Ej; auto|]. rewrite Ej; auto.
      + cbn. split; [|discriminate]. split; [intros k [= <-]; assumption|]. discriminate.
    - destruct (cached s) as [c|] eqn:Ec; cbn.
      + split; [split; [auto|rewrite Ec; auto]|]. intros c' [= <-]. apply HI. reflexivity.
      + destruct (cur s) as [j|] eqn:Ej; cbn.
        * split; [|intros c [= <-]; eauto]. split; [rewrite <- Ej in HB; rewrite Ej in *; auto|].
          intros c [= <-]. exists j. auto.
        * split; [|discriminate]. split; [rewrite Ej; auto|]. rewrite Ec. discriminate.
  Qed.
  Lemma clean_read ops : clean f cst0 ops -> forall c, snd (cstep f (crun f ops cst0) Read) = Some c ->
    exists j, cur (crun f ops cst0) = Some j /\ c = f (deref (crun f ops cst0) j).
  Proof.
    assert (G : forall s, cinv s -> clean f s ops -> cinv (crun f ops s)).
    { unfold crun. induction ops as [|o ops IH]; intros s HI Hc; cbn in *; [assumption|]. destruct Hc as [Hc1 Hc2].
      apply IH; [|assumption]. apply cinv_step; assumption. }
    intros Hc. apply (cinv_step _ Read); [|exact I]. apply G; [|assumption]. split; cbn; discriminate.
  Qed.
  (** Drift: a slow sequence of assignments carries the model arbitrarily far while
      the cached quantity stays that of the first model. *)
  Definition drift_model (k : nat) : vec := [1 + INR k * / 100000].
  Definition drift_ops (n : nat) : list cop :=
    New (drift_model 0) :: Assign 0 :: Read :: flat_map (fun k => [New (drift_model k); Assign k]) (seq 1 n).
  Lemma drift_close k : allclose (drift_model k) (drift_model (S k)) = Ok true.
  Proof.
    unfold allclose, drift_model. cbn [length Nat.eqb combine forallb fst snd]. unfold close.
    destruct (Rle_dec _ _) as [|Hn]; [reflexivity|exfalso; apply Hn].
    rewrite S_INR. pose proof (pos_INR k).
    replace (1 + INR k * / 100000 - (1 + (INR k + 1) * / 100000)) with (- / 100000) by ring.
    rewrite Rabs_Ropp, Rabs_right by lra. rewrite Rabs_right by lra. nra.
  Qed.
  Lemma drift n : let s := crun f (drift_ops n) cst0 in
    cur s = Some n /\ deref s n = drift_model n /\ snd (cstep f s Read) = Some (f (drift_model 0)).
  Proof.
    cbn zeta.
    assert (G : forall n, crun f (drift_ops n) cst0 =
       mkCst (map drift_model (seq 0 (S n))) (Some n) (Some (f (drift_model 0)))).
    { clear n. induction n as [|n IH]; [reflexivity|].
      unfold drift_ops in *. rewrite seq_S, flat_map_app.
      change (?a :: ?b :: ?c :: ?l1 ++ ?l2) with ((a :: b :: c :: l1) ++ l2).
      unfold crun in *. rewrite fold_left_app, IH. clear IH. cbn [flat_map app fold_left cstep fst heap cur cached plus].
      replace (Nat.eqb (S n) n) with false by (symmetry; apply Nat.eqb_neq; lia).
      assert (Lm : length (map drift_model (seq 0 (S n))) = S n) by (rewrite map_length, seq_length; reflexivity).
      unfold deref. cbn [heap].
      rewrite (app_nth1 _ _ _ (n := n)) by (rewrite Lm; lia).
      rewrite (app_nth2 _ _ _ (n := S n)) by (rewrite Lm; lia).
      replace (S n - length (map drift_model (seq 0 (S n))))%nat with 0%nat by (rewrite Lm; lia). cbn [nth].
      rewrite (nth_indep _ [] (drift_model 0)) by (rewrite Lm; lia).
      rewrite map_nth, seq_nth by lia. cbn [plus]. rewrite drift_close. cbn [fst].
      rewrite (seq_S (S n)), map_app. reflexivity. }
    rewrite G. split; [reflexivity|]. split; [|reflexivity].
    unfold deref. cbn [heap]. rewrite (nth_indep _ [] (drift_model 0)) by (rewrite map_length, seq_length; lia).
    rewrite map_nth, seq_nth by lia. reflexivity.
  Qed.
  (** Editing the model array in place and assigning it again. *)
  Lemma inplace a b : let s := crun f [New a; Assign 0; Read; Mutate 0 b; Assign 0] cst0 in
    cur s = Some 0%nat /\ deref s 0 = b /\ snd (cstep f s Read) = Some (f a).
  Proof. repeat split; reflexivity. Qed.
  (** A one-element model followed by a longer model with the same value. *)
  Lemma broadcast x n : let v := repeat x (S (S n)) in
    let s := crun f [New [x]; Assign 0; Read; New v; Assign 1] cst0 in
    cur s = Some 1%nat /\ deref s 1 = v /\ snd (cstep f s Read) = Some (f [x]).
  Proof.
    cbn zeta. set (v := repeat x (S (S n))).
    assert (E : allclose [x] v = Ok true).
    { unfold allclose. unfold v at 1. cbn [length Nat.eqb repeat].
      f_equal. apply forallb_forall. intros y Hy. apply repeat_spec in Hy as ->. unfold close.
      destruct (Rle_dec _ _) as [|Hn]; [reflexivity|exfalso; apply Hn]. rewrite Rminus_eq_0, Rabs_R0.
      pose proof (Rabs_pos x). nra. }
    unfold crun. cbn [fold_left cstep fst heap cur cached app cst0 Nat.eqb deref nth]. rewrite E. cbn. auto.
  Qed.
End CacheFacts.

(** ** Nested modelers *)
Section HmInd.
  Variable (PP : hm -> Prop) (Hhm : forall n m c l, Forall PP l -> PP (HM n m c l)).
  Fixpoint hm_ind' (h : hm) : PP h :=
    match h with
    | HM n m c l => Hhm n m c l ((fix go (l : list hm) : Forall PP l :=
        match l with [] => Forall_nil _ | x :: l' => Forall_cons _ (hm_ind' x) (go l') end) l)
    end.
End HmInd.
Lemma Forall2_refl' {A} (Q : A -> A -> Prop) l : Forall (fun x => Q x x) l -> Forall2 Q l l.
Proof. induction 1; constructor; auto. Qed.
Lemma Forall2_impl {A B} (Q Q' : A -> B -> Prop) l l' : (forall x y, Q x y -> Q' x y) -> Forall2 Q l l' -> Forall2 Q' l l'.
Proof. induction 2; constructor; auto. Qed.
Lemma same_models_refl h : same_models h h.
Proof. induction h as [n m c l IH] using hm_ind'. constructor. apply Forall2_refl'. exact IH. Qed.
Lemma in_height x l k : In x l -> (S (fold_right (fun c a => Nat.max (height c) a) 0%nat l) <= S k)%nat -> (height x <= k)%nat.
Proof. revert k. induction l as [|y l IH]; intros k Hin H; cbn in *; [tauto|]. destruct Hin as [->|Hin]; [lia|]. apply IH; [assumption|lia]. Qed.

Definition compat (u v : vec) : Prop := exists b, allclose u v = Ok b.
Lemma allclose_spec u v : (exists e, allclose u v = Err e) <-> length u <> length v /\ length u <> 1%nat /\ length v <> 1%nat.
Proof.
  unfold allclose. destruct (Nat.eqb_spec (length u) (length v)) as [E|E]; [split; [intros [? ?]; discriminate|lia]|].
  destruct u as [|a [|a' u]]; destruct v as [|b [|b' v]]; cbn in *; split; try (intros [? ?]; discriminate); try lia; intros; try (eexists; reflexivity); lia.
Qed.
Lemma compat_sym u v : compat u v -> compat v u.
Proof.
  intros [b H]. unfold compat. destruct (allclose v u) as [b'|e] eqn:E; [eauto|].
  assert (H' : exists e, allclose v u = Err e) by eauto. apply allclose_spec in H'.
  assert (H'' : exists e, allclose u v = Err e) by (apply allclose_spec; lia). destruct H''; congruence.
Qed.
Lemma compat_refl u : compat u u.
Proof. unfold compat, allclose. rewrite Nat.eqb_refl. eauto. Qed.

(** [betw u v h0 h]: [h] is the in-sync tree [h0] with some assigned nodes moved to [v]. *)
Inductive betw (u v : vec) : hm -> hm -> Prop :=
| Betw' n m c c' l l' : (m = MArr u \/ m = MArr v /\ compat u v) ->
    Forall2 (fun x y => needs_model x = needs_model y /\ (needs_model x = true -> betw u v x y) /\ (needs_model x = false -> same_models x y)) l l' ->
    betw u v (HM n (MArr u) c l) (HM n m c' l').
Definition betw_child u v x y := needs_model x = needs_model y /\ (if needs_model x then betw u v x y else same_models x y).
Lemma Betw u v n m c c' l l' : (m = MArr u \/ m = MArr v /\ compat u v) -> Forall2 (betw_child u v) l l' ->
    betw u v (HM n (MArr u) c l) (HM n m c' l').
Proof.
  intros Hm Hl. constructor; [assumption|]. eapply Forall2_impl; [|exact Hl]. intros x y [E H]. split; [assumption|].
  destruct (needs_model x); split; congruence || auto.
Qed.
Lemma betw_inv u v h0 h : betw u v h0 h -> exists n m c c' l l', h0 = HM n (MArr u) c l /\ h = HM n m c' l' /\
  (m = MArr u \/ m = MArr v /\ compat u v) /\ Forall2 (betw_child u v) l l'.
Proof.
  destruct 1 as [n m c c' l l' Hm Hl]. do 6 eexists. repeat split; [assumption|]. eapply Forall2_impl; [|exact Hl].
  intros x y (E & H1 & H2). split; [assumption|]. destruct (needs_model x); auto.
Qed.
Lemma same_needs x y : same_models x y -> needs_model x = needs_model y.
Proof. destruct 1. reflexivity. Qed.
Lemma betw_needs u v x y : betw u v x y -> needs_model x = needs_model y.
Proof. destruct 1. reflexivity. Qed.
Lemma betw_same u v h0 : in_sync u h0 -> forall h, same_models h0 h -> betw u v h0 h.
Proof.
  induction h0 as [n m c l IH] using hm_ind'. intros Hs h Hh. inversion Hs as [? ? ? Hf Hl]; subst. inversion Hh as [? ? ? ? ? l' Hll]; subst.
  apply Betw; [auto|]. clear Hh Hs. induction Hll as [|x y l l' Hxy Hll IHl]; constructor.
  - split; [apply same_needs; assumption|]. destruct (needs_model x) eqn:E; [|assumption]. inversion IH; subst. apply H1; [|assumption].
    apply Hl; [left; reflexivity|assumption].
  - apply IHl; [inversion IH; assumption|]. intros; apply Hl; [right|]; assumption.
Qed.

Lemma needs_not_empty x : needs_model x = true -> Nat.eqb (length (hm_needs x)) 0 = false.
Proof. unfold needs_model. destruct (Nat.eqb _ 0); cbn; congruence. Qed.

(** Assigning the old model back always succeeds. *)
Lemma restore_ok u v fuel : forall h0 h, in_sync u h0 -> betw u v h0 h -> (height h0 <= fuel)%nat -> needs_model h0 = true ->
  exists h', set_model fuel h (MArr u) = (h', None) /\ same_models h0 h'.
Proof.
  induction fuel as [|fuel IH]; intros h0 h Hs Hb Hf Hn; [destruct h0; cbn in Hf; lia|].
  inversion Hs as [n c l Hfit Hl]; subst. destruct (betw_inv _ _ _ _ Hb) as (n0 & m & c0 & c' & l0 & l' & E0 & -> & Hm & Hll); injection E0 as <- <- <-.
  cbn [set_model]. pose proof (needs_not_empty _ Hn) as Hne. cbn [hm_needs] in Hne. rewrite Hne, Hfit. cbn [andb negb].
  assert (G : exists l'', assign_nested (fun x => set_model fuel x (MArr u)) l' = (l'', None) /\ Forall2 same_models l l'').
  { assert (Hh : forall x, In x l -> (height x <= fuel)%nat) by (intros x Hx; eapply in_height; [exact Hx|exact Hf]).
    clear -IH Hl Hll Hh. induction Hll as [|x y l l' [Exy Hxy] Hll IHl]; [exists []; split; [reflexivity|constructor]|].
    destruct IHl as (l'' & E & HF); [intros; apply Hl; [right|]; assumption|intros; apply Hh; right; assumption|].
    cbn [assign_nested]. rewrite <- Exy. destruct (needs_model x) eqn:En.
    - destruct (IH x y) as (y' & Ey & Hy); [apply Hl; [left; reflexivity|assumption]|assumption|apply Hh; left; reflexivity|assumption|].
      rewrite Ey. fold (assign_nested (fun x => set_model fuel x (MArr u))). rewrite E. eexists; split; [reflexivity|]. constructor; assumption.
    - fold (assign_nested (fun x => set_model fuel x (MArr u))). rewrite E. eexists; split; [reflexivity|]. constructor; assumption. }
  destruct G as (l'' & -> & HF).
  assert (Hc : exists w b, m = MArr w /\ allclose w u = Ok b).
  { destruct Hm as [->|[-> Hc]]; [destruct (compat_refl u) as [b Hb']|destruct (compat_sym _ _ Hc) as [b Hb']]; eauto. }
  destruct Hc as (w & b & -> & ->). destruct b; eexists; (split; [reflexivity|]); constructor; assumption.
Qed.
Lemma restore_list u v fuel l l' : (forall x, In x l -> needs_model x = true -> in_sync u x) ->
  (forall x, In x l -> (height x <= fuel)%nat) ->
  Forall2 (betw_child u v) l l' ->
  exists l'', assign_nested (fun x => set_model fuel x (MArr u)) l' = (l'', None) /\ Forall2 same_models l l''.
Proof.
  intros Hl Hh Hll. induction Hll as [|x y l l' [Exy Hxy] Hll IHl]; [exists []; split; [reflexivity|constructor]|].
  destruct IHl as (l'' & E & HF); [intros; apply Hl; [right|]; assumption|intros; apply Hh; right; assumption|].
  cbn [assign_nested]. rewrite <- Exy. destruct (needs_model x) eqn:En.
  - destruct (restore_ok u v fuel x y) as (y' & Ey & Hy); [apply Hl; [left; reflexivity|assumption]|assumption|apply Hh; left; reflexivity|assumption|].
    rewrite Ey. fold (assign_nested (fun x => set_model fuel x (MArr u))). rewrite E. eexists; split; [reflexivity|]. constructor; assumption.
  - fold (assign_nested (fun x => set_model fuel x (MArr u))). rewrite E. eexists; split; [reflexivity|]. constructor; assumption.
Qed.

Lemma set_model_outcome u v fuel : forall h, in_sync u h -> (height h <= fuel)%nat ->
  forall h' e, set_model fuel h (MArr v) = (h', e) -> match e with Some _ => same_models h h' | None => betw u v h h' end.
Proof.
  induction fuel as [|fuel IH]; intros h Hs Hf h' e; [destruct h; cbn in Hf; lia|].
  inversion Hs as [n c l Hfit Hl]; subst. cbn [set_model].
  destruct (Nat.eqb (length n) 0 && Nat.eqb (length l) 0)%bool; [intros [= <- <-]; apply same_models_refl|].
  destruct (forallb (fits (length v)) n); cbn [negb]; [|intros [= <- <-]; apply same_models_refl].
  assert (Hh : forall x, In x l -> (height x <= fuel)%nat) by (intros x Hx; eapply in_height; [exact Hx|exact Hf]).
  destruct (assign_nested (fun x => set_model fuel x (MArr v)) l) as [l' eo] eqn:EA.
  assert (G : Forall2 (betw_child u v) l l'
     /\ (eo = None -> (exists x, In x l /\ needs_model x = true) -> compat u v)).
  { clear -IH Hl Hh EA. revert l' eo EA. induction l as [|x l IHl]; intros l' eo EA; cbn [assign_nested] in EA.
    - injection EA as <- <-. split; [constructor|]. intros _ (x & [] & _).
    - assert (HS : forall l0, (forall y, In y l0 -> In y (x :: l)) ->
         Forall2 (betw_child u v) l0 l0).
      { intros l0 H0. apply Forall2_refl', Forall_forall. intros y Hy. split; [reflexivity|].
        destruct (needs_model y) eqn:En; [|apply same_models_refl]. apply betw_same; [|apply same_models_refl]. apply Hl; auto. }
      destruct (needs_model x) eqn:En.
      + destruct (set_model fuel x (MArr v)) as [x' ex] eqn:Ex.
        assert (Hx := IH x (Hl x (or_introl eq_refl) En) (Hh x (or_introl eq_refl)) _ _ Ex).
        destruct ex as [ex|].
        * injection EA as <- <-. split; [|discriminate]. constructor; [|apply HS; intros; right; assumption].
          split; [apply same_needs; assumption|]. rewrite En. apply betw_same; [|assumption]. apply Hl; [left; reflexivity|assumption].
        * fold (assign_nested (fun x => set_model fuel x (MArr v))) in EA.
          destruct (assign_nested (fun x => set_model fuel x (MArr v)) l) as [l1 e1] eqn:E1. injection EA as <- <-.
          destruct (IHl (fun y Hy => Hl y (or_intror Hy)) (fun y Hy => Hh y (or_intror Hy)) _ _ eq_refl) as [HF HC].
          split; [constructor; [|assumption]; split; [eapply betw_needs; eassumption|rewrite En; assumption]|].
          intros _ _.
          pose proof (Hl x (or_introl eq_refl) En) as Hsx. clear -Hsx Ex En Hh.
          destruct fuel; [specialize (Hh x (or_introl eq_refl)); destruct x; cbn in Hh; lia|].
          inversion Hsx as [n c l0 Hfit Hl0]; subst. cbn [set_model] in Ex.
          destruct (_ && _)%bool; [discriminate|]. destruct (negb _); [discriminate|].
          destruct (assign_nested _ l0) as [? [?|]]; [destruct (assign_nested _ _) as [? [?|]]; discriminate|].
          unfold compat. destruct (allclose u v); [eauto|discriminate].
      + fold (assign_nested (fun x => set_model fuel x (MArr v))) in EA.
        destruct (assign_nested (fun x => set_model fuel x (MArr v)) l) as [l1 e1] eqn:E1. injection EA as <- <-.
        destruct (IHl (fun y Hy => Hl y (or_intror Hy)) (fun y Hy => Hh y (or_intror Hy)) _ _ eq_refl) as [HF HC].
        split; [constructor; [|assumption]; split; [reflexivity|rewrite En; apply same_models_refl]|].
        intros HN (y & [->|Hy] & Hny); [congruence|]. apply HC; eauto. }
  destruct G as [HF HC]. destruct eo as [e0|].
  - destruct (restore_list u v fuel l l' Hl Hh HF) as (l'' & -> & HF'). intros [= <- <-]. constructor. assumption.
  - destruct (allclose u v) as [b|e0] eqn:Ea.
    + assert (HR : betw u v (HM n (MArr u) c l) (HM n (MArr v) c l')) by (apply Betw; [right; split; [reflexivity|exists b; assumption]|assumption]).
      destruct b; intros [= <- <-]; [exact HR|]. apply Betw; [right; split; [reflexivity|exists false; assumption]|assumption].
    + intros [= <- <-]. constructor.
      assert (HN : forall x, In x l -> needs_model x = false).
      { intros x Hx. destruct (needs_model x) eqn:En; [|reflexivity]. destruct HC as [b Hb]; [reflexivity|eauto|]. congruence. }
      clear -HF HN. induction HF as [|x y l l' [E H] HF IHF]; constructor.
      * rewrite (HN x (or_introl eq_refl)) in H. exact H.
      * apply IHF. intros; apply HN; right; assumption.
Qed.
Lemma rollback_sync u h v fuel h' e : in_sync u h -> (height h <= fuel)%nat ->
  set_model fuel h (MArr v) = (h', Some e) -> same_models h h'.
Proof. intros Hs Hf E. exact (set_model_outcome u v fuel h Hs Hf h' (Some e) E). Qed.

(** First assignment: nobody has a model yet. *)
Lemma rollback_none h v fuel h' e : no_models h -> (2 <= fuel)%nat ->
  set_model fuel h (MArr v) = (h', Some e) -> same_models h h'.
Proof.
  destruct fuel as [|[|fuel]]; try lia. destruct h as [n m c l]. intros [Hm Hl] _. cbn [hm_model hm_nest] in *. subst m.
  change (set_model (S (S fuel)) ?x ?y) with (let g := S fuel in set_model (S g) x y). cbv zeta. set (g := S fuel).
  cbn [set_model].
  destruct (Nat.eqb (length n) 0 && Nat.eqb (length l) 0)%bool; [intros [= <- <-]; apply same_models_refl|].
  destruct (negb _); [intros [= <- <-]; apply same_models_refl|].
  destruct (assign_nested (fun x => set_model g x (MArr v)) l) as [l' eo] eqn:EA.
  assert (G : Forall2 (fun x y => needs_model x = needs_model y /\
      if needs_model x then hm_needs x = hm_needs y /\ hm_nest y = [] else same_models x y) l l').
  { assert (Hself : forall l0, (forall x, In x l0 -> needs_model x = true -> hm_nest x = []) ->
      Forall2 (fun x y => needs_model x = needs_model y /\
        if needs_model x then hm_needs x = hm_needs y /\ hm_nest y = [] else same_models x y) l0 l0).
    { intros l0 H0. apply Forall2_refl', Forall_forall. intros x Hx. split; [reflexivity|].
      destruct (needs_model x) eqn:En; [auto|apply same_models_refl]. }
    assert (Hn : forall x, In x l -> needs_model x = true -> hm_nest x = []) by (intros; apply Hl; assumption).
    clear -EA Hself Hn. revert l' eo EA. induction l as [|x l IH]; intros l' eo EA; cbn [assign_nested] in EA; [injection EA as <- <-; constructor|].
    fold (assign_nested (fun x => set_model g x (MArr v))) in EA.
    destruct (needs_model x) eqn:En.
    - assert (Hx : hm_nest x = []) by (apply Hn; [left; reflexivity|assumption]).
      destruct (set_model g x (MArr v)) as [x' ex] eqn:Ex.
      assert (Hx' : hm_needs x = hm_needs x' /\ hm_nest x' = []).
      { clear -Ex Hx. unfold g in Ex. destruct x as [n m c l]. cbn in Hx. subst l. cbn [set_model] in Ex.
        repeat match type of Ex with
          | (match ?t with _ => _ end) = _ => destruct t eqn:?
          | (let '(_, _) := ?t in _) = _ => destruct t eqn:?
          end; injection Ex as <- <-; cbn in *; try (split; [reflexivity|]); try congruence; auto. }
      assert (Hxx : needs_model x = needs_model x') by (unfold needs_model; rewrite (proj1 Hx'); reflexivity).
      destruct ex as [ex|].
      + injection EA as <- <-. constructor; [split; [assumption|rewrite En; assumption]|]. apply Hself. intros; apply Hn; [right|]; assumption.
      + destruct (assign_nested _ l) as [l1 e1]. injection EA as <- <-. constructor; [split; [assumption|rewrite En; assumption]|]. eapply IH; [|reflexivity]. intros; apply Hn; [right|]; assumption.
    - destruct (assign_nested _ l) as [l1 e1]. injection EA as <- <-. constructor; [rewrite En; split; [reflexivity|apply same_models_refl]|].
      eapply IH; [|reflexivity]. intros; apply Hn; [right|]; assumption. }
  destruct eo as [e0|]; [|discriminate].
  assert (HR : exists l'', assign_nested (fun x => set_model g x MNone) l' = (l'', None) /\ Forall2 same_models l l'').
  { clear -G Hl. induction G as [|x y l l' [Exy Hxy] G IH]; [exists []; split; [reflexivity|constructor]|].
    destruct IH as (l'' & E & HF); [intros; apply Hl; [right|]; assumption|].
    cbn [assign_nested]. fold (assign_nested (fun x => set_model g x MNone)). rewrite E, <- Exy. destruct (needs_model x) eqn:En.
    - destruct (Hl x (or_introl eq_refl) En) as [Hxm Hxn]. destruct x as [xn xm xc xl], y as [yn ym yc yl]. cbn in *. subst. destruct Hxy as [-> ->].
      eexists; split; [reflexivity|]. constructor; [|assumption]. constructor. constructor.
    - eexists; split; [reflexivity|]. constructor; assumption. }
  destruct HR as (l'' & -> & HF). intros [= <- <-]. constructor. assumption.
Qed.


Lemma foreign_refuted : exists (h h' : hm) (v : vec) e, set_model 2 h (MArr v) = (h', Some e) /\ ~ same_models h h'.
Proof.
  exists (HM [] MNone false [HM [Some 2%nat] (MArr [7; 8]) false []; HM [Some 3%nat] MNone false []]).
  eexists. exists [1; 2]. eexists. split.
  - cbn. destruct (close 7 1 && _)%bool; cbn; reflexivity.
  - intros H. inversion H as [? ? ? ? ? ? HF]; subst. inversion HF as [|? ? ? ? H1 _]; subst. inversion H1.
Qed.
Lemma resize_refuted : exists (h h' : hm) (v : vec) e, hm_model h = MArr [1; 2] /\
  forallb (fits (length v)) (hm_needs h) = true /\ (forall x, In x (hm_nest h) -> forallb (fits (length v)) (hm_needs x) = true) /\
  set_model 2 h (MArr v) = (h', Some e) /\ ~ same_models h h'.
Proof.
  exists (HM [Some 3%nat] (MArr [1; 2]) false [HM [Some 3%nat] MNone false []]).
  eexists. exists [1; 2; 3]. eexists. split; [reflexivity|]. split; [reflexivity|].
  split; [intros x [<-|[]]; reflexivity|]. split; [reflexivity|]. intros H.
  inversion H as [? ? ? ? ? ? HF]; subst. inversion HF as [|? ? ? ? H1 _]; subst. inversion H1.
Qed.
Lemma grandchild_refuted : exists (h h' : hm) (v : vec) e, hm_model h = MNone /\
  (forall x, In x (hm_nest h) -> hm_model x = MNone /\ forall y, In y (hm_nest x) -> hm_model y = MNone) /\
  set_model 3 h (MArr v) = (h', Some e) /\ ~ same_models h h'.
Proof.
  exists (HM [] MNone false [HM [Some 2%nat] MNone false [HM [Some 2%nat] MNone false []]; HM [Some 3%nat] MNone false []]).
  eexists. exists [1; 2]. eexists. split; [reflexivity|].
  split; [intros x [<-|[<-|[]]]; (split; [reflexivity|]); cbn; intros y [<-|[]] || intros y []; reflexivity|]. split; [reflexivity|]. intros H.
  inversion H as [? ? ? ? ? ? HF]; subst. inversion HF as [|? ? ? ? H1 _]; subst.
  inversion H1 as [? ? ? ? ? ? HF2]; subst. inversion HF2 as [|? ? ? ? H2 _]; subst. inversion H2.
Qed.
Lemma deleted_refuted : exists (h h' : hm) (v : vec) e, let hd := del_model h in
  in_sync [1; 2] h /\ set_model 2 hd (MArr v) = (h', Some e) /\ ~ same_models hd h'.
Proof.
  exists (HM [] (MArr [1; 2]) false [HM [None] (MArr [1; 2]) false []; HM [Some 2%nat] (MArr [1; 2]) false []]).
  eexists. exists [3]. eexists. cbv zeta. split; [|split].
  - constructor; [reflexivity|]. intros x [<-|[<-|[]]] _; (constructor; [reflexivity|intros ? []]).
  - cbn. destruct (close 1 3 && _)%bool; cbn; reflexivity.
  - intros H. inversion H as [? ? ? ? ? ? HF]; subst. inversion HF as [|? ? ? ? H1 _]; subst.
    inversion H1 as [? ? ? ? ? ? HF2]; subst.
Qed.
Lemma read_deriv_jacobian n k ops x s m : let st := fold_left pstep ops pst0 in
  getm st s = Some m -> length (pm_deriv m x) = k -> length x = n ->
  has_jacobian n k (pm_val m) x (mv (pm_deriv m x)) -> (forall i, (i < k)%nat -> nth i (pm_val m x) 0 <> 0) ->
  exists J, read_deriv (Some x) st (other s) = Some J /\
    has_jacobian n k (fun y => map (fun a => 1 / a) (pm_val m y)) x (mv J).
Proof.
  intros st E LJ Lx HJ Hnz. destruct (read_deriv_recip ops x s m E) as [_ E']. eexists. split; [exact E'|].
  exact (recip_map_jacobian n k m x LJ Lx HJ Hnz).
Qed.
Lemma clean_example : let ops := [New [1]; Assign 0; Read; New [2]; Assign 1] in
  clean (@length R) cst0 ops /\ snd (cstep (@length R) (crun (@length R) ops cst0) Read) = Some 1%nat.
Proof.
  assert (E : allclose [1] [2] = Ok false).
  { unfold allclose. cbn. unfold close. destruct (Rle_dec _ _) as [H|H]; [|reflexivity]. exfalso.
    replace (1 - 2) with (- (1)) in H by ring. rewrite Rabs_Ropp, !Rabs_right in H; lra. }
  split.
  - cbn. repeat split; try lia; try discriminate. intros j [= <-]. unfold deref. cbn. right. left. exact E.
  - unfold crun. cbn [fold_left cstep fst heap cur cached app cst0 Nat.eqb deref nth]. rewrite E. reflexivity.
Qed.
Lemma rollback_example : let h := HM [None] (MArr [1; 2]) true [HM [None] (MArr [1; 2]) true []; HM [Some 2%nat] (MArr [1; 2]) true []] in
  in_sync [1; 2] h /\ exists h', set_model 3 h (MArr [5]) = (h', Some ValueError).
Proof.
  cbv zeta. split.
  - constructor; [reflexivity|]. intros x [<-|[<-|[]]] _; (constructor; [reflexivity|intros ? []]).
  - cbn. repeat match goal with |- context [close ?a ?b] => destruct (close a b); cbn end; eexists; reflexivity.
Qed.
