(** Proofs about composed and summed maps. *)
From Verif Require Import Py Vec VecDeriv Frechet MapsM SpecMaps.
Local Open Scope R_scope.

(** ** Identity matrices *)
Lemma eye_mat n : is_mat n n (eye n).
Proof. unfold eye. pose proof (diagm_mat (vconst n 1)) as H. rewrite vconst_length in H. exact H. Qed.
Lemma vmul_one v : vmul (vconst (length v) 1) v = v.
Proof. induction v as [|x v IH]; cbn; [reflexivity|]. f_equal; [ring|exact IH]. Qed.
Lemma mv_eye n v : length v = n -> mv (eye n) v = v.
Proof. intros <-. unfold eye. rewrite mv_diagm by (rewrite vconst_length; reflexivity). apply vmul_one. Qed.
Lemma mat_ext k n A B : is_mat k n A -> is_mat k n B -> (forall v, length v = n -> mv A v = mv B v) -> A = B.
Proof.
  revert k B; induction A as [|r A IH]; intros k [|s B] [LA HA] [LB HB] H; cbn in *; try lia; [reflexivity|].
  inversion HA as [|? ? Hr HA']; inversion HB as [|? ? Hs HB']; subst. f_equal.
  - apply dot_ext; [congruence|]. intros v Lv. specialize (H v Lv). injection H as H _. exact H.
  - apply (IH (length A)); [split; auto|split; [lia|auto]|]. intros v Lv. specialize (H v Lv). injection H as _ H. exact H.
Qed.
Lemma mm_eye_l k n J : is_mat k n J -> mm n (eye k) J = J.
Proof.
  intros HJ. apply (mat_ext k n); [apply (mm_mat k k n); [apply eye_mat|assumption]|assumption|].
  intros v Lv. rewrite (mm_mv k k n) by (assumption || apply eye_mat). apply mv_eye. rewrite mv_length. apply HJ.
Qed.
Lemma mm_eye_r k n J : is_mat k n J -> mm n J (eye n) = J.
Proof.
  intros HJ. apply (mat_ext k n); [apply (mm_mat k n n); [assumption|apply eye_mat]|assumption|].
  intros v Lv. rewrite (mm_mv k n n) by (assumption || apply eye_mat). rewrite mv_eye by assumption. reflexivity.
Qed.
Lemma ncol_mat k n A : (0 < k)%nat -> is_mat k n A -> ncol A = n.
Proof. intros Hk [L H]. destruct A; cbn in *; [lia|]. inversion H; assumption. Qed.
Lemma frechet_id n x : length x = n -> frechet n n (fun y => y) x (eye n).
Proof.
  intros Lx. eapply frechet_ext; [|apply (frechet_linear n n (eye n) x (eye_mat n) Lx)]. intros y Ly. apply mv_eye. assumption.
Qed.

(** ** Induction over compositions *)
Section SmapInd.
  Variable (PP : smap -> Prop) (HL : forall l, PP (Leaf l)) (HC : forall a rest, PP a -> Forall PP rest -> PP (Combo a rest)).
  Fixpoint smap_ind' (s : smap) : PP s :=
    match s with
    | Leaf l => HL l
    | Combo a rest => HC a rest (smap_ind' a) ((fix go (l : list smap) : Forall PP l :=
        match l with [] => Forall_nil _ | x :: l' => Forall_cons _ (smap_ind' x) (go l') end) rest)
    end.
End SmapInd.

Lemma compose_app l1 l2 m : compose (l1 ++ l2) m = compose l1 (compose l2 m).
Proof. induction l1 as [|l l1 IH]; cbn; [reflexivity|]. rewrite IH. reflexivity. Qed.
Lemma sizes_app l1 l2 m : sizes_ok (l1 ++ l2) m <-> sizes_ok l2 m /\ sizes_ok l1 (compose l2 m).
Proof. induction l1 as [|l l1 IH]; cbn; [tauto|]. rewrite IH, compose_app. tauto. Qed.
Lemma correct_app l1 l2 m : all_correct (l1 ++ l2) m <-> all_correct l2 m /\ all_correct l1 (compose l2 m).
Proof. induction l1 as [|l l1 IH]; cbn; [tauto|]. rewrite IH, compose_app. tauto. Qed.
Lemma leaves_nonempty s : leaves s <> [].
Proof. induction s as [l|a rest IH _] using smap_ind'; cbn; [discriminate|]. destruct (leaves a); cbn; congruence. Qed.

(** Shapes. *)
Lemma shape_out s d : s_out s = lf_out (hd d (leaves s)).
Proof.
  induction s as [l|a rest IH _] using smap_ind'; cbn; [reflexivity|]. rewrite IH. pose proof (leaves_nonempty a).
  destruct (leaves a); cbn; congruence.
Qed.
Lemma last_app_ne {A} (l1 l2 : list A) d : l2 <> [] -> last (l1 ++ l2) d = last l2 d.
Proof.
  intros H. induction l1 as [|x l1 IH]; cbn; [reflexivity|]. rewrite IH.
  destruct (l1 ++ l2) as [|y l] eqn:E; [|reflexivity]. apply app_eq_nil in E as [-> ->]. congruence.
Qed.
Lemma shape_in s d : s_in s = lf_in (last (leaves s) d).
Proof.
  induction s as [l|a rest IH IHr] using smap_ind'; cbn [s_in leaves]; [reflexivity|].
  rewrite IH. assert (Hne := leaves_nonempty a). revert Hne. generalize (leaves a) as la. clear IH.
  induction IHr as [|x rest Hx IHr IH2]; intros la Hne; cbn [flat_map]; [rewrite app_nil_r; reflexivity|].
  rewrite app_assoc. rewrite Hx. specialize (IH2 (la ++ leaves x)). rewrite <- IH2.
  - rewrite last_app_ne by apply leaves_nonempty. reflexivity.
  - intros E. apply app_eq_nil in E as [E _]. congruence.
Qed.

(** Application is composition with size checks. *)
Definition szb (ls : list leaf) (m : vec) : bool :=
  (fix go (l : list leaf) : bool := match l with [] => true | x :: l' => go l' && negb (mismatch (lf_in x) (Some (length (compose l' m)))) end) ls.
Lemma szb_spec ls m : szb ls m = true <-> sizes_ok ls m.
Proof.
  induction ls as [|l ls IH]; cbn; [tauto|]. fold (szb ls m). rewrite andb_true_iff, IH.
  unfold mismatch. destruct (lf_in l) as [n|]; cbn.
  - rewrite negb_involutive, Nat.eqb_eq. split; intros [H1 H2]; split; auto; [intros ? [= <-]; auto|symmetry; auto].
  - split; intros [H1 H2]; split; auto. discriminate.
Qed.
Lemma szb_app l1 l2 m : szb (l1 ++ l2) m = szb l2 m && szb l1 (compose l2 m).
Proof.
  induction l1 as [|l l1 IH]; cbn; [rewrite andb_true_r; reflexivity|]. fold (szb (l1 ++ l2) m). fold (szb l1 (compose l2 m)).
  rewrite IH, compose_app, andb_assoc. reflexivity.
Qed.
Lemma szb_last ls m d : ls <> [] -> mismatch (lf_in (last ls d)) (Some (length m)) = true -> szb ls m = false.
Proof.
  intros Hne Hm. destruct (exists_last Hne) as (l1 & x & ->). rewrite last_last in Hm.
  rewrite szb_app. cbn. rewrite Hm. reflexivity.
Qed.
Lemma apply_spec s : forall m, apply s m = if szb (leaves s) m then Ok (compose (leaves s) m) else Err ValueError.
Proof.
  induction s as [l|a rest IH IHr] using smap_ind'; intros m.
  - cbn. destruct (mismatch (lf_in l) (Some (length m))); reflexivity.
  - cbn [apply]. destruct (mismatch (s_in (Combo a rest)) (Some (length m))) eqn:Em.
    + rewrite (shape_in (Combo a rest) (hd (mkLeaf None None (fun x => x) Same) (leaves a))) in Em.
      rewrite (szb_last _ _ _ (leaves_nonempty _) Em). reflexivity.
    + cbn [leaves]. rewrite szb_app, compose_app.
      assert (G : (fix go (l : list smap) : result vec :=
                       match l with [] => Ok m | x :: l' => do m' <- go l'; apply x m' end) rest =
              if szb (flat_map leaves rest) m then Ok (compose (flat_map leaves rest) m) else Err ValueError).
      { clear -IHr. induction IHr as [|x rest Hx IHr IH2]; [reflexivity|]. rewrite IH2. cbn [flat_map].
        rewrite szb_app, compose_app. destruct (szb (flat_map leaves rest) m); cbn [bind andb]; [apply Hx|reflexivity]. }
      rewrite G. destruct (szb (flat_map leaves rest) m); cbn [bind andb]; [apply IH|reflexivity].
Qed.
Lemma apply_iff s m y : apply s m = Ok y <-> sizes_ok (leaves s) m /\ y = compose (leaves s) m.
Proof.
  rewrite apply_spec, <- szb_spec. destruct (szb (leaves s) m); split; intros H; try discriminate.
  - injection H as <-. auto.
  - destruct H as [_ ->]. reflexivity.
  - destruct H; discriminate.
Qed.
Lemma apply_err s m : ~ sizes_ok (leaves s) m -> apply s m = Err ValueError.
Proof. rewrite apply_spec, <- szb_spec. destruct (szb (leaves s) m); tauto. Qed.

(** Products of chains. *)
Lemma smul_spec a b : (exists s, smul a b = Ok s) <-> ~ (exists x y, s_in a = Some x /\ s_out b = Some y /\ x <> y).
Proof.
  unfold smul, mismatch. destruct (s_in a) as [x|], (s_out b) as [y|]; try (split; [intros _ (? & ? & ? & ? & ?); congruence|intros _; eexists; reflexivity]).
  destruct (Nat.eqb_spec x y); cbn; split; intros H.
  - intros (? & ? & [= <-] & [= <-] & ?). congruence.
  - eauto.
  - destruct H; discriminate.
  - exfalso. apply H. eauto.
Qed.
Lemma product_leaves a l s : product a l = Ok s -> leaves s = leaves a ++ flat_map leaves l.
Proof.
  unfold product. revert a. induction l as [|b l IH]; intros a; cbn [fold_left flat_map].
  - intros [= <-]. rewrite app_nil_r. reflexivity.
  - cbn [bind]. unfold smul at 2. destruct (mismatch (s_in a) (s_out b)).
    + assert (G : forall e, fold_left (fun acc b => do s <- acc; smul s b) l (Err e) = Err e) by (clear; induction l; auto).
      intros H. replace (fold_left _ l (Err ValueError)) with (@Err smap ValueError) in H by (symmetry; apply G). discriminate.
    + intros H. apply IH in H. rewrite H. cbn. rewrite app_nil_r, app_assoc. reflexivity.
Qed.

(** ** Chain rule *)
Lemma compose_length_k ls m : all_correct ls m -> ls <> [] -> (0 < length (compose ls m))%nat.
Proof.
  destruct ls as [|l ls]; [congruence|]. intros [_ (k & d & J & Hk & _ & _ & (_ & _ & Lf & _))] _. cbn. rewrite Lf; [assumption|reflexivity].
Qed.

(** State of the accumulated derivative: [Identity()] never appears on the right. *)
Definition acc_for (n : nat) (d : dval) (J : mat) : Prop := d = DSp J \/ (d = DOne /\ J = eye n).
Lemma dmul_rep n k p dx K dv J : (0 < k)%nat -> (0 < p)%nat -> is_mat k n J -> is_mat p k K ->
  stands_for k dx K -> acc_for n dv J -> exists d, dmul dx dv = Ok d /\ acc_for n d (mm n K J).
Proof.
  intros Hk Hp HJ HK [->|[Hdx ->]] Hdv.
  - destruct Hdv as [->|[-> ->]].
    + cbn. rewrite (ncol_mat p k), (ncol_mat k n) by assumption. destruct HJ as [LJ HJ]. rewrite LJ, Nat.eqb_refl.
      eexists; split; [reflexivity|]. left. reflexivity.
    + destruct HJ as [LJ HJ]. assert (k = n) as ->. { destruct (eye_mat n) as [L _]. congruence. }
      eexists; split; [reflexivity|]. left. rewrite (mm_eye_r p) by assumption. reflexivity.
  - rewrite (mm_eye_l k n) by assumption. exists dv. split; [destruct Hdx as [-> | ->]; reflexivity|assumption].
Qed.
Lemma dmul_vec n k dx K v : (0 < k)%nat -> is_mat k n K -> stands_for n dx K -> length v = n -> dmul dx (DV v) = Ok (DV (mv K v)).
Proof.
  intros Hk HK [->|[Hdx ->]] Lv.
  - cbn. rewrite (ncol_mat k n), Lv, Nat.eqb_refl by assumption. reflexivity.
  - rewrite mv_eye by assumption. destruct Hdx as [-> | ->]; reflexivity.
Qed.
Lemma acc_stands n d J : acc_for n d J -> stands_for n d J.
Proof. intros [H|[H1 H2]]; [left|right]; auto. Qed.

Definition deriv_ok (s : smap) : Prop := forall m, (0 < length m)%nat -> sizes_ok (leaves s) m -> all_correct (leaves s) m ->
  exists d J, deriv s m None = Ok d /\ stands_for (length m) d J /\
    frechet (length m) (length (compose (leaves s) m)) (compose (leaves s)) m J /\
    forall v, length v = length m -> deriv s m (Some v) = Ok (DV (mv J v)).

(** Inner loop of ComboMap.deriv. *)
Definition dgo (start : dval) (m : vec) :=
  fix go (l : list smap) : result (dval * vec) :=
                  match l with
                  | [] => Ok (start, m)
                  | x :: l' => do st <- go l';
                               let '(dv, mi) := st in
                               do dx <- deriv x mi None;
                               do dv' <- dmul dx dv;
                               do mi' <- apply x mi;
                               Ok (dv', mi')
                  end.
Lemma dgo_ok rest : Forall deriv_ok rest -> forall m, (0 < length m)%nat -> sizes_ok (flat_map leaves rest) m -> all_correct (flat_map leaves rest) m ->
  exists d J, dgo DOne m rest = Ok (d, compose (flat_map leaves rest) m) /\ acc_for (length m) d J /\
    frechet (length m) (length (compose (flat_map leaves rest) m)) (compose (flat_map leaves rest)) m J /\
    (0 < length (compose (flat_map leaves rest) m))%nat /\
    forall v, length v = length m -> dgo (DV v) m rest = Ok (DV (mv J v), compose (flat_map leaves rest) m).
Proof.
  induction 1 as [|x rest Hx Hr IH]; intros m Hm Hs Hc.
  - cbn. exists DOne, (eye (length m)). repeat split; auto; try (right; split; reflexivity).
    + apply eye_mat.
    + apply eye_mat.
    + apply (frechet_id _ m eq_refl).
    + intros v Lv. rewrite mv_eye by assumption. reflexivity.
  - cbn [flat_map] in *. apply sizes_app in Hs as [Hs1 Hs2]. apply correct_app in Hc as [Hc1 Hc2].
    destruct (IH m Hm Hs1 Hc1) as (d & J & E & HA & HF & Hpos & HV). set (mi := compose (flat_map leaves rest) m) in *.
    destruct (Hx mi Hpos Hs2 Hc2) as (dx & K & Ex & HK & HFx & _).
    rewrite compose_app. fold mi.
    assert (Hp : (0 < length (compose (leaves x) mi))%nat) by (apply compose_length_k; [assumption|apply leaves_nonempty]).
    assert (Ea : apply x mi = Ok (compose (leaves x) mi)) by (apply apply_iff; auto).
    destruct HF as (F1 & F2 & F3 & F4). destruct HFx as (G1 & G2 & G3 & G4).
    destruct (dmul_rep (length m) (length mi) (length (compose (leaves x) mi)) dx K d J) as (d' & Ed & HA'); try assumption.
    exists d', (mm (length m) K J). cbn [dgo]. fold (dgo DOne m). rewrite E. cbn [bind]. rewrite Ex. cbn [bind]. rewrite Ed. cbn [bind]. rewrite Ea. cbn [bind].
    split; [reflexivity|]. split; [assumption|].
    split.
    { eapply frechet_ext; [|apply (frechet_comp (length m) (length mi) _ (compose (flat_map leaves rest)) (compose (leaves x)) m J K); split; auto].
      intros y _. cbn beta. rewrite compose_app. reflexivity. }
    split; [assumption|].
    intros v Lv. fold (dgo (DV v) m). rewrite HV by assumption. cbn [bind]. rewrite Ex. cbn [bind].
    rewrite (dmul_vec (length mi) (length (compose (leaves x) mi)) dx K) by (try assumption; rewrite mv_length; apply F2).
    cbn [bind]. rewrite Ea. cbn [bind]. rewrite (mm_mv (length (compose (leaves x) mi)) (length mi)) by assumption. reflexivity.
Qed.
Lemma chain_rule s : deriv_ok s.
Proof.
  induction s as [l|a rest IH IHr] using smap_ind'; intros m Hm Hs Hc.
  - cbn in *. destruct Hc as [_ (k & d & J & Hk & E & HS & HF)]. exists d, J. rewrite E. cbn [bind].
    assert (Lk : length (lf_tr l m) = k) by (apply HF; reflexivity). rewrite Lk.
    split; [reflexivity|]. split; [assumption|]. split; [exact HF|]. intros v Lv.
    apply (dmul_vec (length m) k); try assumption. apply HF.
  - assert (Hs0 := Hs). assert (Hc0 := Hc).
    destruct (dgo_ok (a :: rest) (Forall_cons _ IH IHr) m Hm Hs Hc) as (d & J & E & HA & HF & _ & HV).
    exists d, J. cbn [deriv leaves]. change (leaves a ++ flat_map leaves rest) with (flat_map leaves (a :: rest)).
    split; [|split; [apply acc_stands; assumption|split; [assumption|]]].
    + fold (dgo DOne m). cbn [dgo] in E. fold (dgo DOne m) in E. destruct (dgo DOne m rest) as [[dv mi]|e]; cbn [bind] in *; [|discriminate].
      destruct (deriv a mi None); cbn [bind] in *; [|discriminate]. destruct (dmul _ dv); cbn [bind] in *; [|discriminate].
      destruct (apply a mi); cbn [bind] in *; [|discriminate]. injection E as -> _. reflexivity.
    + intros v Lv. specialize (HV v Lv). fold (dgo (DV v) m). cbn [dgo] in HV. fold (dgo (DV v) m) in HV.
      destruct (dgo (DV v) m rest) as [[dv mi]|e]; cbn [bind] in *; [|discriminate].
      destruct (deriv a mi None); cbn [bind] in *; [|discriminate]. destruct (dmul _ dv); cbn [bind] in *; [|discriminate].
      destruct (apply a mi); cbn [bind] in *; [|discriminate]. injection HV as -> _. reflexivity.
Qed.

(** ** Counterexamples for composition *)
Definition lin_dense (A : mat) : leaf := mkLeaf (Some (length A)) (Some (ncol A)) (mv A) (ByDense A).
Lemma dense_product_refuted : let A := [[1; 1]; [0; 1]] in let B := [[1; 0]; [1; 1]] in
  exists s, smul (Leaf (lin_dense A)) (Leaf (lin_dense B)) = Ok s /\
  forall m, length m = 2%nat -> apply s m = Ok (mv [[2; 1]; [1; 1]] m) /\ deriv s m None = Ok (DDn [[1; 0]; [0; 1]]) /\
    forall v, length v = 2%nat -> exists D, deriv s m (Some v) = Ok (DDn D).
Proof.
  cbv zeta. eexists. split; [reflexivity|]. intros [|x [|y [|z m]]] Lm; cbn in Lm; try lia. split; [|split].
  - cbn. do 2 f_equal; [ring|]. f_equal. ring.
  - cbn. do 2 f_equal. f_equal; [|f_equal]; repeat (f_equal; try ring).
  - intros [|a [|b [|c v]]] Lv; cbn in Lv; try lia. cbn. eexists. reflexivity.
Qed.
Definition scal_leaf (c : R) : leaf := mkLeaf None None (vscale c) (ByScal c).
Lemma wildcard_deriv_refuted c m v s : smul (Leaf (scal_leaf c)) (Leaf (mkLeaf None None (fun x => x) Same)) = Ok s ->
  apply s m = Ok (vscale c m) /\ deriv s m None = Err ValueError /\ deriv s m (Some v) = Err ValueError.
Proof. intros [= <-]. repeat split. Qed.
Lemma wildcard_shape_refuted (X Y : leaf) : lf_in X = Some 3%nat -> lf_out Y = Some 4%nat -> (forall m, length (lf_tr Y m) = 4%nat) ->
  exists s, product (Leaf X) [Leaf (mkLeaf None None (map exp) (ByRow (map exp))); Leaf Y] = Ok s /\ forall m, apply s m = Err ValueError.
Proof.
  intros HX HY HL. eexists. split.
  - unfold product. cbn [fold_left bind]. unfold smul. cbn [s_in s_out mismatch]. rewrite HX. cbn [mismatch s_in]. reflexivity.
  - intros m. apply apply_err. cbn. intros [[[_ _] H1] H2]. specialize (H2 3%nat HX). rewrite map_length, HL in H2. discriminate.
Qed.

(** ** Sums *)
Lemma sum_value a l m : sum_init a l = Ok tt -> (forall n, lf_in a = Some n -> length m = n) ->
  (forall b, In b (a :: l) -> length (lf_tr b m) = length (lf_tr a m)) ->
  sum_apply a l m = Ok (sum_vecs (lf_tr a m) (map (fun b => lf_tr b m) l)).
Proof.
  unfold sum_init. destruct (forallb _ l) eqn:Ef; [|discriminate]. intros _ Hn HL. rewrite forallb_forall in Ef.
  assert (Hap : forall b, In b (a :: l) -> leaf_apply b m = Ok (lf_tr b m)).
  { assert (Ha : leaf_apply a m = Ok (lf_tr a m)).
    { unfold leaf_apply, mismatch. destruct (lf_in a) as [n|]; [|reflexivity]. rewrite (Hn n eq_refl), Nat.eqb_refl. reflexivity. }
    intros b [<-|Hb]; [exact Ha|]. specialize (Ef b Hb). apply andb_prop in Ef as [_ E].
    unfold leaf_apply, mismatch. destruct (lf_in b) as [n|]; [|reflexivity]. destruct (lf_in a) as [n'|]; cbn in E; [|discriminate].
    apply Nat.eqb_eq in E as ->. rewrite (Hn n eq_refl), Nat.eqb_refl. reflexivity. }
  unfold sum_apply. rewrite (Hap a) by (left; reflexivity). cbn [bind].
  assert (G : forall y, length y = length (lf_tr a m) -> (forall b, In b l -> In b (a :: l)) ->
    fold_left (fun acc b => do y <- acc; do z <- leaf_apply b m;
                          if Nat.eqb (length y) (length z) then Ok (vadd y z) else Err ValueError) l (Ok y)
     = Ok (sum_vecs y (map (fun b => lf_tr b m) l))).
  { assert (H1 : forall b, In b l -> leaf_apply b m = Ok (lf_tr b m)) by (intros; apply Hap; right; assumption).
    assert (H2 : forall b, In b l -> length (lf_tr b m) = length (lf_tr a m)) by (intros; apply HL; right; assumption).
    clear -H1 H2. induction l as [|b l IH]; intros y Ly _; cbn [fold_left map sum_vecs]; [reflexivity|].
    cbn [bind]. rewrite H1 by (left; reflexivity). cbn [bind]. rewrite (H2 b) by (left; reflexivity). rewrite Ly, Nat.eqb_refl.
    apply IH; [intros; apply H1; right; assumption|intros; apply H2; right; assumption| |intros; right; assumption].
    rewrite vadd_length; [assumption|]. rewrite (H2 b) by (left; reflexivity). assumption. }
  apply G; [reflexivity|]. intros; right; assumption.
Qed.
Lemma madd_mat k n A B : is_mat k n A -> is_mat k n B -> is_mat k n (madd A B).
Proof.
  intros [LA HA] [LB HB]. split; [unfold madd; rewrite map_length, combine_length; lia|]. unfold madd. apply Forall_map.
  rewrite Forall_forall in *. intros [a b] Hin. cbn. rewrite vadd_length; [apply HA; eapply in_combine_l; exact Hin|].
  rewrite HA by (eapply in_combine_l; exact Hin). rewrite HB by (eapply in_combine_r; exact Hin). reflexivity.
Qed.
Lemma mv_madd k n A B v : is_mat k n A -> is_mat k n B -> mv (madd A B) v = vadd (mv A v) (mv B v).
Proof.
  intros [LA HA] [LB HB]. revert k B LA LB HA HB. induction A as [|a A IH]; intros k [|b B] LA LB HA HB; cbn in *; try lia; [reflexivity|].
  inversion HA; inversion HB; subst. unfold madd, mv in *. cbn. unfold vadd. cbn. f_equal.
  - apply dot_vadd_l. congruence.
  - apply (IH (length A)); auto; lia.
Qed.
Lemma sum_vecs_add x y l : sum_vecs (vadd x y) l = vadd x (sum_vecs y l).
Proof. revert y; induction l as [|z l IH]; intros y; cbn; [reflexivity|]. rewrite <- vadd_assoc. apply IH. Qed.
Lemma sum_mats_mat k n A l : is_mat k n A -> Forall (is_mat k n) l -> is_mat k n (sum_mats A l).
Proof. intros HA H. revert A HA; induction H; intros A HA; cbn; [assumption|]. apply IHForall, madd_mat; assumption. Qed.
Lemma mv_sum_mats k n A l v : is_mat k n A -> Forall (is_mat k n) l ->
  mv (sum_mats A l) v = sum_vecs (mv A v) (map (fun B => mv B v) l).
Proof.
  intros HA H. revert A HA; induction H; intros A HA; cbn [sum_mats sum_vecs map]; [reflexivity|]. rewrite IHForall by (apply madd_mat; assumption).
  rewrite (mv_madd k n) by assumption. reflexivity.
Qed.
Lemma sum_frechet n k m a l J Js : frechet n k (lf_tr a) m J -> Forall2 (fun b K => frechet n k (lf_tr b) m K) l Js ->
  frechet n k (fun y => sum_vecs (lf_tr a y) (map (fun b => lf_tr b y) l)) m (sum_mats J Js).
Proof.
  generalize (lf_tr a) as f. intros f HJ H. revert f J HJ. induction H as [|b K l Js Hb H IH]; intros f J HJ; cbn; [exact HJ|].
  apply (IH (fun y => vadd (f y) (lf_tr b y))). eapply frechet_add; try eassumption.
  - apply madd_mat; [apply HJ|apply Hb].
  - intros h _. apply (mv_madd k n); [apply HJ|apply Hb].
Qed.
(** Every part correct and the first one not the identity: correct, arguments untouched. *)
Lemma sum_dv_ok n k m a l J Js v : is_same a = false -> length v = n -> part_correct n k m a J ->
  Forall2 (part_correct n k m) l Js -> sum_deriv_v a l m v = Ok (DV (mv (sum_mats J Js) v), v).
Proof.
  intros Ha Lv [HJ Ea] H. unfold sum_deriv_v. rewrite Ea by assumption. cbn [bind]. rewrite Ha.
  assert (G : forall A, is_mat k n A -> fold_left (sum_deriv_step m) l (Ok (Some (DV (mv A v)), v)) = Ok (Some (DV (mv (sum_mats A Js) v)), v)).
  { clear -H Lv. induction H as [|b K l Js [Hb Eb] H IH]; intros A HA; cbn [fold_left sum_mats]; [reflexivity|].
    unfold sum_deriv_step at 2. cbn [bind]. rewrite Eb by assumption. cbn [bind dadd]. rewrite !mv_length.
    assert (HK : is_mat k n K) by apply Hb.
    rewrite (proj1 HA), (proj1 HK), Nat.eqb_refl. cbn [bind]. rewrite <- (mv_madd k n) by assumption. apply IH, madd_mat; assumption. }
  rewrite G by apply HJ. reflexivity.
Qed.
Lemma sum_dm_ok n k m a l J Js : (0 < k)%nat -> length m = n -> lf_in (last l a) = Some n -> 
  is_mat k n J -> Forall (is_mat k n) Js ->
  leaf_deriv_v a m (DSp (eye n)) = Ok (DSp J) -> Forall2 (fun b K => leaf_deriv_v b m (DSp (eye n)) = Ok (DSp K)) l Js ->
  sum_deriv a l m = Ok (DSp (sum_mats J Js)).
Proof.
  intros Hk Lm El HJ HJs Ea H. unfold sum_deriv. rewrite El, Ea. cbn [bind]. clear El Ea.
  revert J HJ HJs. induction H as [|b K l Js Hb H IH]; intros J HJ HJs; cbn [fold_left sum_mats]; [reflexivity|].
  inversion HJs; subst. cbn [bind]. rewrite Hb. cbn [bind dadd]. 
  rewrite (ncol_mat k (length m) J), (ncol_mat k (length m) K), (proj1 HJ) by assumption.
  match goal with HK : is_mat k _ K |- _ => rewrite (proj1 HK) end. rewrite !Nat.eqb_refl. cbn [andb].
  apply IH; [apply madd_mat; assumption|assumption].
Qed.
Lemma sum_dv_single m v a : is_same a = true -> sum_deriv_v a [] m v = Ok (DV v, v).
Proof. unfold sum_deriv_v, leaf_deriv_v, is_same. destruct (lf_dk a); try discriminate. reflexivity. Qed.
Definition id_leaf (np : option nat) : leaf := mkLeaf np np (fun x => x) Same.
Lemma sum_alias np m v : sum_deriv_v (id_leaf np) [id_leaf np; id_leaf np] m v = Ok (DV (vscale 4 v), vscale 4 v).
Proof.
  unfold sum_deriv_v. cbn. rewrite Nat.eqb_refl. cbn. rewrite Nat.eqb_refl. cbn.
  replace (vadd (vadd v v) (vadd v v)) with (vscale 4 v); [reflexivity|].
  induction v as [|x v IH]; cbn; [reflexivity|]. unfold vadd in IH. fold (vscale 4 v). rewrite IH. f_equal. ring.
Qed.
(** An identity first: whatever follows, the caller's array ends up holding the result. *)
Lemma sum_alias_gen a l m v d v' : is_same a = true -> sum_deriv_v a l m v = Ok (d, v') -> d = DV v'.
Proof.
  intros Ha. unfold sum_deriv_v. destruct (leaf_deriv_v a m (DV v)) as [d0|]; cbn [bind]; [|discriminate]. rewrite Ha.
  assert (G : forall v acc v', fold_left (sum_deriv_step m) l (Ok (None, v)) = Ok (acc, v') -> acc = None).
  { clear. assert (E : forall l0 e, fold_left (sum_deriv_step m) l0 (Err e) = Err e) by (intros l0 e; induction l0; auto).
    induction l as [|b l IH]; intros v acc v'; cbn [fold_left]; [intros [= <- <-]; reflexivity|].
    unfold sum_deriv_step at 2. cbn [bind]. destruct (leaf_deriv_v b m (DV v)) as [d|e]; cbn [bind]; [|rewrite E; discriminate].
    destruct (dadd (DV v) d) as [s|e]; cbn [bind]; [|rewrite E; discriminate].
    destruct s; try (rewrite E; discriminate). apply IH. }
  destruct (fold_left _ l _) as [[acc w]|] eqn:Ef; cbn [bind]; [|discriminate].
  rewrite (G _ _ _ Ef). intros [= <- <-]. reflexivity.
Qed.
(** Without [v]: a diagonal part given by a 1-D array collapses to that array. *)
Lemma sum_row_refuted (d : vec -> vec) n m : (0 < n)%nat -> length (d m) = n ->
  let b := mkLeaf (Some n) (Some n) (fun x => vmul (d m) x) (ByRow d) in
  sum_deriv b [b] m = Ok (DV (vadd (d m) (d m))).
Proof.
  intros Hn Ld. cbv zeta. unfold sum_deriv. cbn [last lf_in]. unfold leaf_deriv_v. cbn [lf_dk].
  destruct (eye_mat n) as [Le He]. rewrite Le, Ld, Nat.eqb_refl. cbn [bind fold_left].
  rewrite (ncol_mat n n) by (assumption || apply eye_mat).
  assert (E : mtv n (eye n) (d m) = d m).
  { apply dot_ext; [rewrite (mtv_length n n) by apply eye_mat; congruence|]. intros v Lv. rewrite (mtv_length n n) in Lv by apply eye_mat.
    rewrite <- (mv_mtv_adjoint n n) by (assumption || apply eye_mat). rewrite mv_eye by assumption. reflexivity. }
  rewrite ?E. cbn [bind fold_left dadd lf_dk]. rewrite ?Le, ?Ld, ?Nat.eqb_refl. cbn [bind lf_dk]. rewrite ?Ld, ?Nat.eqb_refl. cbn [bind]. rewrite ?E, ?Ld, ?Nat.eqb_refl. reflexivity.
Qed.

Lemma last_ne {A} (l : list A) d d' : l <> [] -> last l d = last l d'.
Proof. induction l as [|x [|y l] IH]; intros H; [congruence|reflexivity|]. apply IH. discriminate. Qed.
Lemma fold_smul_err l e : fold_left (fun acc b => do s <- acc; smul s b) l (Err e) = Err e.
Proof. induction l; auto. Qed.
Lemma product_shape a l s : product a l = Ok s -> s_out s = s_out a /\ s_in s = s_in (last l a).
Proof.
  unfold product. revert a. induction l as [|b l IH]; intros a; cbn [fold_left].
  - intros [= <-]. auto.
  - cbn [bind]. unfold smul at 2. destruct (mismatch (s_in a) (s_out b)); [rewrite fold_smul_err; discriminate|].
    intros H. apply IH in H as [-> ->]. split; [reflexivity|]. destruct l as [|c l]; [reflexivity|].
    change (last (b :: c :: l) a) with (last (c :: l) a). f_equal. apply last_ne. discriminate.
Qed.
(** The product raises ValueError exactly when two neighbouring known sizes differ. *)
Lemma product_raises a l : (exists s, product a l = Ok s) <-> compatible a l.
Proof.
  unfold product. revert a. induction l as [|b l IH]; intros a; cbn [fold_left compatible].
  - split; [intros _; exact I|intros _; eexists; reflexivity].
  - cbn [bind]. unfold smul at 2. destruct (mismatch (s_in a) (s_out b)) eqn:E.
    + rewrite fold_smul_err. split; [intros [? ?]; discriminate|]. intros [H _]. exfalso.
      unfold mismatch in E. destruct (s_in a) as [x|], (s_out b) as [y|]; try discriminate.
      rewrite (H x y eq_refl eq_refl), Nat.eqb_refl in E. discriminate.
    + rewrite IH. split.
      * intros H. split; [|destruct l; [exact I|exact H]].
        intros x y E1 E2. rewrite E1, E2 in E. cbn in E. destruct (Nat.eqb_spec x y); [assumption|discriminate].
      * intros [_ H]. destruct l; [exact I|exact H].
Qed.
Lemma product_apply a l s m y : product a l = Ok s -> let ls := leaves a ++ flat_map leaves l in
  (apply s m = Ok y <-> sizes_ok ls m /\ y = compose ls m) /\ (~ sizes_ok ls m -> apply s m = Err ValueError).
Proof. intros H. cbv zeta. rewrite <- (product_leaves a l s H). split; [apply apply_iff|apply apply_err]. Qed.
Lemma product_deriv a l s m : product a l = Ok s -> let ls := leaves a ++ flat_map leaves l in
  (0 < length m)%nat -> sizes_ok ls m -> all_correct ls m ->
  exists d J, deriv s m None = Ok d /\ stands_for (length m) d J /\
    frechet (length m) (length (compose ls m)) (compose ls) m J /\
    forall v, length v = length m -> deriv s m (Some v) = Ok (DV (mv J v)).
Proof. intros H. cbv zeta. rewrite <- (product_leaves a l s H). apply chain_rule. Qed.
Lemma sum_dv_correct n k m a l J Js v : is_same a = false -> length v = n -> part_correct n k m a J ->
  Forall2 (part_correct n k m) l Js ->
  sum_deriv_v a l m v = Ok (DV (mv (sum_mats J Js) v), v) /\
  frechet n k (fun y => sum_vecs (lf_tr a y) (map (fun b => lf_tr b y) l)) m (sum_mats J Js).
Proof.
  intros Ha Lv Pa H. split; [eapply sum_dv_ok; eassumption|]. apply sum_frechet; [apply Pa|].
  clear -H. induction H as [|b K l Js Hb H IH]; constructor; [apply Hb|exact IH].
Qed.
