(** Derivatives of the kernel of layered DC resistivity. *)
From Verif Require Import Py Vec VecDeriv Dc1d SpecDc1d Dc1dFacts EmpirFacts XyzIOFacts2.
From Coq Require Import Lra Lia.
Local Open Scope R_scope.

Lemma dpl_tanh (f : R -> R) x f' : derivable_pt_lim f x f' -> derivable_pt_lim (fun t => tanh (f t)) x ((1 - tanh (f x) ^ 2) * f').
Proof.
  intros H. pose proof (cosh_pos (f x)) as C. pose proof (cosh2 (f x)) as C2.
  eapply dpl_eq; [|apply (dpl_comp f tanh); [exact H|]].
  2:{ apply (dpl_div sinh cosh); [apply derivable_pt_lim_sinh|apply derivable_pt_lim_cosh|lra]. }
  unfold tanh. rewrite Rmult_comm. rewrite (Rmult_comm _ f'). f_equal. field. lra.
Qed.
Definition ev (cs : list ((R -> R) * (R -> R))) (t : R) : list (R * R) := map (fun c => (fst c t, snd c t)) cs.
Fixpoint gsum (gs ds : list (R * R)) : R := match gs, ds with g :: gs, d :: ds => fst g * fst d + snd g * snd d + gsum gs ds | _, _ => 0 end.
Lemma sweep_length lam : forall ls g rb, length (fst (sweep lam g ls rb)) = length ls.
Proof. induction ls as [|[r h] ls IH]; intros; cbn; [reflexivity|]. match goal with |- context [sweep lam ?x ls rb] => specialize (IH x rb); destruct (sweep lam x ls rb) end. cbn in *. now rewrite IH. Qed.
Lemma phi_deriv lam (rb : R -> R) rb' t0 : 0 <= lam -> 0 < rb t0 -> derivable_pt_lim rb t0 rb' -> forall cs ds,
  Forall2 (fun c d => derivable_pt_lim (fst c) t0 (fst d) /\ derivable_pt_lim (snd c) t0 (snd d)) cs ds ->
  Forall (fun l => 0 < fst l /\ 0 <= snd l) (ev cs t0) ->
  exists D, derivable_pt_lim (fun t => phi lam (ev cs t) (rb t)) t0 D /\
    forall g, g * D = gsum (fst (sweep lam g (ev cs t0) (rb t0))) ds + snd (sweep lam g (ev cs t0) (rb t0)) * rb'.
Proof.
  intros Hl Hb HB. induction 1 as [|[cr ch] [dr dh] cs ds [D1 D2] _ IH]; intros HP.
  - exists rb'. split; [exact HB|]. intros g. cbn. ring.
  - cbn in HP, D1, D2. fold (ev cs t0) in HP. inversion HP as [|x l [P1 P2] P3]; subst. cbn in P1, P2. destruct (IH P3) as (D & HD & HG).
    pose proof (phi_pos lam _ _ Hl Hb P3) as Ht. pose proof (bot_pos lam _ _ _ Hl P1 P2 Ht) as HBt.
    set (t1 := phi lam (ev cs t0) (rb t0)) in *. set (th := tanh (lam * ch t0)).
    assert (DT := dpl_tanh (fun t => lam * ch t) t0 (lam * dh) (dpl_scal lam ch t0 dh D2)). cbn beta in DT. fold th in DT.
    set (dth := (1 - th ^ 2) * (lam * dh)) in DT.
    assert (Dtop : derivable_pt_lim (fun t => top_ lam (cr t, ch t) (phi lam (ev cs t) (rb t))) t0 (D + (dr * th + cr t0 * dth))).
    { unfold top_; cbn [fst snd]. apply dpl_plus; [exact HD|]. apply dpl_mult; assumption. }
    assert (Dbot : derivable_pt_lim (fun t => bot_ lam (cr t, ch t) (phi lam (ev cs t) (rb t))) t0 (0 + ((D * th + t1 * dth) * cr t0 - t1 * th * dr) / cr t0 ^ 2)).
    { unfold bot_; cbn [fst snd]. apply dpl_plus; [apply dpl_const|]. apply (dpl_div (fun t => phi lam (ev cs t) (rb t) * tanh (lam * ch t)) cr); [apply dpl_mult; assumption|exact D1|lra]. }
    set (B := bot_ lam (cr t0, ch t0) t1) in *. set (A := top_ lam (cr t0, ch t0) t1).
    eexists. split; [cbn [ev map phi fst snd]; fold (ev cs); apply (dpl_div (fun t => top_ lam (cr t, ch t) (phi lam (ev cs t) (rb t))) (fun t => bot_ lam (cr t, ch t) (phi lam (ev cs t) (rb t)))); [exact Dtop|exact Dbot|cbv beta; fold t1; fold B; apply Rgt_not_eq; exact HBt]|].
    intros g. cbn [ev map sweep fst snd]. fold (ev cs t0). fold t1. fold th. fold B. fold A.
    set (gt := th / cr t0 * (- (A / B) / B * g) + g / B).
    specialize (HG gt). destruct (sweep lam gt (ev cs t0) (rb t0)) as [rest gb]. cbn [fst snd gsum] in *.
    match goal with |- _ = ?a + gsum rest ds + gb * rb' => transitivity (a + gt * D); [|rewrite HG; ring] end.
    fold t1. fold A. fold B. unfold gt, dth. clearbody A B. field. split; lra.
Qed.

(** ** Vectors *)
Definition lay (n : nat) (rs hs : vec) : list (R * R) := map (fun i => (nth i rs 0, nth i hs 0)) (seq 0 n).
Lemma vec_seq (v : vec) : v = map (fun i => nth i v 0) (seq 0 (length v)).
Proof. apply vec_ext; [now rewrite map_length, seq_length|]. intros i Hi. now rewrite nth_map_seq by exact Hi. Qed.
Lemma removelast_seq (v : vec) n : length v = S n -> removelast v = map (fun i => nth i v 0) (seq 0 n).
Proof. intros H. rewrite (vec_seq v) at 1. rewrite H, seq_S, map_app. cbn [map plus]. now rewrite removelast_last. Qed.
Lemma last_seq (v : vec) n : length v = S n -> last v 0 = nth n v 0.
Proof. intros H. rewrite (vec_seq v) at 1. rewrite H, seq_S, map_app. cbn [map plus]. now rewrite last_last. Qed.
Lemma combine_map {A B C} (f : A -> B) (g : A -> C) l : combine (map f l) (map g l) = map (fun x => (f x, g x)) l.
Proof. induction l as [|x l IH]; [reflexivity|]. cbn. now rewrite IH. Qed.
Lemma layers_ok n rs hs : length rs = S n -> length hs = n -> layers rs hs = Ok (lay n rs hs, nth n rs 0).
Proof.
  intros Hr Hh. unfold layers. destruct rs as [|r0 rs0] eqn:E; [discriminate|]. rewrite <- E in *. rewrite Hr, Hh.
  replace (S n - 1 <=? n)%nat with true by (symmetry; apply Nat.leb_le; lia). rewrite (last_seq rs n Hr), (removelast_seq rs n Hr).
  rewrite (vec_seq hs) at 1. rewrite Hh, combine_map. reflexivity.
Qed.
Lemma gsum_dot : forall gs ds, length gs = length ds -> gsum gs ds = dot (map fst gs) (map fst ds) + dot (map snd gs) (map snd ds).
Proof. induction gs as [|g gs IH]; intros [|d ds]; cbn; intros; try lia; [lra|]. rewrite IH by lia. lra. Qed.
Lemma dot_app a b c d : length a = length c -> dot (a ++ b) (c ++ d) = dot a c + dot b d.
Proof. revert c; induction a as [|x a IH]; intros [|y c]; cbn; intros; try lia; [lra|]. rewrite IH by lia. lra. Qed.
Definition rowr (lam : R) (n : nat) (rs hs : vec) : vec := let g := sweep lam 1 (lay n rs hs) (nth n rs 0) in map fst (fst g) ++ [snd g].
Definition rowh (lam : R) (n : nat) (rs hs : vec) : vec := map snd (fst (sweep lam 1 (lay n rs hs) (nth n rs 0))).
Lemma lay_length n rs hs : length (lay n rs hs) = n. Proof. unfold lay. now rewrite map_length, seq_length. Qed.
Lemma rowr_length lam n rs hs : length (rowr lam n rs hs) = S n.
Proof. unfold rowr. cbv zeta. rewrite app_length, map_length, sweep_length, lay_length. cbn. lia. Qed.
Lemma rowh_length lam n rs hs : length (rowh lam n rs hs) = n.
Proof. unfold rowh. now rewrite map_length, sweep_length, lay_length. Qed.
Lemma lay_pos n rs hs : positive rs -> positive hs -> length rs = S n -> length hs = n -> Forall (fun l => 0 < fst l /\ 0 <= snd l) (lay n rs hs) /\ 0 < nth n rs 0.
Proof.
  unfold positive. rewrite !Forall_forall. intros A B C D. split.
  - unfold lay. intros x Hx. apply in_map_iff in Hx as (i & <- & Hi). apply in_seq in Hi. cbn. split; [apply A, nth_In; lia|left; apply B, nth_In; lia].
  - apply A, nth_In. lia.
Qed.
Lemma kernel_deriv lam n rs hs t0 rs' hs' : 0 <= lam -> vderiv (S n) rs t0 rs' -> vderiv n hs t0 hs' -> positive (rs t0) -> positive (hs t0) ->
  derivable_pt_lim (fun t => phi lam (lay n (rs t) (hs t)) (nth n (rs t) 0)) t0 (dot (rowr lam n (rs t0) (hs t0)) rs' + dot (rowh lam n (rs t0) (hs t0)) hs').
Proof.
  intros Hl (L1 & L1' & D1) (L2 & L2' & D2) P1 P2.
  destruct (lay_pos n (rs t0) (hs t0) P1 P2 (L1 t0) (L2 t0)) as [PL PB].
  set (cs := map (fun i => (fun t => nth i (rs t) 0, fun t => nth i (hs t) 0)) (seq 0 n)).
  assert (EV : forall t, ev cs t = lay n (rs t) (hs t)) by (intros t; unfold ev, cs, lay; rewrite map_map; reflexivity).
  destruct (phi_deriv lam (fun t => nth n (rs t) 0) (nth n rs' 0) t0 Hl PB (D1 n ltac:(lia)) cs (lay n rs' hs')) as (D & HD & HG).
  { unfold cs, lay. assert (forall l, (forall i, In i l -> (i < n)%nat) -> Forall2 (fun c d => derivable_pt_lim (fst c) t0 (fst d) /\ derivable_pt_lim (snd c) t0 (snd d))
      (map (fun i => (fun t => nth i (rs t) 0, fun t => nth i (hs t) 0)) l) (map (fun i => (nth i rs' 0, nth i hs' 0)) l)) as K.
    { induction l as [|i l IH]; intros Hin; cbn; constructor; [|apply IH; intros; apply Hin; now right].
      assert (i < n)%nat by (apply Hin; now left). split; cbn; [apply D1; lia|apply D2; lia]. }
    apply K. intros i Hi. apply in_seq in Hi. lia. }
  { rewrite EV. exact PL. }
  eapply dpl_ext; [intros t; rewrite <- EV; reflexivity|]. eapply dpl_eq; [|exact HD]. specialize (HG 1). rewrite Rmult_1_l in HG. rewrite HG, EV.
  unfold rowr, rowh. cbv zeta. set (g := sweep lam 1 (lay n (rs t0) (hs t0)) (nth n (rs t0) 0)).
  assert (LG : length (fst g) = n) by (unfold g; now rewrite sweep_length, lay_length).
  rewrite gsum_dot by (now rewrite lay_length).
  assert (E1 : rs' = map fst (lay n rs' hs') ++ [nth n rs' 0]). { unfold lay. rewrite map_map. cbn [fst]. rewrite (vec_seq rs') at 1. rewrite L1', seq_S, map_app. reflexivity. }
  assert (E2 : hs' = map snd (lay n rs' hs')). { unfold lay. rewrite map_map. cbn [snd]. rewrite (vec_seq hs') at 1. rewrite L2'. reflexivity. }
  replace (dot (map fst (fst g) ++ [snd g]) rs') with (dot (map fst (fst g) ++ [snd g]) (map fst (lay n rs' hs') ++ [nth n rs' 0])) by (f_equal; symmetry; exact E1).
  rewrite dot_app by (now rewrite !map_length, lay_length). rewrite <- E2. cbn [dot]. lra.
Qed.
