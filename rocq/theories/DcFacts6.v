From Verif Require Import Py Vec VecDeriv Frechet Joint Richards RichardsFacts RichardsFacts2 RichardsFacts3 LinSimFacts SolveDeriv Dc SpecDc DcFacts DcFacts2 DcFacts3 DcFacts4 DcFacts5.
From Coq Require Import Reals Lra Lia Sorting.
Local Open Scope R_scope.

(** ** Pairs of electrodes *)
Lemma pair_eqb_spec p q : reflect (p = q) (pair_eqb p q).
Proof.
  unfold pair_eqb. destruct p as [a b], q as [c d]. cbn. destruct (Nat.eqb_spec a c), (Nat.eqb_spec b d); cbn; constructor; congruence.
Qed.
Definition lef (p q : nat * nat) : Prop := (fst p <= fst q)%nat.
Lemma insert_in p l q : In q (insert_pair p l) <-> q = p \/ In q l.
Proof.
  induction l as [|b l IH]; cbn; [intuition congruence|]. destruct (pair_eqb_spec p b) as [->|N]; cbn; [intuition congruence|]. destruct (pair_ltb p b); cbn; [intuition congruence|]. rewrite IH. intuition congruence.
Qed.
Lemma ltb_le p q : pair_ltb p q = true -> lef p q.
Proof. unfold pair_ltb, lef. intros H. apply Bool.orb_true_iff in H. destruct H as [H|H]; [apply Nat.ltb_lt in H; lia|]. apply Bool.andb_true_iff in H. destruct H as [H _]. apply Nat.eqb_eq in H. lia. Qed.
Lemma ltb_ge p q : pair_ltb p q = false -> p <> q -> lef q p.
Proof. unfold pair_ltb, lef. intros H N. apply Bool.orb_false_iff in H. destruct H as [H _]. apply Nat.ltb_ge in H. exact H. Qed.
Lemma insert_sorted p l : StronglySorted lef l -> StronglySorted lef (insert_pair p l).
Proof.
  induction l as [|b l IH]; intros S; cbn; [repeat constructor|]. destruct (pair_eqb_spec p b) as [->|N]; [exact S|]. inversion S as [|? ? S1 S2]; subst. destruct (pair_ltb p b) eqn:E.
  - constructor; [exact S|]. constructor; [apply ltb_le; exact E|]. eapply Forall_impl; [|exact S2]. intros q Hq. apply ltb_le in E. unfold lef in *. lia.
  - constructor; [apply IH; exact S1|]. apply Forall_forall. intros q Hq. apply insert_in in Hq. destruct Hq as [->|Hq]; [apply ltb_ge; assumption|]. rewrite Forall_forall in S2. apply S2. exact Hq.
Qed.
Lemma unique_sorted l : StronglySorted lef (unique_pairs l).
Proof. induction l; cbn; [constructor|]. apply insert_sorted. exact IHl. Qed.
Lemma unique_in l q : In q (unique_pairs l) <-> In q l.
Proof. induction l as [|p l IH]; cbn; [tauto|]. rewrite insert_in, IH. intuition congruence. Qed.
Lemma index_spec p u : In p u -> (index_pair p u < length u)%nat /\ forall d, nth (index_pair p u) u d = p.
Proof.
  induction u as [|b u IH]; intros H; [destruct H|]. cbn. destruct (pair_eqb_spec p b) as [->|N]; [split; [lia|reflexivity]|]. destruct H as [H|H]; [congruence|]. destruct (IH H). split; [lia|assumption].
Qed.
(** ** Groups *)
Definition expand (cur : option (nat * list nat)) : list (nat * nat) := match cur with Some (a, ms) => map (fun y => (a, y)) ms | None => [] end.
Lemma group_nD l : forall cur, survey_nD (group cur l) = (length (expand cur) + length l)%nat.
Proof.
  induction l as [|[x y] l IH]; intros [[a ms]|]; cbn [group].
  - unfold survey_nD. cbn. rewrite map_length. lia.
  - reflexivity.
  - destruct (Nat.eqb_spec x a) as [->|N].
    + rewrite IH. cbn [expand]. rewrite !map_length, app_length. cbn. lia.
    + unfold survey_nD in *. cbn [map list_sum fold_right]. change (fold_right Nat.add 0%nat) with list_sum. rewrite IH. cbn. rewrite !map_length. lia.
  - rewrite IH. cbn. lia.
Qed.
Lemma group_ids l : StronglySorted lef l -> forall a ms, Forall (fun p => (a <= fst p)%nat) l ->
  NoDup (map s_id (group (Some (a, ms)) l)) /\ Forall (fun i => (a <= i)%nat) (map s_id (group (Some (a, ms)) l)).
Proof.
  induction l as [|[x y] l IH]; intros S a ms F; cbn [group].
  - cbn. split; repeat constructor; cbn; tauto.
  - inversion S as [|? ? S1 S2]; subst. pose proof (Forall_inv F) as Fx. cbn in Fx. apply Forall_inv_tail in F. destruct (Nat.eqb_spec x a) as [->|N]; [apply IH; assumption|].
    destruct (IH S1 x [y] ltac:(exact S2)) as [N1 N2]. cbn [map s_id pole_source]. split.
    + constructor; [|exact N1]. intros Hi. rewrite Forall_forall in N2. specialize (N2 a Hi). lia.
    + constructor; [lia|]. eapply Forall_impl; [|exact N2]. cbn. intros; lia.
Qed.
Lemma group_nodup l : StronglySorted lef l -> NoDup (map s_id (group None l)).
Proof. destruct l as [|[x y] l]; intros S; cbn; [constructor|]. inversion S as [|? ? S1 S2]; subst. apply group_ids; [exact S1|]. exact S2. Qed.
Lemma group_rx l : forall cur, Forall (fun src => Forall (rx_ok src) (s_rx src)) (group cur l).
Proof.
  induction l as [|[x y] l IH]; intros [[a ms]|]; cbn [group].
  - repeat constructor; cbn; auto; discriminate.
  - constructor.
  - destruct (Nat.eqb x a); [apply IH|]. constructor; [|apply IH]. repeat constructor; cbn; auto; discriminate.
  - apply IH.
Qed.
Lemma masked_filter {A} (e : list A) (mask : A -> bool) (op : R -> R -> R) (f g : A -> R) :
  masked op (map mask e) (map f e) (map g (filter mask e)) = map (fun x => if mask x then op (f x) (g x) else f x) e.
Proof. induction e as [|x e IH]; [reflexivity|]. cbn [map filter]. destruct (mask x); cbn [masked map]; rewrite IH; reflexivity. Qed.
Lemma count_filter {A} (e : list A) (mask : A -> bool) : count (map mask e) = length (filter mask e).
Proof. unfold count. induction e as [|x e IH]; [reflexivity|]. cbn. destruct (mask x); cbn; rewrite IH; reflexivity. Qed.
Definition fA (q : nat * nat * nat * nat) := let '(a, b, m, n) := q in a. Definition fB (q : nat * nat * nat * nat) := let '(a, b, m, n) := q in b.
Definition fM (q : nat * nat * nat * nat) := let '(a, b, m, n) := q in m. Definition fN (q : nat * nat * nat * nat) := let '(a, b, m, n) := q in n.
Definition isrx (q : nat * nat * nat * nat) : bool := negb (Nat.eqb (fM q) (fN q)).
Definition istx (q : nat * nat * nat * nat) : bool := negb (Nat.eqb (fA q) (fB q)).
Lemma mini_form srcs : let e := abmn srcs in
  let AM := map (fun q => sorted_pair (fA q) (fM q)) e in let AN := map (fun q => sorted_pair (fA q) (fN q)) (filter isrx e) in
  let BM := map (fun q => sorted_pair (fB q) (fM q)) (filter istx e) in let BN := map (fun q => sorted_pair (fB q) (fN q)) (filter (fun q => istx q && isrx q)%bool e) in
  let u := unique_pairs (AM ++ AN ++ BM ++ BN) in let inv := map (fun p => index_pair p u) in
  mini_pole_pole srcs = mkMini (map isrx e) (map istx e) (inv AM) (inv AN) (inv BM) (inv BN) (group None u).
Proof.
  cbv zeta. unfold mini_pole_pole. generalize (abmn srcs). intros e.
  assert (E1 : map (fun '(a, b, m, n) => negb (Nat.eqb m n)) e = map isrx e) by (apply map_ext; intros [[[a b] m] n]; reflexivity).
  assert (E2 : map (fun '(a, b, m, n) => negb (Nat.eqb a b)) e = map istx e) by (apply map_ext; intros [[[a b] m] n]; reflexivity).
  assert (E3 : map (fun '(a, b, m, n) => sorted_pair a m) e = map (fun q => sorted_pair (fA q) (fM q)) e) by (apply map_ext; intros [[[a b] m] n]; reflexivity).
  assert (E4 : map (fun '(a, b, m, n) => sorted_pair a n) (filter (fun '(a, b, m, n) => negb (Nat.eqb m n)) e) = map (fun q => sorted_pair (fA q) (fN q)) (filter isrx e)).
  { rewrite (filter_ext (fun '(a, b, m, n) => negb (Nat.eqb m n)) isrx) by (intros [[[a b] m] n]; reflexivity). apply map_ext; intros [[[a b] m] n]; reflexivity. }
  assert (E5 : map (fun '(a, b, m, n) => sorted_pair b m) (filter (fun '(a, b, m, n) => negb (Nat.eqb a b)) e) = map (fun q => sorted_pair (fB q) (fM q)) (filter istx e)).
  { rewrite (filter_ext (fun '(a, b, m, n) => negb (Nat.eqb a b)) istx) by (intros [[[a b] m] n]; reflexivity). apply map_ext; intros [[[a b] m] n]; reflexivity. }
  assert (E6 : map (fun '(a, b, m, n) => sorted_pair b n) (filter (fun '(a, b, m, n) => negb (Nat.eqb a b) && negb (Nat.eqb m n))%bool e) = map (fun q => sorted_pair (fB q) (fN q)) (filter (fun q => istx q && isrx q)%bool e)).
  { rewrite (filter_ext (fun '(a, b, m, n) => negb (Nat.eqb a b) && negb (Nat.eqb m n))%bool (fun q => istx q && isrx q)%bool) by (intros [[[a b] m] n]; reflexivity). apply map_ext; intros [[[a b] m] n]; reflexivity. }
  rewrite E1, E2, E3, E4, E5, E6. reflexivity.
Qed.
Lemma both_mini e u v w x l : both (mkMini (map isrx e) (map istx e) u v w x l) = map (fun q => istx q && isrx q)%bool e.
Proof. unfold both. cbn [mi_rx mi_tx]. induction e as [|q e IH]; [reflexivity|]. cbn [map combine fst snd]. rewrite IH, Bool.andb_comm. reflexivity. Qed.

Lemma mini_mini_ok srcs : mini_ok (mini_pole_pole srcs).
Proof.
  rewrite mini_form. set (e := abmn srcs). set (AM := map (fun q => sorted_pair (fA q) (fM q)) e). set (AN := map _ (filter isrx e)). set (BM := map _ (filter istx e)). set (BN := map _ (filter _ e)). set (u := unique_pairs _).
  unfold mini_ok. cbn [mi_rx mi_tx mi_am mi_an mi_bm mi_bn mi_srcs].
  split; [split; [apply group_nodup, unique_sorted|apply group_rx]|]. rewrite both_mini. rewrite !count_filter, !map_length. unfold AM, AN, BM, BN. rewrite !map_length. repeat (split; [reflexivity|]).
  rewrite group_nD. cbn [expand length Nat.add]. rewrite <- !map_app. apply Forall_forall. intros i Hi. apply in_map_iff in Hi. destruct Hi as (p & <- & Hp). apply index_spec. unfold u. apply unique_in. exact Hp.
Qed.

Section Same.
  Context (s : dc) (SZ : sizes s) (NF : d_form s = Nodal) (srcs : list source) (US : unit_survey srcs).
  Let n := d_n s.
  Lemma unit_setup : setup_ok (full s) srcs.
  Proof.
    split; [exact SZ|]. cbn. destruct US as [ND F]. split; [exact ND|]. eapply Forall_impl; [|exact F]. intros src [_ Fr]. eapply Forall_impl; [|exact Fr]. intros r [A B]. split; [|congruence]. destruct (r_n r); [apply B|exact I].
  Qed.
  Lemma mini_setup : setup_ok (miniaturized s srcs) srcs.
  Proof. split; [exact SZ|]. cbn [miniaturized with_mini d_mini]. apply mini_mini_ok. Qed.
  Lemma same_size : data_size (miniaturized s srcs) srcs = data_size (full s) srcs.
  Proof.
    unfold data_size. cbn [miniaturized full with_mini d_mini]. rewrite mini_form. cbn [mi_am]. rewrite !map_length. destruct US as [_ F]. clear US. unfold abmn, survey_nD. induction srcs as [|x l IH]; [reflexivity|].
    cbn [map concat list_sum fold_right]. rewrite app_length. change (fold_right Nat.add 0%nat) with list_sum. rewrite IH by exact (Forall_inv_tail F). f_equal. pose proof (proj2 (Forall_inv F)) as Fr. clear - Fr. induction (s_rx x) as [|r rs IH]; [reflexivity|].
    cbn [map concat list_sum fold_right]. rewrite app_length. change (fold_right Nat.add 0%nat) with list_sum. rewrite IH by exact (Forall_inv_tail Fr). f_equal. destruct (Forall_inv Fr) as [_ H]. unfold abmn_rx, nD. rewrite map_length, combine_length. destruct (r_n r); lia.
  Qed.
  Context (K : vec -> vec) (LK : lin_map n n K) (SK : forall p q, length p = n -> length q = n -> dot p (K q) = dot q (K p)).
  Let I := d_interp s.
  Lemma LI k : length (I k) = n. Proof. apply SZ. Qed.
  Definition phi (p : nat * nat) : R := dot (I (snd p)) (K (I (fst p))).
  Lemma phi_sorted a b : phi (sorted_pair a b) = phi (a, b).
  Proof. unfold phi, sorted_pair. cbn [fst snd]. destruct (Nat.le_ge_cases a b). - rewrite Nat.max_r, Nat.min_l by assumption. reflexivity. - rewrite Nat.max_l, Nat.min_r by assumption. apply SK; apply LI. Qed.
  Definition val4 (q : nat * nat * nat * nat) : R :=
    let am := phi (fA q, fM q) in let am := if isrx q then am - phi (fA q, fN q) else am in let am := if istx q then am - phi (fB q, fM q) else am in if (istx q && isrx q)%bool then am + phi (fB q, fN q) else am.
  Lemma ev_pole src a : s_locs src = [a] -> s_cur src = [1] -> K (src_eval s src) = K (I a).
  Proof. intros E1 E2. unfold src_eval, currents. rewrite NF, E1, E2. cbn [map combine fold_right fst snd]. f_equal. rewrite vscale_1. apply vadd_zero_r. apply LI. Qed.
  Lemma ev_dip src a b : s_locs src = [a; b] -> s_cur src = [1; -1] -> K (src_eval s src) = vsub (K (I a)) (K (I b)).
  Proof.
    intros E1 E2. unfold src_eval, currents. rewrite NF, E1, E2. cbn [map combine fold_right fst snd]. rewrite vscale_1. pose proof (LI a). pose proof (LI b).
    fold I. fold n. rewrite vadd_zero_r by ln. rewrite (proj1 (proj2 LK)) by (auto; ln). rewrite (proj2 (proj2 LK)) by auto. symmetry. apply vsub_as_add.
  Qed.
  Lemma meas_val src r : unit_source src -> volt_rx r -> meas s src r (K (src_eval s src)) = map val4 (abmn_rx src r).
  Proof.
    intros HS [HA HR]. unfold meas, fac. rewrite HA.
    assert (X : forall k, dot (I k) (K (src_eval s src)) = phi (elec_a src, k) - (if Nat.eqb (elec_a src) (elec_b src) then 0 else phi (elec_b src, k))).
    { intros k. unfold phi. cbn [fst snd]. unfold elec_a, elec_b. destruct HS as [(a & E1 & E2)|(a & b & N & E1 & E2)].
      - rewrite (ev_pole src a E1 E2), E1. cbn [nth]. rewrite Nat.eqb_refl. ring.
      - rewrite (ev_dip src a b E1 E2), E1. cbn [nth]. destruct (Nat.eqb_spec a b); [contradiction|]. rewrite dot_vsub_r; [ring|]. pose proof (proj1 LK). rewrite !H by apply LI. reflexivity. }
    unfold getP, abmn_rx. fold I. destruct (r_n r) as [ns|].
    - destruct HR as [L F]. rewrite (vmul_ones s) by (unfold mv; rewrite !map_length, combine_length; lia). unfold mv. rewrite !map_map. apply map_ext_in. intros [k l] Hk. cbn [fst snd]. rewrite Forall_forall in F. specialize (F _ Hk). cbn in F.
      rewrite dot_vsub_l by (rewrite !LI; reflexivity). rewrite !X. unfold val4, isrx, istx, fA, fB, fM, fN. destruct (Nat.eqb_spec k l); [contradiction|]. destruct (Nat.eqb (elec_a src) (elec_b src)); cbn [negb andb]; ring.
    - rewrite (vmul_ones s) by (unfold mv; rewrite !map_length; reflexivity). unfold mv. rewrite !map_map. clear HA HR. induction (r_m r) as [|k ms IH]; [reflexivity|]. cbn [map combine]. f_equal; [|exact IH]. cbn [fst snd].
      rewrite X. unfold val4, isrx, istx, fA, fB, fM, fN. rewrite Nat.eqb_refl. destruct (Nat.eqb (elec_a src) (elec_b src)); cbn [negb andb]; ring.
  Qed.
  Lemma loop_val : loop (fun src r => meas s src r (K (src_eval s src))) srcs = map val4 (abmn srcs).
  Proof.
    unfold loop, abmn. destruct US as [_ F]. rewrite concat_map, map_map. f_equal. apply map_ext_in. intros src Hs. rewrite Forall_forall in F. destruct (F src Hs) as [HU HR]. rewrite concat_map, map_map. f_equal. apply map_ext_in. intros r Hr.
    rewrite Forall_forall in HR. apply meas_val; auto.
  Qed.
  Lemma group_val l : forall cur, loop (fun src r => meas s src r (K (src_eval s src))) (group cur l) = map phi (expand cur ++ l).
  Proof.
    assert (PS : forall a ms, meas s (pole_source a ms) (mkRx ms None false []) (K (src_eval s (pole_source a ms))) = map (fun y => phi (a, y)) ms).
    { intros a ms. unfold meas, fac. cbn [r_app r_m]. rewrite (ev_pole (pole_source a ms) a eq_refl eq_refl). unfold getP. cbn [r_n r_m]. rewrite (vmul_ones s) by (unfold mv; rewrite !map_length; reflexivity). unfold mv. rewrite map_map. reflexivity. }
    induction l as [|[x y] l IH]; intros [[a ms]|]; cbn [group].
    - unfold loop. cbn [map concat s_rx pole_source]. rewrite !app_nil_r. cbn [expand]. rewrite map_map. exact (PS a ms).
    - reflexivity.
    - destruct (Nat.eqb_spec x a) as [->|N].
      + rewrite IH. cbn [expand]. rewrite (map_app (fun y => (a, y))), <- app_assoc. reflexivity.
      + unfold loop in *. cbn [map concat s_rx pole_source]. rewrite IH. rewrite app_nil_r. cbn [expand]. rewrite !map_app. cbn [map app]. rewrite (map_map (fun y => (a, y))). f_equal. exact (PS a ms).
    - rewrite IH. reflexivity.
  Qed.
  Lemma mini_same : mini_data (miniaturized s srcs) 0 Rminus Rplus (loop (fun src r => meas s src r (K (src_eval s src))) (mi_srcs (mini_pole_pole srcs))) = loop (fun src r => meas s src r (K (src_eval s src))) srcs.
  Proof.
    rewrite loop_val. unfold mini_data. cbn [miniaturized with_mini d_mini]. rewrite mini_form. set (e := abmn srcs). set (AM := map (fun q => sorted_pair (fA q) (fM q)) e). set (AN := map _ (filter isrx e)). set (BM := map _ (filter istx e)). set (BN := map _ (filter _ e)). set (u := unique_pairs _).
    rewrite both_mini. cbn [mi_rx mi_tx mi_am mi_an mi_bm mi_bn mi_srcs]. rewrite group_val. cbn [expand app].
    assert (T : forall l, incl l (AM ++ AN ++ BM ++ BN) -> take 0 (map phi u) (map (fun p => index_pair p u) l) = map phi l).
    { intros l Hl. unfold take. rewrite map_map. apply map_ext_in. intros p Hp. destruct (index_spec p u) as [H1 H2]; [unfold u; apply unique_in, Hl, Hp|].
      rewrite (nth_indep _ 0 (phi (0%nat, 0%nat))) by (rewrite map_length; exact H1). rewrite map_nth, H2. reflexivity. }
    rewrite (T AM) by (intros x Hx; apply in_or_app; auto). rewrite (T AN) by (intros x Hx; apply in_or_app; right; apply in_or_app; auto). rewrite (T BM) by (intros x Hx; apply in_or_app; right; apply in_or_app; right; apply in_or_app; auto).
    rewrite (T BN) by (intros x Hx; apply in_or_app; right; apply in_or_app; right; apply in_or_app; auto).
    unfold AM, AN, BM, BN. rewrite !map_map. rewrite masked_filter. rewrite masked_filter. rewrite masked_filter. apply map_ext. intros q. unfold val4. rewrite !phi_sorted. reflexivity.
  Qed.
End Same.

Lemma getADeriv_sym s (SZ : sizes s) m u v w : d_form s = Nodal -> d_neumann s = false -> length m = d_p s -> length u = d_n s -> length v = d_p s -> length w = d_n s ->
  dot w (getADeriv s m u v) = dot u (getADeriv s m w v).
Proof.
  intros NF NN Lm Lu Lv Lw. destruct SZ as (G & M & D & B & P & _). destruct (P m Lm) as [Lp HP]. pose proof (proj1 M) as LM. pose proof (proj1 G) as LG. pose proof (proj1 HP) as LP.
  assert (Ld : length (mv (d_dprop s m) v) = d_nc s) by ln. assert (Lmd : length (mv (d_M s) (mv (d_dprop s m) v)) = d_nf s) by ln. pose proof (proj1 (B NF)) as LB. assert (Lbd : length (mv (d_bc s) (mv (d_dprop s m) v)) = d_n s) by ln.
  unfold getADeriv, mass_deriv. rewrite NF, NN. set (md := mv (d_M s) (mv (d_dprop s m) v)) in *. set (bd := mv (d_bc s) (mv (d_dprop s m) v)) in *.
  assert (Lgu : length (mv (d_G s) u) = d_nf s) by ln. assert (Lgw : length (mv (d_G s) w) = d_nf s) by ln.
  assert (LT : forall x, length (mtv (d_n s) (d_G s) x) = d_n s) by (intros; eapply mtv_length; exact G).
  rewrite !dot_vadd_r by (rewrite LT; symmetry; ln). f_equal.
  - rewrite (dot_comm w), (dot_comm u). rewrite <- !(mv_mtv_adjoint (d_nf s) (d_n s)) by (auto; ln). rewrite !dot_vmul. rewrite dot_comm. rewrite (dot_comm md). f_equal.
    vext (d_nf s). ring.
  - rewrite !(dot_comm _ (vmul _ _)), !dot_vmul. f_equal. vext (d_n s). ring.
Qed.
Section Equal.
  Context (s : dc) (SZ : sizes s) (NF : d_form s = Nodal) (NN : d_neumann s = false) (srcs : list source) (US : unit_survey srcs) (m : vec) (Lm : length m = d_p s) (SV : solves (d_n s) (d_solve s) (getA s m)).
  Lemma SYM : symmetric (d_n s) (getA s m). Proof. apply nodal_symmetric; assumption. Qed.
  Lemma LSV : lin_map (d_n s) (d_n s) (d_solve s (getA s m)).
  Proof. apply solves_lin; [apply getA_lin; assumption|intros; apply SZ; assumption|exact SV]. Qed.
  Lemma F0_same : F0 (miniaturized s srcs) srcs m = F0 (full s) srcs m.
  Proof.
    apply (mini_same s SZ NF srcs US (d_solve s (getA s m)) LSV). intros p q Lp Lq. rewrite (sym_solve s SZ m Lm SV SYM) by assumption. apply dot_comm.
  Qed.
  Lemma J0_same v : length v = d_p s -> J0 (miniaturized s srcs) srcs m v = J0 (full s) srcs m v.
  Proof.
    intros Lv. pose proof LSV as L1. assert (LD : forall q, length q = d_n s -> lin_map (d_p s) (d_n s) (getADeriv s m (d_solve s (getA s m) q))) by (intros q Lq; apply getADeriv_lin; auto; apply L1; exact Lq).
    pose (K := fun q => d_solve s (getA s m) (vopp (getADeriv s m (d_solve s (getA s m) q) v))).
    assert (LL : forall q, length q = d_n s -> length (getADeriv s m (d_solve s (getA s m) q) v) = d_n s) by (intros q Lq; apply (LD q Lq); exact Lv).
    assert (SK : forall p q, length p = d_n s -> length q = d_n s -> dot p (K q) = dot q (K p)).
    { intros p q Lp Lq. unfold K. pose proof (LL p Lp). pose proof (LL q Lq). rewrite !(sym_solve s SZ m Lm SV SYM) by (auto; ln). rewrite !dot_vopp_r. f_equal. apply getADeriv_sym; auto; apply L1; assumption. }
    assert (LK : lin_map (d_n s) (d_n s) K).
    { apply (lin_of_adjoint _ _ K K). - intros q Lq. unfold K. apply L1. pose proof (LL q Lq). ln. - intros q p Lq Lp. rewrite (SK p q Lp Lq). apply dot_comm. }
    exact (mini_same s SZ NF srcs US K LK SK).
  Qed.
  Lemma c65_same v w : length v = d_p s -> length w = data_size (full s) srcs ->
    (exists d, snd (dpred (full s) (init srcs) m None) = Ok d) /\ snd (dpred (miniaturized s srcs) (init srcs) m None) = snd (dpred (full s) (init srcs) m None) /\
    snd (Jvec (miniaturized s srcs) (init srcs) m v None) = snd (Jvec (full s) (init srcs) m v None) /\
    snd (Jtvec (miniaturized s srcs) (init srcs) m w None) = snd (Jtvec (full s) (init srcs) m w None).
  Proof.
    intros Lv Lw. pose proof (unit_setup s SZ srcs US) as S0. pose proof (mini_setup s SZ srcs) as S1. pose proof SYM as SY.
    split; [eexists; apply (dpred_val (full s) srcs S0 m Lm)|].
    split; [rewrite (dpred_val (full s) srcs S0 m Lm), (dpred_val (miniaturized s srcs) srcs S1 m Lm); f_equal; apply F0_same|].
    split.
    - rewrite (Jvec_val (full s) srcs S0 m v Lm Lv SV (fun _ => SY)), (Jvec_val (miniaturized s srcs) srcs S1 m v Lm Lv SV (fun _ => SY)). f_equal. apply J0_same. exact Lv.
    - destruct (Jtvec_val (full s) srcs S0 m w Lm Lw SV SY) as (a & -> & La & Q). destruct (Jtvec_val (miniaturized s srcs) srcs S1 m w Lm (eq_trans Lw (eq_sym (same_size s srcs US))) SV SY) as (b & -> & Lb & Q').
      f_equal. apply dot_ext; [exact (eq_trans Lb (eq_sym La))|]. intros x Lx. assert (Lx' : length x = d_p s) by exact (eq_trans Lx Lb). rewrite (Q' x Lx'), (Q x Lx'), J0_same by exact Lx'. reflexivity.
  Qed.
End Equal.
