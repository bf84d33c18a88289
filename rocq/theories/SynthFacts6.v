(** Uncertainties reported for synthetic data, and where sharing and noise go wrong. *)
From Verif Require Import Py Vec Survey DataM Synth SpecSynth SynthFacts SynthFacts2 SynthFacts3 SynthFacts4 SynthFacts5.
From Coq Require Import Lia Lra.
Local Open Scope R_scope.
Local Open Scope list_scope.

Lemma check_uncert_at : forall n v w, check_uncert n v = Ok w -> v <> UNone -> exists u, w = Some u /\ length u = n /\ forall i, (i < n)%nat -> nth i u 0 = at_datum v i.
Proof.
  assert (Rep : forall n x w, (if existsb (fun y => Rltb y 0) (repeat x n) then Err ValueError else Ok (Some (repeat x n))) = Ok w ->
    exists u, w = Some u /\ length u = n /\ forall i, (i < n)%nat -> nth i u 0 = x).
  { intros n x w H. destruct (existsb _ _); [discriminate|]. injection H as <-. eexists. split; [reflexivity|]. split; [apply repeat_length|].
    intros i Hi. rewrite (nth_indep _ 0 x) by (rewrite repeat_length; exact Hi). apply nth_repeat. }
  intros n v w H N. destruct v as [|x|v]; [destruct (N eq_refl)|exact (Rep n x w H)|].
  destruct v as [|x [|y v]].
  - cbn [check_uncert] in H. destruct (Nat.eqb_spec (@length R []) n) as [E|]; [|discriminate]. destruct (existsb _ _); [discriminate|]. injection H as <-. eexists. split; [reflexivity|]. split; [exact E|]. reflexivity.
  - exact (Rep n x w H).
  - cbn [check_uncert] in H. destruct (Nat.eqb_spec (length (x :: y :: v)) n) as [E|]; [|discriminate]. destruct (existsb _ _); [discriminate|]. injection H as <-. eexists. split; [reflexivity|]. split; [exact E|]. reflexivity.
Qed.

Theorem reported : forall nD h p r f z h' o r' f', (forall j, In j (refs r ++ refs f) -> (j < length h)%nat) -> NoDup (refs r ++ refs f) ->
  value_of h r = Ok r' -> value_of h f = Ok f' -> make_synthetic nD h p r f FTrue z false = Ok (h', o) ->
  exists s, std_of h' o = Ok s /\ length s = nD /\ forall i, (i < nD)%nat -> nth i s 0 = sigma (at_datum r' i) (at_datum f' i) (nth i (shown h' (o_dobs o)) (0, 0)).
Proof.
  intros nD h p r f z h' o r' f' Hr ND Vr Vf M. pose proof (synthetic_value nD h p r f z Hr ND) as K.
  destruct (synthetic_noise nD h p r f z h' o Hr ND M) as (r2 & f2 & E1 & E2 & _ & _ & Sh). rewrite Vr in E1. rewrite Vf in E2. injection E1 as <-. injection E2 as <-.
  rewrite Vr, Vf in K. cbn [bind] in K.
  destruct (match r', f' with UNone, _ | _, UNone => Err TypeError | _, _ => Ok tt end) eqn:U; cbn [bind] in K; [|destruct K as [e' K]; congruence].
  assert (Nr : r' <> UNone) by (intros ->; discriminate). assert (Nf : f' <> UNone) by (intros ->; destruct r'; discriminate).
  destruct (data_init nD (noisy (a_vals p) r' f' z) r' f' UNone) as [x|e] eqn:DI; cbn [bind] in K; [|destruct K as [e' K]; congruence].
  destruct K as (h2 & o2 & K & X & V & _). rewrite M in K. injection K as <- <-.
  unfold data_init, fromvec in DI. destruct (Nat.eqb_spec (length (noisy (a_vals p) r' f' z)) nD) as [Ln|]; cbn [bind] in DI; [|discriminate].
  destruct (check_uncert nD r') as [w1|] eqn:C1; cbn [bind] in DI; [|discriminate]. destruct (check_uncert nD f') as [w2|] eqn:C2; cbn [bind] in DI; [|discriminate].
  assert (Dx : x = mkData nD (noisy (a_vals p) r' f' z) w1 w2) by (destruct r'; [destruct (Nr eq_refl)| |]; cbn in DI; injection DI as <-; reflexivity).
  destruct (check_uncert_at _ _ _ C1 Nr) as (u1 & -> & L1 & A1). destruct (check_uncert_at _ _ _ C2 Nf) as (u2 & -> & L2 & A2).
  pose proof (f_equal (fun v => d_rel (v_data v)) V) as V1. pose proof (f_equal (fun v => d_floor (v_data v)) V) as V2. rewrite Dx in V1, V2. cbn [view v_data d_rel d_floor] in V1, V2.
  unfold std_of. rewrite V1, V2, Sh. unfold std_getter. cbn [d_rel d_floor d_dobs].
  set (N := noisy (a_vals p) r' f' z) in *. eexists. split; [reflexivity|].
  assert (La : length (vmul u1 (map cmod N)) = nD) by (rewrite vmul_len', map_length, L1, Ln; apply Nat.min_id).
  assert (Lb : length (vadd (vzero (length N)) (map (fun x => x * x) (vmul u1 (map cmod N)))) = nD) by (rewrite vadd_len', map_length, La, vzero_length, Ln; apply Nat.min_id).
  split; [rewrite map_length, vadd_len', map_length, Lb, L2; apply Nat.min_id|].
  intros i Hi. rewrite (cmap_nth R sqrt _ i 0) by (rewrite vadd_len', map_length, Lb, L2; lia).
  unfold sigma. f_equal. rewrite vadd_nth' by (rewrite ?map_length; lia).
  rewrite vadd_nth' by (rewrite ?vzero_length, ?map_length; lia).
  rewrite (cmap_nth R (fun x => x * x) _ i 0) by lia. rewrite (cmap_nth R (fun x => x * x) _ i 0) by lia.
  rewrite vmul_nth' by (rewrite ?map_length; lia). rewrite (cmap_nth cplx cmod N i (0, 0)) by lia. rewrite A1, A2 by exact Hi.
  unfold vzero, vconst. rewrite nth_repeat. ring.
Qed.

Lemma cmod_pos : forall z, 0 <= cmod z.
Proof. intro. apply sqrt_pos. Qed.

Lemma sigma_eq : forall rel fl d d', rel <> 0 -> (sigma rel fl d = sigma rel fl d' <-> cmod d = cmod d').
Proof.
  intros rel fl d d' H. unfold sigma. split; [|intros ->; reflexivity]. intro E.
  apply sqrt_inj in E; try nra. assert (Q : rel * rel * (cmod d * cmod d - cmod d' * cmod d') = 0) by lra.
  assert (0 < rel * rel) by (apply Rsqr_pos_lt; exact H). apply Rmult_integral in Q. destruct Q as [Q|Q]; [lra|].
  pose proof (cmod_pos d). pose proof (cmod_pos d'). apply Rsqr_inj; try assumption. unfold Rsqr. lra.
Qed.

(** Without noise, or with a true value other than True, the data are the clean array. *)
Lemma synthetic_same : forall nD h p r f n z h' o, n <> FTrue -> make_synthetic nD h p r f n z false = Ok (h', o) ->
  o_dobs o = length h /\ o_clean o = Some (o_dobs o) /\ shown h' (o_dobs o) = a_vals p.
Proof.
  intros nD h p r f n z h' o Hn M. unfold make_synthetic, alloc in M.
  assert (M' : new_data nD (h ++ [p]) (length h) (Some (length h)) r f RNone = Ok (h', o)) by (destruct n; [destruct (Hn eq_refl)| |]; exact M). clear M.
  assert (Keep : forall nD0 h0 u q, keep_uncert nD0 h0 u = Ok q -> extends h0 (fst q)).
  { intros nD0 h0 u q H. pose proof (keep_uncert_value nD0 h0 u) as K. destruct (do v <- value_of h0 u; check_uncert nD0 v); [destruct K as (h1 & i & K & X & _)|destruct K as [e' K]]; rewrite H in K; [injection K as ->; exact X|discriminate]. }
  assert (Std : forall h0 o0 u q, keep_std nD h0 o0 u = Ok q -> o_dobs (snd q) = o_dobs o0 /\ extends h0 (fst q)).
  { intros h0 o0 u q H. unfold keep_std, alloc in H.
    destruct (get_arr h0 (o_dobs o0)) as [a0|]; cbn [bind] in H; [|discriminate].
    destruct (keep_uncert nD (h0 ++ _) _) as [k1|] eqn:K1; cbn [bind] in H; [|discriminate].
    destruct (keep_uncert nD (fst k1) u) as [k2|] eqn:K2; cbn [bind] in H; [|discriminate]. injection H as <-. split; [reflexivity|]. cbn [fst].
    apply Keep in K1. apply Keep in K2. eapply extends_trans; [|eapply extends_trans; [exact K1|exact K2]]. eexists; reflexivity. }
  unfold new_data, keep_data in M'. rewrite get_arr_last in M'. cbn [bind] in M'.
  destruct (Nat.eqb (length (a_vals p)) nD); cbn [bind] in M'; [|discriminate].
  destruct (keep_uncert nD (h ++ [p]) r) as [k1|] eqn:K1; cbn [bind] in M'; [|discriminate].
  destruct (keep_uncert nD (fst k1) f) as [k2|] eqn:K2; cbn [bind] in M'; [|discriminate].
  apply Keep in K1. apply Keep in K2. pose proof (extends_trans _ _ _ K1 K2) as X.
  match type of M' with (do _ <- ?t; _) = _ => assert (Q : forall q, t = Ok q -> o_dobs (snd q) = length h /\ extends (h ++ [p]) (fst q)) end.
  { intros q Hq. destruct r; [destruct f; [apply Std in Hq; destruct Hq as [A B]; split; [exact A|exact (extends_trans _ _ _ X B)]| |]| |]; injection Hq as <-; (split; [reflexivity|exact X]). }
  match type of M' with (do _ <- ?t; _) = _ => destruct t as [q|] eqn:Hq; cbn [bind] in M'; [|discriminate] end.
  destruct (Q q eq_refl) as [Q1 [e Q2]].
  assert (Ga : get_arr (fst q) (length h) = Ok p) by (rewrite Q2; apply get_arr_ext, get_arr_last). rewrite Ga in M'. cbn [bind] in M'.
  destruct (Nat.eqb (length (a_vals p)) nD); cbn [bind] in M'; [|discriminate]. injection M' as <- <-. cbn [o_dobs o_clean]. split; [exact Q1|]. split; [rewrite Q1; reflexivity|].
  rewrite Q1. destruct (get_arr_ok _ _ _ Ga) as (_ & Hs & _). exact Hs.
Qed.

Theorem no_noise_shared : forall l nD s p r f n z s1 key v s2, n <> FTrue ->
  exec l nD s (OSynth p r f n z false) = Ok s1 -> exec l nD s1 (OItem (length (st_objs s)) key v) = Ok s2 ->
  exists o, nth_error (st_objs s2) (length (st_objs s)) = Some o /\ option_map (shown (st_heap s2)) (o_clean o) = Some (shown (st_heap s2) (o_dobs o)).
Proof.
  intros l nD s p r f n z s1 key v s2 Hn E1 E2. cbn [exec] in E1.
  destruct (make_synthetic nD (st_heap s) p r f n z false) as [[h' o]|] eqn:M; cbn [bind fst snd] in E1; [|discriminate]. injection E1 as <-.
  destruct (synthetic_same _ _ _ _ _ _ _ _ _ Hn M) as (_ & C & _). cbn [exec st_heap st_objs] in E2. unfold get_obj in E2. cbn [st_objs] in E2.
  assert (Hk : nth_error (st_objs s ++ [o]) (length (st_objs s)) = Some o) by (rewrite nth_error_app2, Nat.sub_diag by lia; reflexivity).
  rewrite Hk in E2. cbn [bind] in E2. destruct (get_arr h' (o_dobs o)) as [a|]; cbn [bind] in E2; [|discriminate]. destruct (setitem l (a_vals a) key _) as [w|]; cbn [bind] in E2; [|discriminate].
  injection E2 as <-. exists o. cbn [st_objs st_heap]. split; [exact Hk|]. rewrite C. reflexivity.
Qed.

Theorem truthy : forall nD h p r f z h' o, make_synthetic nD h p r f FTruthy z false = Ok (h', o) -> shown h' (o_dobs o) = a_vals p.
Proof. intros nD h p r f z h' o M. eapply synthetic_same; [|exact M]. discriminate. Qed.

Theorem imaginary : forall nD h p r f z h' o i, (forall j, In j (refs r ++ refs f) -> (j < length h)%nat) -> NoDup (refs r ++ refs f) ->
  make_synthetic nD h p r f FTrue z false = Ok (h', o) -> snd (nth i (shown h' (o_dobs o)) (0, 0)) = snd (nth i (a_vals p) (0, 0)).
Proof.
  intros nD h p r f z h' o i Hr ND M. destruct (synthetic_noise _ _ _ _ _ _ _ _ Hr ND M) as (r' & f' & _ & _ & _ & _ & ->).
  unfold noisy. destruct (Nat.lt_ge_cases i (length (a_vals p))) as [L|L].
  - set (g := fun i0 : nat => _). rewrite (nth_indep _ (0, 0) (g 0%nat)) by (rewrite map_length, seq_length; exact L).
    rewrite (map_nth g), seq_nth by exact L. reflexivity.
  - rewrite !nth_overflow; [reflexivity|exact L|rewrite map_length, seq_length; exact L].
Qed.

Theorem base_real : forall evals z, In z (a_vals (base_dpred evals)) -> snd z = 0.
Proof. intros evals z H. cbn in H. apply in_map_iff in H. destruct H as (y & <- & _). reflexivity. Qed.

(** ** Concrete cases *)
Lemma Rltb_f : forall x y, y <= x -> Rltb x y = false.
Proof. intros. unfold Rltb. destruct (Rlt_dec x y); [lra|reflexivity]. Qed.

Ltac demo_step := unfold after, exec, make_synthetic, new_data, keep_data, keep_uncert, alloc, demo_p, real_arr, start;
  cbn -[Rltb sqrt IZR Rplus Rmult cmod]; repeat (rewrite Rltb_f by lra; cbn -[Rltb sqrt IZR Rplus Rmult cmod]).

Lemma demo_two : exists a b c d e, run demo_srcs 2 start (firstn 2 demo_ops) = mkState [a; b; c; d; e] [mkObj 2 (Some 1%nat) (Some 3%nat) (Some 4%nat)].
Proof. eexists _, _, _, _, _. unfold run, demo_ops. cbn [fold_left firstn]. demo_step. reflexivity. Qed.

Lemma demo_unshared : all_unshared demo_srcs 2 start demo_ops.
Proof.
  destruct demo_two as (a & b & c & d & e & E). unfold run, demo_ops in E. cbn [fold_left firstn] in E.
  unfold demo_ops. cbn [all_unshared]. rewrite E. split; [|split; [|split; [|split; [|exact I]]]].
  - split; [constructor|]. split; [intros i []|exact I].
  - split; [constructor|]. split; [intros i []|reflexivity].
  - split; [repeat constructor; intros []|]. split; [|exact I]. intros i [<-|[]]. split; [cbn; lia|]. intros x [<-|[]]. cbn. lia.
  - split; [constructor|]. split; [intros i []|exact I].
Qed.

(** Relative error 1, no floor, datum 2 drawn one standard deviation high: noise was added
    with deviation 2, the object reports 4. *)
Lemma demo_reported : exists h o, make_synthetic 2 [] demo_p (RNum 1) (RNum 0) FTrue (fun _ => 1) false = Ok (h, o)
  /\ exists s, std_of h o = Ok s /\ nth 1 s 0 = 4 /\ sigma 1 0 (2, 0) = 2.
Proof.
  assert (C2 : cmod (2, 0) = 2) by (unfold cmod; cbn [fst snd]; replace (2 * 2 + 0 * 0) with (2 * 2) by ring; apply sqrt_square; lra).
  assert (G2 : sigma 1 0 (2, 0) = 2) by (unfold sigma; rewrite C2; replace (1 * 2 * (1 * 2) + 0 * 0) with (2 * 2) by ring; apply sqrt_square; lra).
  assert (M : exists h o, make_synthetic 2 [] demo_p (RNum 1) (RNum 0) FTrue (fun _ => 1) false = Ok (h, o)).
  { eexists _, _. demo_step. reflexivity. }
  destruct M as (h & o & M). exists h, o. split; [exact M|].
  assert (R0 : forall j, In j (refs (RNum 1) ++ refs (RNum 0)) -> (j < length (@nil arr))%nat) by (intros j []).
  assert (N0 : NoDup (refs (RNum 1) ++ refs (RNum 0))) by constructor.
  destruct (reported 2 [] demo_p (RNum 1) (RNum 0) _ h o _ _ R0 N0 eq_refl eq_refl M) as (s & Hs & _ & A). exists s. split; [exact Hs|]. split; [|exact G2].
  rewrite (A 1%nat) by lia. destruct (synthetic_noise _ _ _ _ _ _ _ _ R0 N0 M) as (r' & f' & E1 & E2 & _ & _ & ->). injection E1 as <-. injection E2 as <-.
  unfold noisy, demo_p. cbn [a_vals length seq map nth at_datum fst snd]. rewrite G2.
  assert (C4 : cmod (2 + 2 * 1, 0) = 4) by (unfold cmod; cbn [fst snd]; replace ((2 + 2 * 1) * (2 + 2 * 1) + 0 * 0) with (4 * 4) by ring; apply sqrt_square; lra).
  unfold sigma. rewrite C4. replace (1 * 4 * (1 * 4) + 0 * 0) with (4 * 4) by ring. apply sqrt_square. lra.
Qed.

(** Writing into the data of a noiseless set changes its clean data. *)
Lemma demo_shared : exists s, exec demo_srcs 2 start (OSynth demo_p (RNum 1) (RNum 0) FFalse (fun _ => 0) false) = Ok s
  /\ exists s2, exec demo_srcs 2 s (OItem 0 (1, 2)%nat [(7, 0)]) = Ok s2
  /\ option_map v_clean (nth_error (views 2 s) 0) = Some (Some [(1, 0); (2, 0)]) /\ option_map v_clean (nth_error (views 2 s2) 0) = Some (Some [(7, 0); (2, 0)]).
Proof.
  eexists. split; [demo_step; reflexivity|]. eexists. split; [cbn -[IZR]; reflexivity|]. split; cbn -[IZR]; reflexivity.
Qed.
Lemma demo_complex : exists h o, make_synthetic 1 [] (mkArr true [(1, 1)]) (RNum 1) (RNum 0) FTrue (fun _ => 1) false = Ok (h, o).
Proof. eexists _, _. demo_step. reflexivity. Qed.
Lemma demo_truthy : exists h o, make_synthetic 2 [] demo_p (RNum 1) (RNum 0) FTruthy (fun _ => 1) false = Ok (h, o).
Proof. eexists _, _. demo_step. reflexivity. Qed.
