(** Filter points, and the data over a homogeneous ground. *)
From Verif Require Import Py Vec VecDeriv PropsM Geom SpecGeom GeomFacts GeomFacts2 Dc1d SpecDc1d Dc1dFacts Dc1dFacts2 Dc1dFacts3 LinSimFacts XyzIOFacts XyzIOFacts2.
From Verif Require Mt1d SpecMt1d Mt1dFacts5 Survey.
From Coq Require Import Lra Lia String.
Local Open Scope R_scope.
Notation length := List.length.
Notation concat := List.concat.

(** ** Points *)
Lemma ceil_spec x : x <= IZR (ceil x) < x + 1.
Proof. unfold ceil. rewrite opp_IZR. destruct (base_Int_part (- x)). lra. Qed.
Lemma pow_exp q k : 0 < q -> q ^ k = exp (INR k * ln q).
Proof.
  intros Hq. induction k as [|k IH]; [cbn; rewrite Rmult_0_l, exp_0; reflexivity|]. cbn [pow]. rewrite IH, S_INR, Rmult_plus_distr_r, Rmult_1_l, exp_plus, exp_ln by exact Hq. ring.
Qed.
Lemma ln_pow' q k : 0 < q -> ln (q ^ k) = INR k * ln q.
Proof. intros Hq. rewrite pow_exp by exact Hq. apply ln_exp. Qed.
Section P.
  Variable rnd : R -> R.
  Lemma n_out_3 base a b : (length base + 3 <= n_out rnd base a b)%nat.
  Proof. unfold n_out. cbv zeta. destruct (_ <? 3)%Z eqn:E; [lia|]. apply Z.ltb_ge in E. lia. Qed.
  Lemma n_out_ge base a b : ln (last base 0 / a / (nth 0 base 0 / b)) * ppd rnd base + 1 <= INR (n_out rnd base a b).
  Proof.
    unfold n_out. cbv zeta. set (x := ln _ * _). destruct (ceil_spec x) as [C _].
    assert (forall z, (ceil x + 1 <= z)%Z -> x + 1 <= INR (Z.to_nat z)) as K.
    { intros z Hz. apply IZR_le in Hz. rewrite plus_IZR in Hz. rewrite INR_IZR_INZ. apply Rle_trans with (IZR z); [lra|]. apply IZR_le. lia. }
    destruct (_ <? 3)%Z eqn:E; apply K; [apply Z.ltb_lt in E; lia|lia].
  Qed.
  Variables (f : filt) (b0 q : R) (n : nat).
  Hypotheses (Hb : 0 < b0) (Hq : 1 < q) (Hr : rnd q = q) (Hn : (2 <= n)%nat) (Hj : length (f_j0 f) = n) (EB : f_base f = map (fun k => b0 * q ^ k) (seq 0 n)).
  Variables a b : R.
  Hypotheses (Ha : 0 < a) (Hab : a <= b).
  Let lams := fst (dlf_points rnd (f_base f) a b).
  Let rs := snd (dlf_points rnd (f_base f) a b).
  Let N := n_out rnd (f_base f) a b.
  Lemma base_len : length (f_base f) = n. Proof. rewrite EB, map_length. apply seq_length. Qed.
  Lemma base_nth k : (k < n)%nat -> nth k (f_base f) 0 = b0 * q ^ k.
  Proof. intros H. rewrite EB. now rewrite nth_map_seq. Qed.
  Lemma lnq : 0 < ln q. Proof. rewrite <- ln_1. apply ln_increasing; lra. Qed.
  Lemma ppd_eq : ppd rnd (f_base f) = 1 / ln q.
  Proof. unfold ppd. rewrite !base_nth by lia. replace (b0 * q ^ 1 / (b0 * q ^ 0)) with q by (cbn; field; lra). now rewrite Hr. Qed.
  Lemma lam_len : length lams = N. Proof. unfold lams, dlf_points. cbn [fst]. now rewrite map_length, seq_length. Qed.
  Lemma rs_len : length rs = (N - n + 1)%nat. Proof. unfold rs, dlf_points. cbn [snd]. rewrite map_length, seq_length, base_len. reflexivity. Qed.
  Lemma N3 : (n + 3 <= N)%nat. Proof. unfold N. rewrite <- base_len at 1. apply n_out_3. Qed.
  Lemma lam_nth k : (k < N)%nat -> nth k lams 0 = b0 / b * q ^ k.
  Proof.
    intros H. unfold lams, dlf_points. cbn [fst]. fold N. rewrite nth_map_seq by exact H. rewrite base_nth by lia. rewrite ppd_eq. pose proof lnq.
    rewrite exp_plus, exp_ln by (cbn; apply Rdiv_lt_0_compat; lra). rewrite (pow_exp q k) by lra. replace (INR k / (1 / ln q)) with (INR k * ln q) by (field; lra). cbn. field. lra.
  Qed.
  Lemma rs_nth i : (i < length rs)%nat -> nth i rs 0 = b / q ^ i.
  Proof.
    intros H. rewrite rs_len in H. unfold rs, dlf_points. cbn [snd]. fold N. rewrite base_len. rewrite nth_map_seq by exact H. rewrite ppd_eq. pose proof lnq.
    replace (- INR i / (1 / ln q)) with (- (INR i * ln q)) by (field; lra). rewrite exp_Ropp, <- pow_exp by lra. reflexivity.
  Qed.
  Lemma qpow k : 0 < q ^ k. Proof. apply pow_lt. lra. Qed.
  Lemma points i j : (i < length rs)%nat -> (j < n)%nat -> nth (i + j) lams 0 = nth j (f_base f) 0 / nth i rs 0.
  Proof.
    intros Hi Hj'. rewrite rs_nth by exact Hi. rewrite rs_len in Hi. pose proof N3. rewrite lam_nth by lia. rewrite base_nth by exact Hj'. rewrite pow_add.
    pose proof (qpow i). field. lra.
  Qed.
  Lemma first_r : nth 0 rs 0 = b. Proof. rewrite rs_nth by (rewrite rs_len; pose proof N3; lia). cbn. field. Qed.
  Lemma last_r : last rs 0 <= a.
  Proof.
    pose proof N3 as HN. pose proof rs_len as HL. rewrite (last_seq rs (N - n)) by lia. rewrite rs_nth by lia. pose proof lnq as Lq.
    pose proof (n_out_ge (f_base f) a b) as G. fold N in G. rewrite ppd_eq, base_nth in G by lia.
    rewrite (last_seq _ (n - 1)) in G by (rewrite base_len; lia). rewrite base_nth in G by lia.
    assert (E : b0 * q ^ (n - 1) / a / (b0 * q ^ 0 / b) = q ^ (n - 1) * (b / a)) by (cbn; field; lra). rewrite E in G.
    assert (P : 0 < b / a) by (apply Rdiv_lt_0_compat; lra).
    rewrite ln_mult, ln_pow' in G by (try apply qpow; lra).
    assert (G2 : ln (b / a) <= INR (N - n) * ln q).
    { rewrite minus_INR by lia. rewrite minus_INR in G by lia. cbn [INR] in G.
      assert (((INR n - 1) * ln q + ln (b / a)) * (1 / ln q) * ln q = (INR n - 1) * ln q + ln (b / a)) as E2 by (field; lra).
      apply Rmult_le_compat_r with (r := ln q) in G; [|lra]. rewrite Rmult_plus_distr_r, E2 in G. lra. }
    assert (G3 : b / a <= q ^ (N - n)).
    { rewrite (pow_exp q) by lra. rewrite <- (exp_ln (b / a)) by exact P. destruct G2 as [G2|G2]; [left; now apply exp_increasing|right; now rewrite G2]. }
    pose proof (qpow (N - n)) as QP. apply Rmult_le_reg_r with (q ^ (N - n)); [exact QP|]. unfold Rdiv. rewrite Rmult_assoc, Rinv_l by lra. rewrite Rmult_1_r.
    apply Rmult_le_compat_l with (r := a) in G3; [|lra]. replace (a * (b / a)) with b in G3 by (field; lra). exact G3.
  Qed.
  Lemma dht_ok : A_dht (length rs) (length lams) (f_j0 f) = Ok (rev (map (fun i => vzero i ++ f_j0 f ++ vzero (length lams - i - n)) (seq 0 (length rs)))).
  Proof.
    unfold A_dht. rewrite Hj. replace (_ || _)%bool with true; [reflexivity|]. symmetry. apply orb_true_iff. right. apply Nat.leb_le. rewrite rs_len, lam_len. pose proof N3. lia.
  Qed.
  Lemma dot_shift i (w v : vec) : dot (vzero i ++ w) v = dot w (skipn i v).
  Proof. revert v. induction i as [|i IH]; intros v; [reflexivity|]. destruct v as [|x v]; cbn; [symmetry; destruct w; reflexivity|]. fold (vzero i). rewrite IH. lra. Qed.
  Lemma dot_cut (w v : vec) k : dot (w ++ vzero k) v = dot w (firstn (length w) v).
  Proof.
    revert v. induction w as [|y w IH]; intros v; [cbn [app length firstn dot]; apply dot_zero_l|]. destruct v as [|x v]; [reflexivity|]. cbn [app length firstn dot]. now rewrite IH.
  Qed.
  Lemma transform (T : R -> R) D i : A_dht (length rs) (length lams) (f_j0 f) = Ok D -> (i < length rs)%nat ->
    nth (length rs - 1 - i) (mv D (map T lams)) 0 = dot (f_j0 f) (map (fun x => T (x / nth i rs 0)) (f_base f)).
  Proof.
    intros HD Hi. rewrite dht_ok in HD. assert (D = rev (map (fun i => vzero i ++ f_j0 f ++ vzero (length lams - i - n)) (seq 0 (length rs)))) as -> by congruence. clear HD.
    rewrite nth_mv by (rewrite rev_length, map_length, seq_length; lia). rewrite rev_nth by (rewrite map_length, seq_length; lia). rewrite map_length, seq_length.
    replace (length rs - S (length rs - 1 - i))%nat with i by lia. rewrite nth_map_seq by exact Hi. rewrite dot_shift, dot_cut. f_equal.
    pose proof N3 as HN. pose proof rs_len as HL. pose proof lam_len as HM.
    apply vec_ext; [rewrite firstn_length, skipn_length, !map_length, base_len, HM, Hj; lia|]. intros k Hk.
    rewrite firstn_length, skipn_length, map_length, HM, Hj in Hk.
    rewrite (map_nth_lt _ _ k 0) by (rewrite base_len; lia). rewrite <- (points i k) by lia.
    rewrite <- (map_nth_lt T lams (i + k) 0) by lia.
    transitivity (nth k (skipn i (map T lams)) 0).
    - rewrite <- (firstn_skipn (length (f_j0 f)) (skipn i (map T lams))) at 2. rewrite app_nth1; [reflexivity|]. rewrite firstn_length, skipn_length, map_length, HM, Hj. lia.
    - rewrite <- (firstn_skipn i (map T lams)) at 2. rewrite app_nth2; rewrite firstn_length, map_length, HM; [|lia]. f_equal. lia.
  Qed.
End P.
Lemma dht_rowsum n_r n_lam j0 D x : A_dht n_r n_lam j0 = Ok D -> mv D (vconst n_lam x) = vconst n_r (vsum j0 * x).
Proof.
  unfold A_dht. destruct (_ || _)%bool eqn:E; [|discriminate]. intros K.
  assert (D = rev (map (fun i => vzero i ++ j0 ++ vzero (n_lam - i - length j0)) (seq 0 n_r))) as -> by congruence. clear K.
  apply vec_ext; [rewrite mv_length, rev_length, map_length, seq_length; symmetry; apply vconst_length|]. intros i Hi. rewrite mv_length in Hi.
  rewrite nth_mv by exact Hi. rewrite rev_length, map_length, seq_length in Hi. rewrite rev_nth by (now rewrite map_length, seq_length). rewrite map_length, seq_length, nth_map_seq by lia.
  assert (forall k i y, (i < k)%nat -> nth i (vconst k y) 0 = y) as NC. { induction k as [|k IH]; intros [|j] y H; cbn; try lia; [reflexivity|]. apply IH. lia. }
  rewrite (NC n_r i) by exact Hi. set (i' := (n_r - S i)%nat). assert (Hi' : (i' < n_r)%nat) by (unfold i'; lia).
  rewrite dot_shift, dot_cut.
  assert (LE : (i' + length j0 <= n_lam)%nat). { apply orb_true_iff in E. destruct E as [E|E]; [apply Nat.eqb_eq in E; lia|apply Nat.leb_le in E; lia]. }
  assert (SK : forall j k y, skipn j (vconst k y) = vconst (k - j) y). { clear. induction j as [|j IH]; intros [|k] y; [reflexivity|reflexivity|reflexivity|apply IH]. }
  assert (FN : forall j k y, (j <= k)%nat -> firstn j (vconst k y) = vconst j y). { clear. induction j as [|j IH]; intros [|k] y H; [reflexivity|reflexivity|lia|]. cbn. f_equal. apply IH. lia. }
  rewrite SK, FN by lia. clear. induction j0 as [|y j0 IH]; cbn; [lra|]. unfold vconst in IH. rewrite IH. lra.
Qed.
Lemma dot_const (a : vec) n x : length a = n -> dot a (vconst n x) = vsum a * x.
Proof. intros <-. induction a as [|y a IH]; cbn; [lra|]. unfold vconst in IH. rewrite IH. lra. Qed.

Section H.
  Variable rnd : R -> R.
  Variable spline : vec -> nat -> R -> R.
  Hypothesis HK : keeps_constants spline.
  Lemma vsum_add {A} (f g : A -> R) l : vsum (map (fun x => f x + g x) l) = vsum (map f l) + vsum (map g l).
  Proof. induction l as [|x l IH]; cbn; [lra|]. rewrite IH. lra. Qed.
  Lemma vsum_scale {A} c (f : A -> R) l : vsum (map (fun x => c * f x) l) = c * vsum (map f l).
  Proof. induction l as [|x l IH]; cbn; [lra|]. rewrite IH. lra. Qed.
  Definition inv (c : R * vec) (m : vec) (n : option vec) : R := fst c * / distance (snd c) m - match n with Some n => fst c * / distance (snd c) n | None => 0 end.
  Lemma term_sum xs c off : xs <> [] -> vsum (map (fun i => c * term spline xs i off) (seq 0 (length xs))) = c * / off.
  Proof.
    intros H. rewrite vsum_scale. f_equal. unfold term, Rdiv. rewrite (map_ext _ (fun i => / off * spline xs i (ln off))) by (intros; ring). rewrite vsum_scale, (HK xs (ln off) H). ring.
  Qed.
  Lemma entry_sum xs m n : xs <> [] -> forall cs, vsum (map (a_entry spline xs cs m n) (seq 0 (length xs))) = vsum (map (fun c => inv c m n) cs).
  Proof.
    intros H. assert (G : forall cs z, vsum (map (fun i => fold_left (fun acc c => acc + fst c * term spline xs i (norm2 (vsub (snd c) m)) - match n with Some n => fst c * term spline xs i (norm2 (vsub (snd c) n)) | None => 0 end) cs (z i)) (seq 0 (length xs)))
      = vsum (map z (seq 0 (length xs))) + vsum (map (fun c => inv c m n) cs)).
    { induction cs as [|c cs IH]; intros z; cbn [fold_left map vsum]; [rewrite Rplus_0_r; reflexivity|].
      rewrite (IH (fun i => z i + fst c * term spline xs i (norm2 (vsub (snd c) m)) - match n with Some n => fst c * term spline xs i (norm2 (vsub (snd c) n)) | None => 0 end)).
      rewrite <- Rplus_assoc. f_equal. unfold inv. unfold distance. destruct n as [n|].
      - rewrite (map_ext _ (fun i => (z i + fst c * term spline xs i (norm2 (vsub (snd c) m))) + (- fst c) * term spline xs i (norm2 (vsub (snd c) n)))) by (intros; ring).
        rewrite !vsum_add, !term_sum by exact H. unfold norm2. ring.
      - rewrite (map_ext _ (fun i => (z i + fst c * term spline xs i (norm2 (vsub (snd c) m))))) by (intros; ring).
        rewrite !vsum_add, !term_sum by exact H. unfold norm2. ring. }
    intros cs. unfold a_entry. rewrite (G cs (fun _ => 0)).
    assert (Z : forall l : list nat, vsum (map (fun _ => 0) l) = 0) by (induction l as [|y l IH]; cbn; [reflexivity|rewrite IH; lra]). rewrite Z. lra.
  Qed.
  Lemma pairup_zipn {A B C} (f : A -> B -> C) x y : zipn f x y = map (fun p => f (fst p) (snd p)) (pairup x y).
  Proof. revert y; induction x as [|a x IH]; intros [|b y]; cbn; try reflexivity. now rewrite IH. Qed.
  Lemma a_rows_spreads xs n_r s r I : drives I s ->
    a_rows spline xs n_r (combine (g_cur s) (elecs s)) r = map (fun e => map (a_entry spline xs (injected e I) (em e) (en e)) (seq 0 n_r)) (pair_spreads s r).
  Proof.
    unfold drives, a_rows, elecs, pair_spreads, receiver_spreads, injected. intros D. destruct (g_src s) as [a|a b|]; [| |contradiction]; rewrite D; cbn [combine]; destruct (g_rx r) as [ms|ms ns]; rewrite ?pairup_zipn, ?map_map; reflexivity.
  Qed.
  Lemma row_total xs e I : xs <> [] -> clear e -> vsum (map (a_entry spline xs (injected e I) (em e) (en e)) (seq 0 (length xs))) = I * (2 * PI) * gval 2 e.
  Proof.
    intros H C. rewrite entry_sum by exact H. unfold injected, gval, inv. pose proof PI_RGT_0. destruct C as (C1 & C2 & C3 & C4).
    destruct (eb e) as [b|], (en e) as [n|]; cbn [odist inv_opt opt_all map vsum fst snd] in *; field; repeat split; try assumption; lra.
  Qed.
  (** One receiver. *)
  Lemma block n_r n_lam dht gfs f sv s r M rho I xs G c : A_dht n_r n_lam (f_j0 f) = Ok dht -> vsum (f_j0 f) = c -> length xs = n_r -> (0 < n_r)%nat ->
    set_geometric_factor sv "halfspace" gfs = Ok G -> distinct sv -> dipole_tables sv -> In s sv -> In r (g_rxs s) -> drives I s ->
    Forall (fun e => clear e /\ sources_on_surface e) (pair_spreads s r) -> (g_type r = AppRes -> g_nD r = 1%nat) ->
    rx_coef spline xs n_r n_lam dht (fst G) (s, r) = Ok M ->
    mv M (vconst n_lam rho) = map (fun e => c * reading rho I r e) (pair_spreads s r).
  Proof.
    intros HD HC LX HN HG Hd Ht Is Ir HI FC H1 H. pose proof (dht_mat _ _ _ _ HD) as MD. pose proof PI_RGT_0 as PP.
    assert (NX : xs <> []) by (intros ->; cbn in LX; lia).
    unfold rx_coef in H. cbn [fst snd] in H. rewrite (a_rows_spreads xs n_r s r I HI) in H. set (A := map _ (pair_spreads s r)) in H.
    assert (RA : forall row, In row A -> length row = n_r). { intros row Hr. unfold A in Hr. apply in_map_iff in Hr as (e & <- & _). now rewrite map_length, seq_length. }
    assert (GEN : forall k B, (forall row, In row B -> length row = n_r) -> M = map (vscale (/ (2 * PI))) (mm n_lam B dht) -> B = map (vscale k) A ->
      mv M (vconst n_lam rho) = map (fun e => c * (rho * I * k * gval 2 e)) (pair_spreads s r)).
    { intros k B HB -> EB. unfold mv, mm. rewrite !map_map. rewrite EB. unfold A. rewrite !map_map. apply map_ext_in. intros e He.
      rewrite Forall_forall in FC. destruct (FC e He) as [CE SE]. set (row := map (a_entry spline xs (injected e I) (em e) (en e)) (seq 0 n_r)).
      assert (LR : length row = n_r) by (unfold row; now rewrite map_length, seq_length).
      rewrite dot_vscale_l. rewrite <- (mv_mtv_adjoint n_r n_lam dht) by (try assumption; rewrite ?vscale_length, ?vconst_length; congruence).
      rewrite (dht_rowsum n_r n_lam _ dht rho HD), HC. rewrite dot_vscale_l, dot_const by exact LR. unfold row. rewrite <- LX at 1. rewrite row_total by assumption. field. lra. }
    assert (NB : forall k row, In row (map (vscale k) A) -> length row = n_r). { intros k row Hr. apply in_map_iff in Hr as (x & <- & Hx). rewrite vscale_length. auto. }
    assert (V : forall e, In e (pair_spreads s r) -> voltage (half_space rho) I e = rho * I * gval 2 e). { intros e He. rewrite Forall_forall in FC. destruct (FC e He). now apply voltage_half. }
    assert (CASE : g_type r <> AppRes -> M = map (vscale (/ (2 * PI))) (mm n_lam A dht) -> mv M (vconst n_lam rho) = map (fun e => c * voltage (half_space rho) I e) (pair_spreads s r)).
    { intros _ EM. assert (EA : A = map (vscale 1) A) by (rewrite (map_ext _ (fun x => x)) by (intros; apply vscale_1); now rewrite map_id).
      rewrite (GEN 1 A RA EM EA). apply map_ext_in. intros e He. rewrite (V e He). ring. }
    unfold reading. destruct (g_type r) eqn:ET; cbn [bind] in H.
    - apply CASE; [discriminate|congruence].
    - destruct G as [d G]. cbn [fst] in H. destruct (own_factors _ _ _ _ _ HG Hd Ht) as (c' & Ec & _ & Hf). rewrite (Hf s r Is Ir ET) in H.
      assert (c' = 2) as -> by (unfold space_factor in Ec; change (has whole_names (lower "halfspace")) with false in Ec; change (has half_names (lower "halfspace")) with true in Ec; congruence).
      assert (E1 : exists e, pair_spreads s r = [e]).
      { specialize (H1 eq_refl). assert (LP : length (pair_spreads s r) = 1%nat).
        { rewrite <- H1. pose proof (a_rows_length spline xs n_r (combine (g_cur s) (elecs s)) r) as LA. rewrite (a_rows_spreads xs n_r s r I HI), map_length in LA. apply LA.
          unfold dipole_tables in Ht. rewrite Forall_forall in Ht. specialize (Ht s Is). rewrite Forall_forall in Ht. auto. }
        destruct (pair_spreads s r) as [|e [|]]; try discriminate. eauto. }
      destruct E1 as [e E1]. rewrite E1 in *. cbn [map] in H. inversion FC as [|? ? [CE SE] _]; subst. rewrite gfac_clear in H by exact CE.
      unfold over_factor in H. cbn [finite] in H. destruct (Req_EM_T (gval 2 e) 0) as [|NZ]; [discriminate|]. cbn [option_map bind] in H.
      rewrite (GEN (/ gval 2 e) (map (vscale (/ gval 2 e)) A) (NB _) ltac:(congruence) eq_refl). cbn [map]. f_equal. field. exact NZ.
    - apply CASE; [discriminate|congruence].
  Qed.
  Lemma mv_concat (Ls : list mat) v : mv (List.concat Ls) v = List.concat (map (fun M => mv M v) Ls).
  Proof. unfold mv. induction Ls as [|M Ls IH]; [reflexivity|]. cbn. now rewrite map_app, IH. Qed.
  Lemma homogeneous_coef f sv co rho I c : coefficients rnd spline f [] sv = Ok co -> weighs c f -> distinct sv -> dipole_tables sv -> Forall (drives I) sv ->
    Forall (fun p => Forall (fun e => clear e /\ sources_on_surface e) (pair_spreads (fst p) (snd p)) /\ (g_type (snd p) = AppRes -> g_nD (snd p) = 1%nat)) (g_pairs sv) ->
    mv (fst co) (vconst (length (snd co)) rho) = List.concat (map (fun p => map (fun e => c * reading rho I (snd p) e) (pair_spreads (fst p) (snd p))) (g_pairs sv)).
  Proof.
    intros H HW Hd HT HD HF. unfold coefficients in H. destruct (offsets sv) as [offs|]; [|discriminate]. cbn [bind] in H.
    destruct (set_geometric_factor _ _ _) as [G|] eqn:EG; [|discriminate]. cbn [bind] in H.
    pose proof (n_out_3 rnd (f_base f) (lowest offs) (highest offs)) as N3'.
    destruct (dlf_points rnd (f_base f) (lowest offs) (highest offs)) as [lams rs] eqn:EP.
    destruct (A_dht _ _ _) as [dht|] eqn:ED; [|discriminate]. cbn [bind] in H. destruct (mapM _ _) as [As|] eqn:EM; [|discriminate]. cbn [bind] in H.
    injection H as <-. cbn [fst snd]. rewrite mv_concat. f_equal. apply mapM_F2 in EM.
    assert (LR : (0 < length rs)%nat). { unfold dlf_points in EP. injection EP as _ <-. rewrite map_length, seq_length. lia. }
    assert (K : forall l Bs, Forall2 (fun p M => rx_coef spline (map ln (rev rs)) (length rs) (length lams) dht (fst G) p = Ok M) l Bs -> incl l (g_pairs sv) ->
      map (fun M => mv M (vconst (length lams) rho)) Bs = map (fun p => map (fun e => c * reading rho I (snd p) e) (pair_spreads (fst p) (snd p))) l).
    { induction 1 as [|[s r] M l Bs HM _ IH]; intros HI; [reflexivity|]. cbn [map]. rewrite IH by (intros x Hx; apply HI; now right).
      assert (Ip : In (s, r) (g_pairs sv)) by (apply HI; now left). pose proof Ip as Ip2. apply in_g_pairs in Ip2 as [Is Ir]. rewrite Forall_forall in HF, HD. destruct (HF _ Ip) as [F1 F2].
      f_equal. cbn [fst snd]. apply (block (length rs) (length lams) dht [] f sv s r M rho I (map ln (rev rs)) G c); auto. now rewrite map_length, rev_length. }
    apply (K _ _ EM). intros x Hx; exact Hx.
  Qed.
  Lemma combine_repeat {A B} (x : A) (l : list B) : combine (repeat x (length l)) l = map (fun y => (x, y)) l.
  Proof. induction l as [|y l IH]; [reflexivity|]. cbn. now rewrite IH. Qed.
  Lemma phi_tilde_uniform rho hs lams : 0 < rho -> positive hs -> positive lams -> phi_tilde (repeat rho (S (length hs))) hs lams = Ok (vconst (length lams) rho).
  Proof.
    intros Hr Hh Hl. unfold phi_tilde. rewrite (layers_ok (length hs)) by (try reflexivity; apply repeat_length). cbn [bind fst snd]. f_equal.
    assert (NR : forall k i, (i < k)%nat -> nth i (repeat rho k) 0 = rho). { induction k as [|k IH]; intros [|i] H; cbn; try lia; [reflexivity|]. apply IH. lia. }
    rewrite NR by lia. unfold positive in *. induction Hl as [|lam lams Hlam _ IH]; [reflexivity|]. cbn [map length]. change (vconst (S (length lams)) rho) with (rho :: vconst (length lams) rho). rewrite IH. f_equal.
    apply phi_uniform; [lra|exact Hr|]. apply Forall_forall. intros x Hx. unfold lay in Hx. apply in_map_iff in Hx as (i & <- & Hi). apply in_seq in Hi. cbn [fst snd].
    rewrite NR by lia. split; [reflexivity|]. rewrite Forall_forall in Hh. left. apply Hh, nth_In. lia.
  Qed.
  Lemma homogeneous s f sv co m rho I c k : coefficients rnd spline f [] sv = Ok co -> weighs c f -> distinct sv -> dipole_tables sv -> Forall (drives I) sv ->
    Forall (fun p => Forall (fun e => clear e /\ sources_on_surface e) (pair_spreads (fst p) (snd p)) /\ (g_type (snd p) = AppRes -> g_nD (snd p) = 1%nat)) (g_pairs sv) ->
    0 < rho -> Mt1d.pval (dc_rho s) m = repeat rho (S k) -> length (Mt1d.pval (dc_thick s) m) = k -> positive (Mt1d.pval (dc_thick s) m) ->
    fresh rnd spline s sv f (CallDpred m) = Ok (List.concat (map (fun p => map (fun e => c * reading rho I (snd p) e) (pair_spreads (fst p) (snd p))) (g_pairs sv))).
  Proof.
    intros H HW Hd HT HD HF Hr ER LK PH. rewrite fresh_dpred, H. cbn [bind]. destruct (coef_shape rnd spline _ _ _ _ H HT) as [_ PC].
    unfold dpred0. rewrite ER. rewrite <- LK at 1. rewrite phi_tilde_uniform by assumption. cbn [bind]. f_equal. now apply (homogeneous_coef f sv co rho I c).
  Qed.
End H.
