From Coq Require Import Reals Lra Lia Sorted.
From Verif Require Import Py Vec VecDeriv Frechet Joint Richards RichardsFacts RichardsFacts2 RichardsFacts3 LinSimFacts SolveDeriv DcFacts JointFacts PfFacts3 PfFacts4 SelfPotFacts Sip SpecSip SipFacts SipFacts2.
Local Open Scope R_scope.

Lemma is_mat_concat (nc : nat) (rs : list srx) : Forall (fun r => is_mat (x_nd r) nc (x_G r)) rs -> is_mat (list_sum (map x_nd rs)) nc (concat (map x_G rs)).
Proof.
  induction 1 as [|r rs [H1 H2] _ [I1 I2]]; cbn; [split; [reflexivity|constructor]|]. split; [rewrite app_length, H1; change (list_sum (x_nd r :: map x_nd rs)) with (x_nd r + list_sum (map x_nd rs))%nat; rewrite I1; reflexivity|apply Forall_app; split; assumption].
Qed.
Lemma list_sum_cons a l : list_sum (a :: l) = (a + list_sum l)%nat.
Proof. reflexivity. Qed.
Lemma sum_mult (rs : list srx) ts : Forall (fun r => x_times r = ts) rs -> list_sum (map (fun r => x_nd r * length (x_times r))%nat rs) = (list_sum (map x_nd rs) * length ts)%nat.
Proof. induction 1 as [|r rs E _ IH]; [reflexivity|]. cbn [map]. rewrite !list_sum_cons, E, IH. lia. Qed.
Lemma repeat_mask n : forall v, length v = n -> vmul (map (fun b : bool => if b then 1 else 0) (repeat true n)) v = v.
Proof. induction n as [|n IH]; intros [|x v] L; cbn in *; try lia; [reflexivity|]. unfold vmul in *. cbn. rewrite IH by lia. f_equal. ring. Qed.
Lemma vderiv_concat k (ts : vec) (F : R -> R -> vec) (F' : R -> vec) : (forall t, In t ts -> vderiv k (fun u => F t u) 0 (F' t)) -> vderiv (length ts * k) (fun u => concat (map (fun t => F t u) ts)) 0 (concat (map F' ts)).
Proof.
  induction ts as [|t ts IH]; intros H; cbn [map concat length Nat.mul].
  - split; [reflexivity|]. split; [reflexivity|]. intros i Hi. lia.
  - apply vderiv_app; [apply H; left; reflexivity|apply IH; intros x Hx; apply H; right; exact Hx].
Qed.
Lemma columns_dot n k J f g v : forall ts w acc, length acc = n -> length w = (k * length ts)%nat -> (forall t x, In t ts -> length x = k -> length (f t x) = n /\ dot (f t x) v = dot x (mv J (g t))) -> length J = k ->
  dot (columns k ts w f acc) v = dot acc v + dot w (concat (map (fun t => mv J (g t)) ts)).
Proof.
  induction ts as [|t ts IH]; intros w acc La Lw H LJ; cbn [columns map concat].
  - cbn [length] in Lw. destruct w as [|x w]; [cbn; ring|cbn [length] in Lw; lia].
  - cbn [length] in Lw. assert (Lf : length (firstn k w) = k) by (rewrite firstn_length; lia). destruct (H t (firstn k w) (or_introl eq_refl) Lf) as [L1 D1]. rewrite IH; [|apply ln_add; assumption|rewrite skipn_length; lia|intros t' x Ht; apply H; right; exact Ht|exact LJ].
    rewrite dot_vadd_l by congruence. rewrite D1. rewrite <- (firstn_skipn k w) at 3. rewrite dot_app' by (rewrite mv_length; congruence). ring.
Qed.

Lemma pos_nth ts : forall t k0, increasing ts -> forall k, nth_error ts k = Some t -> pos t ts k0 = Some (k0 + k)%nat.
Proof.
  induction ts as [|x ts IH]; intros t k0 SS k E; [destruct k; discriminate|]. apply StronglySorted_inv in SS. destruct SS as [SS F]. rewrite Forall_forall in F. cbn [pos]. destruct k as [|k]; cbn in E.
  - assert (x = t) by congruence. subst x. assert (NI : pos t ts (S k0) = None).
    { generalize (S k0). assert (N : ~ In t ts) by (intros H; pose proof (F t H); lra). clear - N. induction ts as [|y ts IH]; intros k; cbn; [reflexivity|]. rewrite IH by (intros H; apply N; right; exact H). destruct (Req_EM_T y t) as [->|]; [exfalso; apply N; left; reflexivity|reflexivity]. }
    rewrite NI. destruct (Req_EM_T t t); [f_equal; lia|congruence].
  - rewrite (IH t (S k0) SS k E). f_equal. lia.
Qed.
Lemma block_len ts k : forall rs w from, Forall (fun r => x_times r = ts) rs -> (k < length ts)%nat -> length w = (from + list_sum (map x_nd rs) * length ts)%nat -> length (block rs w from k) = list_sum (map x_nd rs).
Proof.
  induction rs as [|r rs IH]; intros w from F Hk Lw; [reflexivity|]. cbn [block map] in *. rewrite list_sum_cons in *. rewrite app_length, firstn_length, skipn_length.
  rewrite IH; [|exact (Forall_inv_tail F)|exact Hk|rewrite (Forall_inv F); lia]. assert (k * x_nd r + x_nd r <= x_nd r * length ts)%nat by nia. rewrite Nat.min_l; lia.
Qed.
Section B.
  Context (s : sip) (ts : vec).
  Lemma back_ok t k : increasing ts -> nth_error ts k = Some t -> forall rs w from acc, Forall (fun r => is_mat (x_nd r) (p_nc s) (x_G r)) rs -> Forall (fun r => x_times r = ts) rs ->
    length w = (from + list_sum (map x_nd rs) * length ts)%nat -> length acc = p_nc s ->
    exists a, back s rs w from t acc = Ok a /\ length a = p_nc s /\ forall x, length x = p_nc s -> dot a x = dot acc x + dot (block rs w from k) (mv (concat (map x_G rs)) x).
  Proof.
    intros S E. assert (Hk : (k < length ts)%nat) by (apply nth_error_Some; congruence). induction rs as [|r rs IH]; intros w from acc FG FT Lw La.
    - exists acc. split; [reflexivity|]. split; [exact La|]. intros x _. cbn. ring.
    - cbn [back]. unfold entry. rewrite (Forall_inv FT). rewrite (pos_nth ts t 0 S k E). cbn [bind Nat.add]. set (e := firstn (x_nd r) (skipn (from + k * x_nd r) w)).
      cbn [map] in Lw. rewrite list_sum_cons in Lw. pose proof (Forall_inv FG) as MG.
      assert (Le : length e = x_nd r). { unfold e. rewrite firstn_length, skipn_length. assert (k * x_nd r + x_nd r <= x_nd r * length ts)%nat by nia. lia. }
      assert (LT : length (mtv (p_nc s) (x_G r) e) = p_nc s) by (apply (mtv_length (x_nd r)); exact MG).
      destruct (IH w (from + x_nd r * length ts)%nat (vadd acc (mtv (p_nc s) (x_G r) e)) (Forall_inv_tail FG) (Forall_inv_tail FT) ltac:(lia) ltac:(apply ln_add; assumption)) as (a & Ea & L & D). exists a. split; [exact Ea|]. split; [exact L|].
      intros x Lx. rewrite D by exact Lx. rewrite dot_vadd_l by congruence. rewrite <- (mv_mtv_adjoint (x_nd r) (p_nc s)) by assumption. cbn [block map concat]. rewrite (Forall_inv FT). fold e.
      unfold mv at 3. rewrite map_app. fold (mv (x_G r) x) (mv (concat (map x_G rs)) x). rewrite dot_app' by (rewrite mv_length; destruct MG; congruence). ring.
  Qed.
End B.
Lemma times_fold n (f : R -> result vec) (g : R -> vec) (b : nat -> vec) J v : forall us k0 acc, length acc = n -> (forall k t, nth_error us k = Some t -> exists a, f t = Ok a /\ length a = n /\ dot a v = dot (b (k0 + k)%nat) (mv J (g t)) /\ length (b (k0 + k)%nat) = length J) ->
  exists a, fold_left (fun acc t => do a <- acc; do x <- f t; Ok (vadd a x)) us (Ok acc) = Ok a /\ length a = n /\ dot a v = dot acc v + dot (concat (map b (seq k0 (length us)))) (concat (map (fun t => mv J (g t)) us)).
Proof.
  induction us as [|t us IH]; intros k0 acc La H.
  - exists acc. split; [reflexivity|]. split; [exact La|]. cbn. ring.
  - destruct (H O t eq_refl) as (a & E & L & D & LB). cbn [fold_left]. rewrite E. cbn [bind]. destruct (IH (S k0) (vadd acc a)) as (a2 & E2 & L2 & D2); [apply ln_add; assumption| |].
    + intros k t' Hk. destruct (H (S k) t' Hk) as (a' & H1 & H2 & H3 & H4). exists a'. replace (S k0 + k)%nat with (k0 + S k)%nat by lia. auto.
    + exists a2. split; [exact E2|]. split; [exact L2|]. rewrite D2. rewrite dot_vadd_l by congruence. rewrite Nat.add_0_r in D, LB. cbn [length seq map concat]. rewrite dot_app' by (rewrite mv_length; exact LB). rewrite D. ring.
Qed.

Section T.
  Context (s : sip) (OK : sip_ok s) (ts : vec) (CM : common s ts) (KD : direct s \/ kept s).
  Let GG := concat (map x_G (all_rx s)).
  Let K := list_sum (map x_nd (all_rx s)).
  Lemma GG_mat : is_mat K (p_nc s) GG.
  Proof. destruct OK as (_ & _ & H). apply is_mat_concat. exact H. Qed.
  Lemma nD_eq : nD s = (K * length ts)%nat.
  Proof. destruct CM as (_ & _ & _ & F). apply sum_mult. exact F. Qed.
  Lemma ts_pos : (0 < length ts)%nat.
  Proof. destruct CM as (_ & N & _). destruct ts; [congruence|cbn; lia]. Qed.
  Lemma Jmat_ok : kept s -> Jmat s = Ok GG.
  Proof.
    intros [K2 KA]. unfold Jmat. rewrite K2, (common_times s ts CM), nD_eq. pose proof ts_pos. rewrite Nat.div_mul by lia. rewrite Nat.eqb_refl. f_equal. fold GG. destruct GG_mat as [_ F]. unfold mask. rewrite KA.
    rewrite <- (map_id GG) at 2. apply map_ext_in. intros r Hr. rewrite Forall_forall in F. apply repeat_mask. apply F. exact Hr.
  Qed.
  Lemma pred_all z : readings_at s z ts = concat (map (fun t => mv GG (z t)) ts).
  Proof.
    unfold readings_at. f_equal. apply map_ext_in. intros t Ht. unfold GG. rewrite mv_concat, map_map. f_equal. apply map_ext_in. intros r Hr. destruct CM as (_ & _ & _ & F). rewrite Forall_forall in F. rewrite (F r Hr). apply has_time_in in Ht. rewrite Ht. reflexivity.
  Qed.
  Lemma stored_direct : direct s -> stored s = false.
  Proof. intros [A B]. unfold stored. rewrite A, B. reflexivity. Qed.
  Lemma stored_kept : kept s -> stored s = true.
  Proof. intros [A B]. unfold stored. rewrite A. reflexivity. Qed.
  Lemma dpred_value m : length m = p_n s -> snd (ydpred s yinit m false) = Ok (Some (concat (map (fun t => mv GG (at_ s step_off (estores s m) t)) ts))).
  Proof.
    intros L. unfold ydpred, ygiven, yfields. destruct KD as [D|D].
    - rewrite forward_direct by (first [apply stored_direct; assumption|assumption]). cbn [snd y_pred]. do 2 f_equal. unfold pred_with. rewrite stored_direct by exact D. rewrite <- pred_all. rewrite (common_times s ts CM). reflexivity.
    - rewrite (forward_stored s yinit m GG) by (first [apply stored_kept; assumption|apply Jmat_ok; assumption|exact Logic.I|assumption]). cbn [snd y_pred]. do 2 f_equal. unfold pred_with. rewrite stored_kept by exact D. rewrite (common_times s ts CM). reflexivity.
  Qed.
  Lemma jvec_value m v : length m = p_n s -> snd (yJvec s yinit m v false) = Ok (concat (map (fun t => mv GG (pderiv s (estores s m) m v t)) ts)).
  Proof.
    intros L. destruct KD as [D|D].
    - rewrite yJvec_direct by (first [apply stored_direct; assumption|assumption]). f_equal. unfold jvec_with. rewrite stored_direct by exact D. rewrite (common_times s ts CM). f_equal. apply map_ext. intros t. unfold GG. rewrite mv_concat, map_map. reflexivity.
    - rewrite (yJvec_stored s yinit m v false GG (estores s m)); [|apply stored_kept; exact D|exact L|apply Jmat_ok; exact D|exact Logic.I|]. 2: { rewrite (ygetJ_stores s _ m GG); [reflexivity|apply stored_kept; exact D|exact L|apply Jmat_ok; exact D|exact Logic.I]. }
      f_equal. unfold jvec_with. rewrite stored_kept by exact D. rewrite (common_times s ts CM). reflexivity.
  Qed.
  Lemma c89_jacobian m : smooth s m -> positive (p_taui s m) -> positive ts -> 0 <= p_T s ->
    has_jacobian (p_n s) (nD s) (fun m => predicted (snd (ydpred s yinit m false))) m (fun v => value (snd (yJvec s yinit m v false))).
  Proof.
    intros SM P PT HT h Lh. pose proof SM as (L & _). assert (LL : forall u, length (vadd m (vscale u h)) = p_n s) by (intros u; ln).
    rewrite jvec_value by exact L. cbn [value]. eapply vderiv_ext with (f := fun u => concat (map (fun t => mv GG (at_ s step_off (estores s (vadd m (vscale u h))) t)) ts)).
    { intros u. rewrite dpred_value by apply LL. reflexivity. }
    rewrite nD_eq, Nat.mul_comm. apply (vderiv_concat K ts (fun t u => mv GG (at_ s step_off (estores s (vadd m (vscale u h))) t))). intros t Ht. unfold positive in PT. rewrite Forall_forall in PT.
    apply (vderiv_lin (p_nc s) K (mv GG) (fun u => at_ s step_off (estores s (vadd m (vscale u h))) t)); [apply lin_mv; apply GG_mat|]. apply peta_deriv; auto.
  Qed.
  Lemma c89_kept_adjoint m v w : kept s -> length m = p_n s -> length v = p_n s -> length w = nD s ->
    exists j a, snd (yJvec s yinit m v false) = Ok j /\ snd (yJtvec s yinit m w false) = Ok a /\ dot w j = dot a v.
  Proof.
    intros D L Lv Lw. eexists. rewrite jvec_value by exact L. eexists. split; [reflexivity|]. split.
    - unfold yJtvec. rewrite yset_ok by exact L. rewrite stored_kept by exact D.
      pose proof (ygetJ_ok s (mkY (Some m) (y_stores yinit) (y_pred yinit) (y_J yinit)) m GG false (stored_kept D) L (Jmat_ok D) Logic.I) as GJ.
      pose proof (ygetJ_stores s (mkY (Some m) (y_stores yinit) (y_pred yinit) (y_J yinit)) m GG false (stored_kept D) L (Jmat_ok D) Logic.I) as GS.
      destruct (ygetJ s _ m false) as [st' rJ]. cbn [fst snd y_J yinit] in *. subst rJ. cbn [bind]. unfold need. rewrite GS. rewrite (common_times s ts CM), nD_eq. pose proof ts_pos. rewrite Nat.div_mul by lia. rewrite Lw, nD_eq, Nat.eqb_refl. cbn [bind]. reflexivity.
    - symmetry. rewrite (columns_dot (p_n s) K GG _ (fun t => pderiv s (estores s m) m v t)); [|apply vzero_length|rewrite Lw, nD_eq; reflexivity| |apply GG_mat].
      + rewrite dot_zero_l. ring.
      + intros t x Ht Lx. assert (LM : length (mtv (p_nc s) GG x) = p_nc s) by (apply (mtv_length K); apply GG_mat). split; [apply pderivT_len; assumption|]. rewrite pderiv_adj by assumption. symmetry. apply (mv_mtv_adjoint K (p_nc s)); [apply GG_mat|exact Lx|apply pderiv_len; assumption].
  Qed.
  Lemma c89_direct_adjoint m v w : direct s -> length m = p_n s -> length v = p_n s -> length w = nD s ->
    exists j a, snd (yJvec s yinit m v false) = Ok j /\ snd (yJtvec s yinit m w false) = Ok a /\ dot (by_time s ts w) j = dot a v.
  Proof.
    intros D L Lv Lw. eexists. rewrite jvec_value by exact L. pose proof CM as (_ & _ & INC & FT). pose proof OK as (_ & _ & FG).
    set (f := fun t => do x <- back s (all_rx s) w 0 t (vzero (p_nc s)); Ok (pderivT s (estores s m) m x t)).
    destruct (times_fold (p_n s) f (fun t => pderiv s (estores s m) m v t) (fun k => block (all_rx s) w 0 k) GG v ts 0 (vzero (p_n s)) (vzero_length _)) as (a & E & _ & DD).
    { intros k t Hk. destruct (back_ok s ts t k INC Hk (all_rx s) w 0 (vzero (p_nc s)) FG FT) as (x & Ex & Lx & Dx); [rewrite Lw, nD_eq; reflexivity|apply vzero_length|].
      exists (pderivT s (estores s m) m x t). unfold f. rewrite Ex. split; [reflexivity|]. split; [apply pderivT_len; assumption|]. split.
      - rewrite pderiv_adj by assumption. rewrite Dx by (apply pderiv_len; assumption). rewrite dot_zero_l. cbn [Nat.add]. fold GG. ring.
      - cbn [Nat.add]. rewrite (block_len ts) by (first [exact FT|apply nth_error_Some; congruence|rewrite Lw, nD_eq; reflexivity]). symmetry. apply GG_mat. }
    exists a. split; [reflexivity|]. split.
    - unfold yJtvec. rewrite yset_ok by exact L. rewrite stored_direct by exact D. unfold ygiven, yfields. rewrite forward_direct by (first [apply stored_direct; assumption|assumption]). cbn [snd need y_stores bind]. rewrite Lw, Nat.eqb_refl. unfold add_times. rewrite (common_times s ts CM). exact E.
    - rewrite DD. rewrite dot_zero_l. unfold by_time. ring.
  Qed.
End T.
