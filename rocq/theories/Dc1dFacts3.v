(** Data, derivatives and histories of layered DC resistivity. *)
From Verif Require Import Py Vec VecDeriv PropsM Geom SpecGeom Dc1d SpecDc1d Dc1dFacts Dc1dFacts2 EmpirFacts6 LinSimFacts XyzIOFacts XyzIOFacts2.
From Verif Require Mt1d SpecMt1d Mt1dFacts5 Survey.
From Coq Require Import Lra Lia String.
Local Open Scope R_scope.
Notation length := List.length.

(** ** Shapes *)
Lemma dht_mat n_r n_lam j0 D : A_dht n_r n_lam j0 = Ok D -> is_mat n_r n_lam D.
Proof.
  unfold A_dht. destruct ((n_r =? 0) || (n_r - 1 + length j0 <=? n_lam))%nat eqn:E; [|discriminate]. intros K.
  assert (D = rev (map (fun i => vzero i ++ j0 ++ vzero (n_lam - i - length j0)) (seq 0 n_r))) as -> by congruence. clear K.
  split; [now rewrite rev_length, map_length, seq_length|]. apply Forall_rev, Forall_forall. intros row Hr. apply in_map_iff in Hr as (i & <- & Hi). apply in_seq in Hi.
  rewrite !app_length, !vzero_length. apply orb_true_iff in E. destruct E as [E|E]; [apply Nat.eqb_eq in E; lia|apply Nat.leb_le in E; lia].
Qed.
Lemma mm_mat a b n A B : is_mat b n B -> length A = a -> is_mat a n (mm n A B).
Proof. intros HB HA. split; [unfold mm; now rewrite map_length|]. apply Forall_forall. intros r Hr. unfold mm in Hr. apply in_map_iff in Hr as (x & <- & _). now apply (mtv_length b). Qed.
Lemma scale_mat a n c A : is_mat a n A -> is_mat a n (map (vscale c) A).
Proof. intros [L F]. split; [now rewrite map_length|]. apply Forall_forall. intros r Hr. apply in_map_iff in Hr as (x & <- & Hx). rewrite vscale_length. rewrite Forall_forall in F. auto. Qed.
Lemma zipn_length {A B C} (f : A -> B -> C) x : forall y, length x = length y -> length (zipn f x y) = length x.
Proof. induction x as [|a x IH]; intros [|b y]; cbn; intros; try lia. rewrite IH; lia. Qed.
Lemma over_length n_r A gf B : over_factor n_r A gf = Ok B -> length B = length A.
Proof.
  unfold over_factor. destruct (finite gf) as [[|g [|g2 gs]]|]; try discriminate.
  - destruct (_ =? _)%nat; [|discriminate]. intros K. assert (B = map (fun row => vdiv row []) A) as -> by congruence. apply map_length.
  - intros K. assert (B = map (vscale (/ g)) A) as -> by congruence. apply map_length.
  - destruct (_ =? _)%nat; [|discriminate]. intros K. assert (B = map (fun row => vdiv row (g :: g2 :: gs)) A) as -> by congruence. apply map_length.
Qed.
Lemma concat_mat n (Ls : list mat) (ks : list nat) : Forall2 (fun M k => is_mat k n M) Ls ks -> is_mat (list_sum ks) n (List.concat Ls).
Proof. induction 1 as [|M k Ls ks [L F] _ [IH1 IH2]]; [split; [reflexivity|constructor]|]. cbn. split; [rewrite app_length, L, IH1; reflexivity|apply Forall_app; auto]. Qed.

Section S.
  Variable rnd : R -> R.
  Variable spline : vec -> nat -> R -> R.
  Lemma a_rows_length xs n_r cs r : same_tables r -> length (a_rows spline xs n_r cs r) = g_nD r.
  Proof. unfold a_rows, g_nD, g_ms, same_tables. destruct (g_rx r); intros H; [apply map_length|now apply zipn_length]. Qed.
  Lemma rx_coef_mat xs n_r n_lam dht gfs p M : rx_coef spline xs n_r n_lam dht gfs p = Ok M -> is_mat n_r n_lam dht -> same_tables (snd p) -> is_mat (g_nD (snd p)) n_lam M.
  Proof.
    unfold rx_coef. set (A := a_rows spline xs n_r _ (snd p)). intros H HD HT.
    assert (LA : length A = g_nD (snd p)) by (now apply a_rows_length).
    assert (K : exists B, length B = length A /\ M = map (vscale (/ (2 * PI))) (mm n_lam B dht)).
    { destruct (g_type (snd p)); cbn [bind] in H; try (exists A; split; [reflexivity|congruence]).
      destruct (dict_get _ _ _) as [gf|]; [|discriminate]. destruct (over_factor n_r A gf) as [B|] eqn:E; [|discriminate]. cbn [bind] in H.
      exists B. split; [now apply over_length in E|congruence]. }
    destruct K as (B & LB & ->). apply scale_mat. apply (mm_mat _ n_r); [exact HD|congruence].
  Qed.
  Lemma pairs_tables sv : dipole_tables sv -> Forall (fun p => same_tables (snd p)) (g_pairs sv).
  Proof.
    unfold dipole_tables, g_pairs. rewrite !Forall_forall. intros H p Hp. apply in_flat_map in Hp as (s & Hs & Hr). apply in_map_iff in Hr as (r & <- & Hr).
    cbn. specialize (H s Hs). rewrite Forall_forall in H. auto.
  Qed.
  Lemma coef_shape f gfs sv co : coefficients rnd spline f gfs sv = Ok co -> dipole_tables sv -> is_mat (n_data sv) (length (snd co)) (fst co) /\ positive (snd co).
  Proof.
    intros H HT. unfold coefficients in H. destruct (offsets sv) as [offs|]; [|discriminate]. cbn [bind] in H.
    destruct (set_geometric_factor _ _ _) as [G|]; [|discriminate]. cbn [bind] in H.
    destruct (dlf_points rnd (f_base f) (lowest offs) (highest offs)) as [lams rs] eqn:EP.
    destruct (A_dht _ _ _) as [dht|] eqn:ED; [|discriminate]. cbn [bind] in H. destruct (mapM _ _) as [As|] eqn:EM; [|discriminate]. cbn [bind] in H.
    injection H as <-. cbn [fst snd]. split.
    - unfold n_data. apply concat_mat. apply dht_mat in ED. pose proof (pairs_tables sv HT) as HP. apply mapM_F2 in EM.
      clear -EM ED HP. induction EM as [|p M l As H _ IH]; [constructor|]. inversion HP; subst. cbn. constructor; [|auto]. now apply rx_coef_mat in H.
    - unfold dlf_points in EP. injection EP as <- _. apply Forall_forall. intros x Hx. apply in_map_iff in Hx as (k & <- & _). apply exp_pos.
  Qed.

  (** ** Derivatives *)
  Section J.
    Variables (s : dc1) (p n nd : nat) (m : vec) (co : mat * vec).
    Hypothesis HU : usable_sim s p n m.
    Hypothesis HC : is_mat nd (length (snd co)) (fst co).
    Hypothesis HL : positive (snd co).
    Definition T (m' : vec) (lam : R) : R := phi lam (lay n (Mt1d.pval (dc_rho s) m') (Mt1d.pval (dc_thick s) m')) (nth n (Mt1d.pval (dc_rho s) m') 0).
    Definition dat (m' : vec) : vec := mv (fst co) (map (T m') (snd co)).
    Lemma lens m' : length m' = p -> length (Mt1d.pval (dc_rho s) m') = S n /\ length (Mt1d.pval (dc_thick s) m') = n.
    Proof. destruct HU as (Hm & A & B). intros H. split; eapply Mt1dFacts5.usable_len; eauto. Qed.
    Lemma dpred_ok m' : length m' = p -> dpred0 s co m' = Ok (dat m').
    Proof. intros H. destruct (lens m' H) as [L1 L2]. unfold dpred0, phi_tilde. rewrite (layers_ok n) by assumption. reflexivity. Qed.
    Definition Rr (lam : R) := rowr lam n (Mt1d.pval (dc_rho s) m) (Mt1d.pval (dc_thick s) m).
    Definition Rh (lam : R) := rowh lam n (Mt1d.pval (dc_rho s) m) (Mt1d.pval (dc_thick s) m).
    Definition Jv (v : vec) : vec :=
      mv (fst co) (map (fun lam => dot (Rr lam) (Mt1dFacts5.dir (S n) (dc_rho s) m v) + dot (Rh lam) (Mt1dFacts5.dir n (dc_thick s) m v)) (snd co)).
    Lemma jac : has_jacobian p nd dat m Jv.
    Proof.
      intros h Hh. destruct HU as (Hm & A & B).
      pose proof (Mt1dFacts5.usable_curve p (S n) _ m h A Hm Hh) as DR. pose proof (Mt1dFacts5.usable_curve p n _ m h B Hm Hh) as DH.
      assert (E0 : vadd m (vscale 0 h) = m) by (apply (at_start p); assumption).
      unfold dat, Jv. apply (vderiv_mv nd (length (snd co)) (fst co)); [exact HC|].
      split; [intros t; apply map_length|]. split; [apply map_length|]. intros i Hi.
      rewrite (map_nth_lt _ _ i 0 Hi). apply (dpl_ext (fun t => T (vadd m (vscale t h)) (nth i (snd co) 0))); [intros t; symmetry; exact (map_nth_lt (T (vadd m (vscale t h))) _ i 0 Hi)|].
      assert (HLi : 0 < nth i (snd co) 0). { unfold positive in HL. rewrite Forall_forall in HL. apply HL, nth_In, Hi. }
      set (lam := nth i (snd co) 0) in *.
      pose proof (kernel_deriv lam n _ _ 0 _ _ ltac:(lra) DR DH) as K. cbv beta in K. rewrite E0 in K. apply K; [apply A|apply B].
    Qed.
    Definition theJ : jmat :=
      match dc_rho s with Mt1d.Mapped _ D => [(fst co, map Rr (snd co), D m)] | _ => [] end ++
      match dc_thick s with Mt1d.Mapped _ D => [(fst co, map Rh (snd co), D m)] | _ => [] end.
    Lemma getJ0_ok : getJ0 s co m = Ok theJ.
    Proof.
      destruct HU as (Hm & _). destruct (lens m Hm) as [L1 L2]. unfold getJ0, dphi_tilde. rewrite (layers_ok n) by assumption. cbn [bind fst snd].
      rewrite !map_map. reflexivity.
    Qed.
    Lemma mv_map {A} (f : A -> vec) (l : list A) v : mv (map f l) v = map (fun x => dot (f x) v) l.
    Proof. unfold mv. apply map_map. Qed.
    Lemma vadd_map {A} (f g : A -> R) (l : list A) : vadd (map f l) (map g l) = map (fun x => f x + g x) l.
    Proof. unfold vadd. induction l as [|x l IH]; [reflexivity|]. cbn. now rewrite IH. Qed.
    Lemma jvec_ok v : invertible s -> length v = p -> jvec0 theJ v = Ok (Jv v).
    Proof.
      intros HI Hv. unfold jvec0, theJ, Jv, invertible in *. destruct (dc_rho s) as [r0|fr Dr], (dc_thick s) as [h0|fh Dh]; cbn [Mt1d.is_mapped app map Mt1dFacts5.dir fold_left japply] in *.
      - destruct HI; discriminate.
      - rewrite mv_map. f_equal. f_equal. apply map_ext. intros lam. rewrite dot_zero_r. lra.
      - rewrite mv_map. f_equal. f_equal. apply map_ext. intros lam. rewrite dot_zero_r. lra.
      - rewrite !mv_map. f_equal. rewrite <- mv_vadd by (now rewrite !map_length). now rewrite vadd_map.
    Qed.
    Lemma Jv_length v : length (Jv v) = nd. Proof. unfold Jv. rewrite mv_length. apply HC. Qed.
    Lemma jt_one q k (Rw : R -> vec) fq D u v : q = Mt1d.Mapped fq D -> SpecMt1d.usable p k q m -> (forall lam, length (Rw lam) = k) -> length u = nd -> length v = p ->
      length (jtapply p u (fst co, map Rw (snd co), D m)) = p /\
      dot (jtapply p u (fst co, map Rw (snd co), D m)) v = dot u (mv (fst co) (mv (map Rw (snd co)) (mv (D m) v))).
    Proof.
      intros -> (_ & _ & _ & HD & _) HR Hu Hv. cbn [jtapply].
      assert (MR : is_mat (length (snd co)) k (map Rw (snd co))). { split; [apply map_length|]. apply Forall_forall. intros r Hr. apply in_map_iff in Hr as (x & <- & _). apply HR. }
      assert (LD : length (D m) = k) by apply HD. rewrite LD, map_length.
      split; [now apply (mtv_length k)|].
      rewrite <- (mv_mtv_adjoint k p (D m)) by (first [assumption|now apply (mtv_length (length (snd co)))]).
      rewrite <- (mv_mtv_adjoint (length (snd co)) k) by (first [assumption|now apply (mtv_length nd)|rewrite mv_length; exact LD]).
      rewrite <- (mv_mtv_adjoint nd (length (snd co))) by (first [assumption|rewrite mv_length; apply map_length]). reflexivity.
    Qed.
    Lemma jtvec_ok u v : invertible s -> length u = nd -> length v = p ->
      exists g, jtvec0 p theJ u = Ok g /\ length g = p /\ dot g v = dot u (Jv v).
    Proof.
      intros HI Hu Hv. destruct HU as (Hm & A & B). pose proof (jvec_ok v HI Hv) as HJ. unfold jtvec0. unfold jvec0 in HJ.
      assert (LR : forall lam, length (Rr lam) = S n) by (intros; apply rowr_length). assert (LH : forall lam, length (Rh lam) = n) by (intros; apply rowh_length).
      unfold theJ in *. unfold invertible in HI. destruct (dc_rho s) as [r0|fr Dr] eqn:ER, (dc_thick s) as [h0|fh Dh] eqn:EH; cbn [Mt1d.is_mapped app map fold_left japply] in *.
      - destruct HI; discriminate.
      - destruct (jt_one _ _ Rh fh Dh u v eq_refl B LH Hu Hv) as [L E]. eexists. split; [reflexivity|]. split; [exact L|]. rewrite E. congruence.
      - destruct (jt_one _ _ Rr fr Dr u v eq_refl A LR Hu Hv) as [L E]. eexists. split; [reflexivity|]. split; [exact L|]. rewrite E. congruence.
      - destruct (jt_one _ _ Rr fr Dr u v eq_refl A LR Hu Hv) as [L1 E1]. destruct (jt_one _ _ Rh fh Dh u v eq_refl B LH Hu Hv) as [L2 E2].
        eexists. split; [reflexivity|]. split; [rewrite vadd_length; congruence|]. rewrite dot_vadd_l by congruence. rewrite E1, E2.
        rewrite <- dot_vadd_r by (now rewrite !mv_length). congruence.
    Qed.
  End J.

  (** ** Fresh objects *)
  Lemma fresh_dpred s sv f m : fresh rnd spline s sv f (CallDpred m) = do co <- coefficients rnd spline f [] sv; dpred0 s co m.
  Proof. unfold fresh. cbn [do_call compute st0 st_co st_filt st_survey]. destruct (coefficients rnd spline f [] sv); reflexivity. Qed.
  Lemma getJ_fresh s sv f m : snd (getJ rnd spline s (st0 sv f false) m) = do co <- coefficients rnd spline f [] sv; getJ0 s co m.
  Proof.
    unfold getJ. cbn [set_model st0 st_model st_J st_fix orb st_survey st_filt st_co compute]. destruct (coefficients rnd spline f [] sv) as [co|]; [|reflexivity].
    cbn [bind]. destruct (getJ0 s co m); reflexivity.
  Qed.
  Lemma fresh_jvec s sv f m v : fresh rnd spline s sv f (CallJvec m v) = do co <- coefficients rnd spline f [] sv; do J <- getJ0 s co m; jvec0 J v.
  Proof. unfold fresh. cbn [do_call]. pose proof (getJ_fresh s sv f m) as E. destruct (getJ rnd spline s (st0 sv f false) m) as [x r]. cbn [snd] in *. rewrite E. destruct (coefficients _ _ _ _ _); reflexivity. Qed.
  Lemma fresh_jtvec s sv f m v : fresh rnd spline s sv f (CallJtvec m v) = do co <- coefficients rnd spline f [] sv; do J <- getJ0 s co m; jtvec0 (length m) J v.
  Proof. unfold fresh. cbn [do_call]. pose proof (getJ_fresh s sv f m) as E. destruct (getJ rnd spline s (st0 sv f false) m) as [x r]. cbn [snd] in *. rewrite E. destruct (coefficients _ _ _ _ _); reflexivity. Qed.
  Lemma jacobian_ok s sv f p n m co : usable_sim s p n m -> invertible s -> dipole_tables sv -> coefficients rnd spline f [] sv = Ok co ->
    exists F Jm, (forall m', length m' = p -> fresh rnd spline s sv f (CallDpred m') = Ok (F m')) /\
      (forall v, length v = p -> fresh rnd spline s sv f (CallJvec m v) = Ok (Jm v)) /\ has_jacobian p (n_data sv) F m Jm.
  Proof.
    intros HU HI HT EC. destruct (coef_shape _ _ _ _ EC HT) as [MC PC].
    exists (dat s n co), (Jv s n m co). split; [|split].
    - intros m' H. rewrite fresh_dpred, EC. cbn [bind]. now apply (dpred_ok s p n m).
    - intros v Hv. rewrite fresh_jvec, EC. cbn [bind]. rewrite (getJ0_ok s p n m co HU). cbn [bind]. now apply (jvec_ok s p n m co).
    - now apply jac.
  Qed.
  Lemma adjoint_ok s sv f p n m co u v : usable_sim s p n m -> invertible s -> dipole_tables sv -> coefficients rnd spline f [] sv = Ok co -> length u = n_data sv -> length v = p ->
    exists d g, fresh rnd spline s sv f (CallJvec m v) = Ok d /\ fresh rnd spline s sv f (CallJtvec m u) = Ok g /\ length d = n_data sv /\ length g = p /\ dot g v = dot u d.
  Proof.
    intros HU HI HT EC Hu Hv. destruct (coef_shape _ _ _ _ EC HT) as [MC PC].
    destruct (jtvec_ok s p n (n_data sv) m co HU MC u v HI Hu Hv) as (g & E & L & D).
    exists (Jv s n m co v), g. rewrite fresh_jvec, fresh_jtvec, EC. cbn [bind]. rewrite (getJ0_ok s p n m co HU). cbn [bind].
    rewrite (jvec_ok s p n m co v HI Hv). assert (length m = p) as -> by apply HU. split; [reflexivity|]. split; [exact E|]. split; [|auto]. apply (Jv_length s n (n_data sv) m co MC).
  Qed.

  (** ** Histories *)
  Definition owned (s : dc1) (sv : list gsrc) (f : filt) (ms : list vec) (x : st) : Prop :=
    st_fix x = false /\ st_survey x = sv /\ st_filt x = f /\ (forall co, st_co x = Some co -> coefficients rnd spline f [] sv = Ok co) /\
    (forall m, st_model x = Some m -> In m ms) /\
    forall J, st_J x = Some J -> exists m, st_model x = Some m /\ (do co <- coefficients rnd spline f [] sv; getJ0 s co m) = Ok J.
  Lemma owned_set s sv f ms x m : SpecMt1d.separated ms -> In m ms -> owned s sv f ms x ->
    owned s sv f ms (set_model x m) /\ st_model (set_model x m) = Some m.
  Proof.
    intros HS Hin (F & V & U & C & HM & HJ). unfold set_model. rewrite F, orb_false_r. split; [|reflexivity].
    repeat (split; [cbn; assumption || reflexivity|]). split; [cbn; intros a Ha; injection Ha as <-; exact Hin|]. cbn. intros J EJ.
    destruct (st_model x) as [m'|] eqn:E; [|discriminate]. destruct (allclose m' m) as [[|]|] eqn:EA; try discriminate.
    destruct (HJ J EJ) as (m2 & E2 & G). injection E2 as <-. exists m. split; [reflexivity|].
    destruct (HS m' m (HM _ eq_refl) Hin) as [EQ|NE]; [rewrite <- EQ; exact G|congruence].
  Qed.
  Lemma owned_compute s sv f ms x : owned s sv f ms x -> owned s sv f ms (fst (compute rnd spline x)) /\ snd (compute rnd spline x) = coefficients rnd spline f [] sv /\ st_model (fst (compute rnd spline x)) = st_model x /\ st_J (fst (compute rnd spline x)) = st_J x.
  Proof.
    intros (F & V & U & C & HM & HJ). unfold compute. destruct (st_co x) as [co|] eqn:E.
    - cbn. rewrite (C co eq_refl). repeat split; auto. intros co' K. apply C. congruence.
    - rewrite V, U. destruct (coefficients rnd spline f [] sv) as [co|e] eqn:EC; cbn.
      + split; [|auto]. repeat (split; [cbn; first [assumption|reflexivity]|]). split; [cbn; congruence|]. split; [cbn; exact HM|cbn]. intros J EJ. rewrite EC. exact (HJ J EJ).
      + split; [|auto]. repeat (split; [assumption|]). split; [rewrite E; discriminate|]. split; [exact HM|]. intros J EJ. rewrite EC. exact (HJ J EJ).
  Qed.
  Lemma owned_getJ s sv f ms x m : SpecMt1d.separated ms -> In m ms -> owned s sv f ms x ->
    owned s sv f ms (fst (getJ rnd spline s x m)) /\ snd (getJ rnd spline s x m) = do co <- coefficients rnd spline f [] sv; getJ0 s co m.
  Proof.
    intros HS Hin HO. destruct (owned_set s sv f ms x m HS Hin HO) as [O1 EM]. unfold getJ. set (x1 := set_model x m) in *.
    destruct (st_J x1) as [J|] eqn:EJ.
    - cbn. split; [exact O1|]. destruct O1 as (_ & _ & _ & _ & _ & HJ). destruct (HJ J EJ) as (m2 & E2 & G). rewrite EM in E2. injection E2 as <-. symmetry. exact G.
    - destruct (owned_compute s sv f ms x1 O1) as (O2 & EC & M2 & J2). destruct (compute rnd spline x1) as [x2 r]. cbn [fst snd] in *. rewrite EC.
      destruct (do co <- coefficients rnd spline f [] sv; getJ0 s co m) as [J|e] eqn:EG; cbn.
      + split; [|reflexivity]. destruct O2 as (F & V & U & C & HM & HJ). repeat (split; [cbn; assumption|]). cbn. intros J' E'. injection E' as <-. exists m. split; [congruence|exact EG].
      + split; [exact O2|reflexivity].
  Qed.
  Lemma owned_call s sv f ms x c : SpecMt1d.separated ms -> In (model_of c) ms -> is_call c = true -> owned s sv f ms x ->
    owned s sv f ms (fst (do_call rnd spline s x c)) /\ snd (do_call rnd spline s x c) = fresh rnd spline s sv f c.
  Proof.
    intros HS Hin HC HO. destruct c as [m|m v|m u| |]; try discriminate; cbn [model_of do_call] in *.
    - rewrite fresh_dpred. destruct (owned_compute s sv f ms x HO) as (O2 & EC & _). destruct (compute rnd spline x) as [x2 r]. cbn [fst snd] in *. rewrite EC.
      destruct (coefficients rnd spline f [] sv); cbn; split; auto. now apply owned_set.
    - rewrite fresh_jvec. destruct (owned_getJ s sv f ms x m HS Hin HO) as [O1 E]. destruct (getJ rnd spline s x m) as [x2 r]. cbn [fst snd] in *. rewrite E. split; [exact O1|]. destruct (coefficients rnd spline f [] sv); reflexivity.
    - rewrite fresh_jtvec. destruct (owned_getJ s sv f ms x m HS Hin HO) as [O1 E]. destruct (getJ rnd spline s x m) as [x2 r]. cbn [fst snd] in *. rewrite E. split; [exact O1|]. destruct (coefficients rnd spline f [] sv); reflexivity.
  Qed.
  Lemma history s sv f cs c : SpecMt1d.separated (map model_of (cs ++ [c])) -> forallb is_call (cs ++ [c]) = true ->
    snd (do_call rnd spline s (do_calls rnd spline s (st0 sv f false) cs) c) = fresh rnd spline s sv f c.
  Proof.
    intros HS HB. set (ms := map model_of (cs ++ [c])) in *. rewrite forallb_app in HB. apply andb_prop in HB as [B1 B2]. cbn in B2. rewrite andb_true_r in B2.
    assert (G : forall cs' x, incl (map model_of cs') ms -> forallb is_call cs' = true -> owned s sv f ms x -> owned s sv f ms (do_calls rnd spline s x cs')).
    { induction cs' as [|c' cs' IH]; intros x HI B HO; [exact HO|]. cbn [do_calls]. cbn in B. apply andb_prop in B as [B3 B4]. apply IH; [|exact B4|].
      - intros y Hy. apply HI. right. exact Hy.
      - apply owned_call; [exact HS|apply HI; left; reflexivity|exact B3|exact HO]. }
    apply (owned_call s sv f ms); [exact HS| |exact B2|apply G; [|exact B1|]].
    - unfold ms. rewrite map_app. apply in_or_app. right. left. reflexivity.
    - intros y Hy. unfold ms. rewrite map_app. apply in_or_app. left. exact Hy.
    - repeat (split; [reflexivity || (cbn; discriminate)|]). cbn; discriminate.
  Qed.
End S.
