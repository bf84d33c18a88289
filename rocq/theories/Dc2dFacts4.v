(** 2.5D DC: the statements about new objects and histories. *)
From Coq Require Import Reals Lra Lia.
From Verif Require Import Py Vec VecDeriv Joint Richards RichardsFacts RichardsFacts3 Dc SpecDc DcFacts DcFacts3 Dc2d SpecDc2d Dc2dFacts Dc2dFacts2 Dc2dFacts3.
Local Open Scope R_scope.

Lemma system_act s bc i m y : sizes2 s -> bc_ok s bc -> plain_bc s bc -> length m = e_p s -> length y = e_n s -> act false (Ap s bc m i) y = system2 s bc i m y.
Proof.
  intros SZ BC PB Lm Ly. rewrite Ap_act by assumption. pose proof (bulk_length s bc SZ i m y Lm Ly) as LB. unfold extra, system2, plain_bc, bc_ok in *. unfold bulk, gr, gradu, ky, Bp, bc_needed in *.
  destruct (e_form s), bc; try contradiction; try reflexivity; rewrite vadd_zero_r; (reflexivity || exact LB).
Qed.
Lemma FF_split s bc m : sizes2 s -> FF s bc m =
  concat (map (fun c => concat (map (fun r => Sm (fun i => nth i (e_ws s) 0) (rx2_nD r) (ks_idx s) (fun i => rx2_deriv r (up s bc m i c))) (c_rx c))) (e_srcs s)).
Proof.
  intros SZ. unfold FF, all, nD2. rewrite <- (Sm_concat (fun i => nth i (e_ws s) 0) (ks_idx s) src2_nD (fun c i => concat (map (fun r => rx2_deriv r (up s bc m i c)) (c_rx c)))).
  - f_equal. apply map_ext_in. intros c Hc. symmetry. apply (Sm_concat _ (ks_idx s) rx2_nD (fun r i => rx2_deriv r (up s bc m i c))).
    intros r i Hr _. apply (rx_lin s r); [apply (src_in s SZ c Hc); exact Hr|apply up_len; assumption].
  - intros c i Hc _. apply (block_len s SZ (up s bc m i) c Hc). apply up_len; assumption.
Qed.
Lemma deriv_nth s r u t : rx_size s r -> (t < length (x_P r))%nat -> nth t (rx2_deriv r u) 0 = dot (nth t (x_P r) []) u / match x_g r with Some g => nth t g 0 | None => 1 end.
Proof.
  intros [_ Hg] Ht. unfold rx2_deriv. assert (E : nth t (mv (x_P r) u) 0 = dot (nth t (x_P r) []) u).
  { unfold mv. rewrite (nth_indep _ 0 (dot [] u)) by (rewrite map_length; exact Ht). apply (map_nth (fun row => dot row u)). }
  destruct (x_g r) as [g|]; [|rewrite E; unfold Rdiv; rewrite Rinv_1; ring]. destruct Hg as [Lg _]. rewrite <- vdiv_inv, <- E. generalize (mv_length (x_P r) u). generalize (mv (x_P r) u). intros a La.
  rewrite <- Lg in La, Ht. clear - La Ht. revert g t La Ht. unfold vdiv. induction a as [|x a IH]; intros [|y g] [|t] La Ht; cbn in *; try lia; try reflexivity. apply IH; lia.
Qed.
Lemma readings_eq s bc m : sizes2 s -> FF s bc m = readings2 s (up s bc m).
Proof.
  intros SZ. rewrite FF_split by exact SZ. unfold readings2. f_equal. apply map_ext_in. intros c Hc. f_equal. apply map_ext_in. intros r Hr. destruct (src_in s SZ c Hc) as [_ RS]. specialize (RS r Hr).
  assert (L : forall i, length (rx2_deriv r (up s bc m i c)) = rx2_nD r) by (intros; apply (rx_lin s r RS); apply up_len; assumption).
  apply nth_ext with (d := 0) (d' := 0); [rewrite Sm_len by (intros; apply L); rewrite map_length, seq_length; reflexivity|].
  rewrite Sm_len by (intros; apply L). intros t Ht. rewrite Sm_nth by (auto; intros; apply L). unfold rx2_nD in Ht.
  rewrite (nth_indep _ 0 (reading2 s r 0 (fun k => up s bc m k c))) by (rewrite map_length, seq_length; exact Ht). rewrite (map_nth (fun i => reading2 s r i (fun k => up s bc m k c))). rewrite seq_nth by exact Ht. cbn [plus].
  unfold reading2, ks_idx. f_equal. apply map_ext. intros k. f_equal. apply (deriv_nth s r _ t RS Ht).
Qed.

Section New.
  Context (s : dc2) (bc : bct) (SZ : sizes2 s) (BC : bc_ok s bc) (FJ : e_fixJ s = false).
  Lemma dpred_new m : length m = e_p s -> snd (dpred2 s (init2 bc) m None) = Ok (FF s bc m).
  Proof.
    intros Lm. unfold dpred2. cbn [given2]. destruct (fields2_ok s bc (init2 bc) m (proj1 (init_ok s bc m)) Lm FJ) as (st & -> & _). cbn [snd]. f_equal. apply predict_eq. exact SZ.
  Qed.
  Lemma data_ok m : plain_bc s bc -> length m = e_p s -> solves2 s bc m ->
    exists u, snd (dpred2 s (init2 bc) m None) = Ok (readings2 s u) /\
      forall i c, (i < length (e_ks s))%nat -> In c (e_srcs s) -> length (u i c) = e_n s /\ system2 s bc i m (u i c) = c_q c /\ forall y, length y = e_n s -> system2 s bc i m y = c_q c -> y = u i c.
  Proof.
    intros PB Lm SV. exists (up s bc m). split; [rewrite dpred_new by exact Lm; f_equal; apply readings_eq; exact SZ|]. intros i c Hi Hc.
    pose proof (up_len s bc SZ m i c Hc) as Lu. destruct (SV i Hi (c_q c) (proj1 (src_in s SZ c Hc))) as [E U]. split; [exact Lu|]. split.
    - rewrite <- system_act by assumption. exact E.
    - intros y Ly Ey. rewrite <- system_act in Ey by assumption. exact (U y Ly Ey).
  Qed.
  Lemma reg_solves m : regular2 s bc m -> solves2 s bc m.
  Proof. intros (Lm & _ & _ & e & He & Near). apply Near; [exact Lm|]. intros j Hj. rewrite Rminus_eq_0, Rabs_R0. exact He. Qed.
  Lemma Jvec_new m v : length m = e_p s -> length v = e_p s -> (e_storeJ s = true -> solves2 s bc m /\ symmetric2 s bc m) ->
    snd (Jvec2 s (init2 bc) m v None) = Ok (Sm (fun i => nth i (e_ws s) 0) (nD2 s) (ks_idx s) (fun i => all s (du2 s bc m v i))).
  Proof.
    intros Lm Lv SS. destruct (init_ok s bc m) as [I B]. destruct (Jvec2_ok s bc (init2 bc) m v None I Logic.I Lm FJ B) as (st & -> & _). cbn [snd]. f_equal.
    destruct (e_storeJ s); [|apply JvP_eq; assumption]. destruct (SS eq_refl). apply (JJ_ok s bc SZ BC m Lm); assumption.
  Qed.
  Lemma jac_ok m : regular2 s bc m -> (e_storeJ s = true -> symmetric2 s bc m) ->
    exists F J, (forall m', length m' = e_p s -> snd (dpred2 s (init2 bc) m' None) = Ok (F m')) /\
      (forall v, length v = e_p s -> snd (Jvec2 s (init2 bc) m v None) = Ok (J v)) /\ has_jacobian (e_p s) (nD2 s) F m J.
  Proof.
    intros RG SY. exists (FF s bc). eexists. split; [intros; apply dpred_new; assumption|]. split; [|apply FF_jac; assumption].
    intros v Lv. apply Jvec_new; [apply RG|exact Lv|]. intros E. split; [apply reg_solves; exact RG|exact (SY E)].
  Qed.
  Lemma adj_ok m v y : length m = e_p s -> solves2 s bc m -> symmetric2 s bc m -> length v = e_p s -> length y = nD2 s ->
    exists d g, snd (Jvec2 s (init2 bc) m v None) = Ok d /\ snd (Jtvec2 s (init2 bc) m y None) = Ok g /\ length d = nD2 s /\ length g = e_p s /\ dot g v = dot y d.
  Proof.
    intros Lm SV SY Lv Ly. eexists. destruct (init_ok s bc m) as [I B]. destruct (Jtvec2_ok s bc (init2 bc) m y None I Logic.I Lm FJ B) as (st & Et & _). rewrite Et. eexists.
    split; [apply Jvec_new; auto|]. split; [reflexivity|].
    assert (LA : forall i, length (all s (du2 s bc m v i)) = nD2 s) by (intros; apply (all_len s SZ); intros; apply du_len; assumption). split; [apply Sm_len; intros; apply LA|].
    destruct (e_storeJ s).
    - destruct (JJ_ok s bc SZ BC m Lm SV SY) as [M E]. split; [eapply mtv_length; exact M|]. rewrite <- E by exact Lv. rewrite <- (mv_mtv_adjoint (nD2 s) (e_p s)) by assumption. reflexivity.
    - destruct (JtP_ok s bc SZ BC m Lm SV SY y Ly (ks_idx s) (vzero (e_p s)) (ks_lt s) (vzero_length _)) as [L E]. split; [exact L|]. rewrite E by exact Lv. rewrite dot_zero_l. ring.
  Qed.
  Lemma getJ_new m : length m = e_p s -> solves2 s bc m -> symmetric2 s bc m ->
    exists J, snd (getJ2 s (init2 bc) m None) = Ok J /\ is_mat (nD2 s) (e_p s) J /\ forall v, length v = e_p s -> snd (Jvec2 s (init2 bc) m v None) = Ok (mv J v).
  Proof.
    intros Lm SV SY. destruct (init_ok s bc m) as [I B]. destruct (getJ2_ok s bc (init2 bc) m None I Logic.I Lm FJ B) as (st & -> & _). exists (JJ s bc m). split; [reflexivity|].
    destruct (JJ_ok s bc SZ BC m Lm SV SY) as [M E]. split; [exact M|]. intros v Lv. rewrite Jvec_new by auto. rewrite E by exact Lv. reflexivity.
  Qed.
  Lemma symmetric_ok m : length m = e_p s -> (e_form s = Cell -> forall i, (i < length (e_ks s))%nat -> scaled_gradient s bc i) -> symmetric2 s bc m.
  Proof.
    intros Lm SG i Hi. apply (sym2 s bc SZ BC m i Lm). intros F. destruct (SG F i Hi) as (c & Lc & E). exists c. split; [exact Lc|]. intros x Lx. rewrite <- E by exact Lx.
    unfold gr, gradu, Bp, bc_needed. rewrite F. destruct bc; reflexivity.
  Qed.
End New.

(** ** Histories *)
Section History.
  Context (s : dc2) (bc : bct) (FJ : e_fixJ s = false) (NS : no_stale s bc).
  Definition InvL2 (st : state2) (l : last2) : Prop := match l with Some (m, f) => length m = e_p s /\ f = fP s bc m /\ u_A st = Some (AsP s bc m) | None => True end.
  Definition Inv2 (st : state2) (l : last2) : Prop := InvS2 s bc st /\ (forall m, BsAt s bc st m) /\ InvL2 st l.
  Lemma BsAt_all st m : BsAt s bc st m -> forall m', BsAt s bc st m'.
  Proof.
    intros H m' i x F N D. rewrite (H i x F N D). unfold Bsp. rewrite F, N. destruct NS as [E|[E|E]]; [congruence| |now rewrite (E m m')].
    exfalso. unfold bc_needed in N. rewrite F, E in N. discriminate.
  Qed.
  Lemma pick_good st l m g : Inv2 st l -> good_given s bc st m (pick2 l m g).
  Proof.
    intros (_ & _ & L). unfold pick2. destruct g; [|exact I]. destruct l as [[m' f]|]; [|exact I]. destruct (list_eq_dec Req_EM_T m' m) as [->|]; [|exact I]. cbn in *. tauto.
  Qed.
  Lemma pick_len st l m g : Inv2 st l -> pick2 l m g <> None -> length m = e_p s.
  Proof.
    intros (_ & _ & L). unfold pick2. destruct g; [|congruence]. destruct l as [[m' f]|]; [|congruence]. destruct (list_eq_dec Req_EM_T m' m) as [->|]; [|congruence]. intros _. apply L.
  Qed.
  Lemma kept_inv st st' l f : InvS2 s bc st' -> (forall m, BsAt s bc st' m) -> (f <> None -> u_A st' = u_A st) -> InvL2 st l -> Inv2 st' (kept2 l f).
  Proof.
    intros I B A L. split; [exact I|]. split; [exact B|]. destruct f; cbn; [|exact Logic.I]. unfold InvL2 in *. destruct l as [[m0 f0]|]; [|exact L]. rewrite A by discriminate. exact L.
  Qed.
  Lemma len_dec (m : vec) : length m = e_p s \/ length m <> e_p s. Proof. lia. Qed.
  Lemma pick_bad st l m g : Inv2 st l -> length m <> e_p s -> pick2 l m g = None.
  Proof. intros I N. destruct (pick2 l m g) eqn:E; [|reflexivity]. exfalso. apply N. apply (pick_len st l m g I). congruence. Qed.
  Lemma fields_bad2 st m : length m <> e_p s -> fields2 s st m = (st, Err ValueError).
  Proof. intros N. unfold fields2. rewrite set_model2_bad by exact N. reflexivity. Qed.
  Definition dpredA m : result vec := if Nat.eqb (length m) (e_p s) then Ok (predict2 s (fP s bc m)) else Err ValueError.
  Definition JvecA m v : result vec := if Nat.eqb (length m) (e_p s) then Ok (if e_storeJ s then mv (JJ s bc m) v else JvP s bc m v (ks_idx s) (vzero (nD2 s))) else Err ValueError.
  Definition JtvecA m w : result vec := if Nat.eqb (length m) (e_p s) then Ok (if e_storeJ s then mtv (e_p s) (JJ s bc m) w else JtP s bc m w (ks_idx s) (vzero (e_p s))) else Err ValueError.
  Definition JA m : result mat := if Nat.eqb (length m) (e_p s) then Ok (JJ s bc m) else Err ValueError.
  Lemma dpred_h st l m g : Inv2 st l -> Inv2 (fst (dpred2 s st m (pick2 l m g))) (kept2 l (pick2 l m g)) /\ snd (dpred2 s st m (pick2 l m g)) = dpredA m.
  Proof.
    intros I. unfold dpredA. destruct (len_dec m) as [Lm|N].
    - rewrite Lm, Nat.eqb_refl. pose proof (pick_good st l m g I) as G. pose proof I as (IS & B & L). destruct (pick2 l m g) as [f|] eqn:E; unfold dpred2; cbn [given2].
      + destruct G as [-> _]. cbn [fst snd]. split; [exact I|reflexivity].
      + destruct (fields2_ok s bc st m IS Lm FJ) as (st' & -> & I' & A' & F' & M' & S'). cbn [fst snd]. split; [|reflexivity].
        apply (kept_inv st st' l None); [exact I'| |congruence|exact L]. intros m0 i x. rewrite S'. apply B.
    - rewrite (pick_bad st l m g I N). unfold dpred2. cbn [given2]. rewrite fields_bad2 by exact N. cbn [fst snd]. pose proof I as (IS & B & L). split; [apply (kept_inv st st l None); auto|].
      destruct (Nat.eqb_spec (length m) (e_p s)); [contradiction|reflexivity].
  Qed.
  Lemma getJ_h st l m g : Inv2 st l -> Inv2 (fst (getJ2 s st m (pick2 l m g))) (kept2 l (pick2 l m g)) /\ snd (getJ2 s st m (pick2 l m g)) = JA m.
  Proof.
    intros I. unfold JA. destruct (len_dec m) as [Lm|N].
    - rewrite Lm, Nat.eqb_refl. pose proof I as (IS & B & L). destruct (getJ2_ok s bc st m (pick2 l m g) IS (pick_good st l m g I) Lm FJ (B m)) as (st' & -> & I' & B' & A'). cbn [fst snd]. split; [|reflexivity].
      apply (kept_inv st); auto. apply BsAt_all with m. exact B'.
    - rewrite (pick_bad st l m g I N). unfold getJ2. rewrite set_model2_bad by exact N. cbn [fst snd]. pose proof I as (IS & B & L). split; [apply (kept_inv st st l None); auto|].
      destruct (Nat.eqb_spec (length m) (e_p s)); [contradiction|reflexivity].
  Qed.
  Lemma Jvec_h st l m v g : Inv2 st l -> Inv2 (fst (Jvec2 s st m v (pick2 l m g))) (kept2 l (pick2 l m g)) /\ snd (Jvec2 s st m v (pick2 l m g)) = JvecA m v.
  Proof.
    intros I. unfold JvecA. destruct (len_dec m) as [Lm|N].
    - rewrite Lm, Nat.eqb_refl. pose proof I as (IS & B & L). destruct (Jvec2_ok s bc st m v (pick2 l m g) IS (pick_good st l m g I) Lm FJ (B m)) as (st' & -> & I' & B' & A'). cbn [fst snd]. split; [|reflexivity].
      apply (kept_inv st); auto. apply BsAt_all with m. exact B'.
    - rewrite (pick_bad st l m g I N). unfold Jvec2, getJ2. rewrite set_model2_bad by exact N. pose proof I as (IS & B & L).
      assert (Q : Inv2 st (kept2 l None)) by (apply (kept_inv st st l None); auto).
      destruct (Nat.eqb_spec (length m) (e_p s)); [contradiction|]. destruct (e_storeJ s); (split; [exact Q|reflexivity]).
  Qed.
  Lemma Jtvec_h st l m v g : Inv2 st l -> Inv2 (fst (Jtvec2 s st m v (pick2 l m g))) (kept2 l (pick2 l m g)) /\ snd (Jtvec2 s st m v (pick2 l m g)) = JtvecA m v.
  Proof.
    intros I. unfold JtvecA. destruct (len_dec m) as [Lm|N].
    - rewrite Lm, Nat.eqb_refl. pose proof I as (IS & B & L). destruct (Jtvec2_ok s bc st m v (pick2 l m g) IS (pick_good st l m g I) Lm FJ (B m)) as (st' & -> & I' & B' & A'). cbn [fst snd]. split; [|reflexivity].
      apply (kept_inv st); auto. apply BsAt_all with m. exact B'.
    - rewrite (pick_bad st l m g I N). unfold Jtvec2, getJ2. rewrite set_model2_bad by exact N. pose proof I as (IS & B & L).
      assert (Q : Inv2 st (kept2 l None)) by (apply (kept_inv st st l None); auto).
      destruct (Nat.eqb_spec (length m) (e_p s)); [contradiction|]. destruct (e_storeJ s); (split; [exact Q|reflexivity]).
  Qed.
  Lemma init_inv2 : Inv2 (init2 bc) None.
  Proof. split; [apply (init_ok s bc [])|]. split; [intros m; apply (init_ok s bc m)|exact I]. Qed.
  Lemma call_inv stl c : Inv2 (fst stl) (snd stl) -> Inv2 (fst (do_call2 s stl c)) (snd (do_call2 s stl c)).
  Proof.
    destruct stl as [st l]. cbn [fst snd]. intros I. destruct c as [m|m g|m v g|m w g|m g]; cbn [do_call2].
    - pose proof I as (IS & B & L). destruct (len_dec m) as [Lm|N].
      + destruct (fields2_ok s bc st m IS Lm FJ) as (st' & -> & I' & A' & F' & M' & S'). cbn [fst snd]. split; [exact I'|]. split; [intros m0 i x; rewrite S'; apply B|]. cbn. auto.
      + rewrite fields_bad2 by exact N. cbn [fst snd]. split; [exact IS|]. split; [exact B|exact Logic.I].
    - apply (dpred_h st l m g I).
    - apply (Jvec_h st l m v g I).
    - apply (Jtvec_h st l m w g I).
    - apply (getJ_h st l m g I).
  Qed.
  Lemma history_inv2 h : Inv2 (fst (history2 s bc h)) (snd (history2 s bc h)).
  Proof.
    unfold history2. assert (G : forall stl, Inv2 (fst stl) (snd stl) -> Inv2 (fst (fold_left (do_call2 s) h stl)) (snd (fold_left (do_call2 s) h stl))).
    { induction h as [|c h IH]; intros stl I; [exact I|]. cbn [fold_left]. apply IH. apply call_inv. exact I. }
    apply G. exact init_inv2.
  Qed.
  Lemma history_free2 h m v w g : let st := fst (history2 s bc h) in let f := pick2 (snd (history2 s bc h)) m g in
    snd (dpred2 s st m f) = snd (dpred2 s (init2 bc) m None) /\ snd (Jvec2 s st m v f) = snd (Jvec2 s (init2 bc) m v None) /\
    snd (Jtvec2 s st m w f) = snd (Jtvec2 s (init2 bc) m w None) /\ snd (getJ2 s st m f) = snd (getJ2 s (init2 bc) m None).
  Proof.
    intros st f. pose proof (history_inv2 h) as I. pose proof init_inv2 as I0. subst st f.
    rewrite (proj2 (dpred_h _ _ m g I)), (proj2 (Jvec_h _ _ m v g I)), (proj2 (Jtvec_h _ _ m w g I)), (proj2 (getJ_h _ _ m g I)).
    rewrite <- (proj2 (dpred_h _ _ m false I0)), <- (proj2 (Jvec_h _ _ m v false I0)), <- (proj2 (Jtvec_h _ _ m w false I0)), <- (proj2 (getJ_h _ _ m false I0)). auto.
  Qed.
End History.

(** ** Weights *)
Lemma diffs_cons a b l : diffs (a :: b :: l) = (b - a) :: diffs (b :: l). Proof. reflexivity. Qed.
Lemma trap_aux : forall ks fs d, length fs = length ks -> ks <> [] ->
  dot (vadd (map (fun x => x / 2) (diffs ks) ++ [0]) (d :: map (fun x => x / 2) (diffs ks))) fs = d * nth 0 fs 0 + trapezoids ks fs.
Proof.
  induction ks as [|k ks IH]; intros fs d L N; [congruence|]. destruct fs as [|f fs]; [discriminate|]. destruct ks as [|k' ks].
  - destruct fs; [|discriminate]. cbn. ring.
  - destruct fs as [|f' fs]; [discriminate|]. rewrite diffs_cons. cbn [map app]. specialize (IH (f' :: fs) ((k' - k) / 2) ltac:(cbn in *; lia) ltac:(discriminate)).
    unfold vadd in *. cbn [zipw dot nth] in *. rewrite IH. cbn [trapezoids]. destruct ks, fs; cbn; field.
Qed.
Lemma trap_ok ks fs : length fs = length ks -> ks <> [] -> dot (trap_weights ks) fs = (nth 0 ks 0 * nth 0 fs 0 + trapezoids ks fs) / PI.
Proof.
  intros L N. unfold trap_weights. set (w := vadd _ _). assert (Lw : length w = length ks).
  { unfold w. destruct ks as [|k ks]; [congruence|]. assert (LD : length (diffs (k :: ks)) = length ks). { unfold diffs. rewrite map_length, combine_length. apply Nat.min_r. cbn [length]. lia. }
    apply ln_add; [rewrite app_length, map_length, LD; cbn; lia|cbn [length]; rewrite map_length, LD; reflexivity]. }
  pose proof (trap_aux ks fs 0 L N) as T. fold w in T. clearbody w.
  assert (E : vmul w (map (fun k => cos (k * 0)) ks) = w).
  { clear - Lw. revert ks Lw. unfold vmul. induction w as [|x w IH]; intros [|k ks] Lw; cbn in *; try discriminate; [reflexivity|]. rewrite Rmult_0_r, cos_0, Rmult_1_r. f_equal. apply IH. lia. }
  rewrite E. destruct w as [|x w]; [destruct ks; [congruence|discriminate]|].
  destruct fs as [|f fs]; [destruct ks; [congruence|discriminate]|].
  assert (S : forall a b, dot (map (fun x => x / PI) a) b = dot a b / PI).
  { induction a as [|p a IH]; intros [|q b]; cbn; try (unfold Rdiv; ring). rewrite IH. unfold Rdiv. ring. }
  rewrite S. f_equal. cbn [dot] in *. rewrite Rmult_0_r, cos_0. cbn [nth] in *. lra.
Qed.
