From Verif Require Import Py Vec VecDeriv ParamFacts Joint Gncg Empir SpecEmpir EmpirFacts Richards SpecRichards RichardsFacts RichardsFacts2.
From Coq Require Import Lra Lia.
Local Open Scope R_scope.

(** ** Concatenation *)
Lemma nth_app_split (a b : vec) i : nth i (a ++ b) 0 = if (i <? length a)%nat then nth i a 0 else nth (i - length a) b 0.
Proof. destruct (Nat.ltb_spec i (length a)); [apply app_nth1|apply app_nth2]; auto. Qed.
Lemma vderiv_app n k f f' h h' : vderiv n f 0 f' -> vderiv k h 0 h' -> vderiv (n + k) (fun t => f t ++ h t) 0 (f' ++ h').
Proof.
  intros (L & L' & D) (M & M' & E). split; [intros t; rewrite app_length, L, M; reflexivity|]. split; [rewrite app_length; congruence|].
  intros i Hi. rewrite nth_app_split, L'. destruct (Nat.ltb_spec i n) as [Q|Q].
  - apply (dpl_ext (fun t => nth i (f t) 0)); [|apply D; exact Q]. intros t. rewrite app_nth1 by (rewrite L; exact Q). reflexivity.
  - apply (dpl_ext (fun t => nth (i - n) (h t) 0)); [|apply E; lia]. intros t. rewrite app_nth2 by (rewrite L; exact Q). rewrite L. reflexivity.
Qed.
Lemma vderiv_concat n (cs : list (R -> vec)) ds : Forall2 (fun c d => vderiv n c 0 d) cs ds ->
  vderiv (length cs * n) (fun t => concat (map (fun c => c t) cs)) 0 (concat ds).
Proof.
  induction 1 as [|c d cs ds Hc H IH]; cbn [map concat length Nat.mul].
  - split; [reflexivity|]. split; [reflexivity|]. intros i Hi. lia.
  - apply vderiv_app; assumption.
Qed.
Lemma vmul_app (a b c d : vec) : length a = length c -> vmul (a ++ b) (c ++ d) = vmul a c ++ vmul b d.
Proof. revert c. induction a as [|x a IH]; intros [|y c] L; cbn; try discriminate; [reflexivity|]. f_equal. apply IH. cbn in L. lia. Qed.
Lemma vadd_app (a b c d : vec) : length a = length c -> vadd (a ++ b) (c ++ d) = vadd a c ++ vadd b d.
Proof. revert c. induction a as [|x a IH]; intros [|y c] L; cbn; try discriminate; [reflexivity|]. f_equal. apply IH. cbn in L. lia. Qed.
Lemma mv_concat Ms v : mv (concat Ms) v = concat (map (fun M => mv M v) Ms).
Proof. unfold mv. rewrite concat_map. reflexivity. Qed.
Lemma concat_length_eq n (ls : list vec) : Forall (fun f => length f = n) ls -> length (concat ls) = (length ls * n)%nat.
Proof. induction 1; cbn; [reflexivity|]. rewrite app_length. lia. Qed.
Lemma dot_app' (a b c d : vec) : length a = length c -> dot (a ++ b) (c ++ d) = dot a c + dot b d.
Proof. revert c. induction a as [|x a IH]; intros [|y c] L; cbn; try discriminate; [ring|]. rewrite IH by (cbn in L; lia). ring. Qed.

Section Branch.
  Context (s : sim) (p : nat).
  Let g := q_grid s.
  Let n := g_n g.
  Hypothesis GO : grid_ok g (length (q_bc s)).
  Lemma zero_deriv (f : R -> R) l : (exists d, 0 < d /\ forall t, Rabs t < d -> f t = 0) -> derivable_pt_lim f 0 l -> l = 0.
  Proof.
    intros (d & Hd & E) D. apply (uniqueness_limite f 0); [exact D|]. apply (dpl_local (fun _ => 0)); [|apply dpl_const].
    exists d. split; [exact Hd|]. intros h Hh. rewrite E; [reflexivity|]. rewrite Rplus_0_l. exact Hh.
  Qed.
  (** A branch of solutions has the derivatives found by forward substitution. *)
  Lemma branch xs v : q_method s = Mixed -> vderiv p xs 0 v -> forall cs ds dts d0,
    Forall2 (fun c d => vderiv n c 0 d) cs ds -> hd d0 ds = d0 -> length cs = S (length dts) ->
    Forall (fun dt => dt <> 0) dts ->
    (forall hn h dt, In (hn, h, dt) (pairs (map (fun c => c 0) cs) dts) -> good s p (xs 0) hn h /\ k_ok g (r_call (q_k s) (xs 0) h) /\ inverts n (q_solve s) (Adiag s (xs 0) h dt)) ->
    (exists e, 0 < e /\ forall t, Rabs t < e -> forall hn h dt, In (hn, h, dt) (pairs (map (fun c => c t) cs) dts) -> residual s (xs t) hn h dt = vzero n) ->
    forward s (xs 0) v (Some d0) (map (fun c => c 0) cs) dts = tl ds.
  Proof.
    intros EM Dx cs. induction cs as [|c0 cs IH]; intros ds dts d0 F2 Hd L FD G Z; [discriminate|].
    destruct ds as [|d ds]; [inversion F2|]. cbn [hd tl] in Hd |- *. subst d.
    destruct cs as [|c1 cs], dts as [|dt dts]; try discriminate.
    - inversion F2 as [|? ? ? ? _ F3]; subst. inversion F3; subst. reflexivity.
    - assert (D0 : vderiv n c0 0 d0) by (inversion F2; assumption).
      assert (F3 : Forall2 (fun c d => vderiv n c 0 d) (c1 :: cs) ds) by (inversion F2; assumption). clear F2.
      destruct ds as [|d1 ds]; [inversion F3|]. assert (D1 : vderiv n c1 0 d1) by (inversion F3; assumption).
      cbn [map]. rewrite forward_cons. cbv zeta.
      assert (HI : In (c0 0, c1 0, dt) (pairs (map (fun c => c 0) (c0 :: c1 :: cs)) (dt :: dts))) by (left; reflexivity).
      destruct (G _ _ _ HI) as ((Ln & Lh & S0 & S1 & SK) & OK & I1).
      pose proof (res_deriv s GO p xs c0 c1 v d0 d1 dt EM (Forall_inv FD) Dx D0 D1 S0 S1 SK OK) as DR. cbv beta in DR.
      pose proof (proj1 (proj2 Dx)) as Lv. pose proof (proj1 Dx 0) as Lx.
      pose proof (wfm_act _ _ _ (wfm_Bmat s p GO (xs 0) (c0 0) (c1 0) dt Lx S0 S1 SK)) as (FB & _ & _). specialize (FB v Lv).
      pose proof (wfm_act _ _ _ (wfm_Asub s p (xs 0) (c0 0) dt S0)) as (FA & _ & _). specialize (FA d0 (proj1 (proj2 D0))).
      pose proof (wfm_act _ _ _ (wfm_Adiag s p GO (xs 0) (c1 0) dt S1 SK)) as (FDg & _ & _). specialize (FDg d1 (proj1 (proj2 D1))).
      fold g n in FB, FA, FDg, DR.
      assert (E0 : forall i, (i < n)%nat -> nth i (act false (Adiag s (xs 0) (c1 0) dt) d1) 0 + nth i (act false (Asub s (xs 0) (c0 0) dt) d0) 0
                  - nth i (act false (Bmat s (xs 0) (c0 0) (c1 0) dt) v) 0 = 0).
      { intros i Hi. pose proof (proj2 (proj2 DR) i Hi) as Di. revert Di. nths n. intros Di. apply (zero_deriv _ _) with (2 := Di).
        destruct Z as (e & He & Z). exists e. split; [exact He|]. intros t Ht. rewrite (Z t Ht (c0 t) (c1 t) dt (or_introl eq_refl)). apply nth_zero. }
      assert (Lb : length (vsub (act false (Bmat s (xs 0) (c0 0) (c1 0) dt) v) (act false (Asub s (xs 0) (c0 0) dt) d0)) = n) by (ln).
      assert (E1 : d1 = q_solve s (Adiag s (xs 0) (c1 0) dt) (vsub (act false (Bmat s (xs 0) (c0 0) (c1 0) dt) v) (act false (Asub s (xs 0) (c0 0) dt) d0))).
      { apply (I1 _ Lb); [apply D1|]. vext n. specialize (E0 _ Hi). lra. }
      rewrite <- E1. f_equal. apply (IH (d1 :: ds) dts d1).
      + exact F3.
      + reflexivity.
      + cbn in L |- *. lia.
      + exact (Forall_inv_tail FD).
      + intros hn h dt' HI'. apply G. right. exact HI'.
      + destruct Z as (e & He & Z). exists e. split; [exact He|]. intros t Ht hn h dt' HI'. apply (Z t Ht). right. exact HI'.
  Qed.

  (** ** The derivative of the data of a branch *)
  Lemma sat_deriv xs v cs ds : vderiv p xs 0 v -> Forall2 (fun c d => vderiv n c 0 d) cs ds -> (forall c, In c cs -> smooth_at p n (q_theta s) (xs 0) (c 0)) ->
    let x := xs 0 in let fs := map (fun c => c 0) cs in
    vderiv (length cs * n) (fun t => concat (map (r_call (q_theta s) (xs t)) (map (fun c => c t) cs))) 0
      (match sat_dm s x fs with Some M => vadd (act false (sat_du s x fs) (concat ds)) (act false M v) | None => act false (sat_du s x fs) (concat ds) end).
  Proof.
    intros Dx F2 SM x fs.
    apply (vderiv_ext _ (fun t => concat (map (fun c => c t) (map (fun c t => r_call (q_theta s) (xs t) (c t)) cs)))).
    { intros t. rewrite !map_map. reflexivity. }
    replace (length cs) with (length (map (fun c t => r_call (q_theta s) (xs t) (c t)) cs)) by apply map_length.
    eapply vderiv_eq; [|apply (vderiv_concat n _ (map (fun cd => vadd (vmul (r_dU (q_theta s) x (fst cd 0)) (snd cd)) (applied0 n (r_dM (q_theta s) x (fst cd 0)) v)) (combine cs ds)))].
    - unfold sat_dm, sat_du. unfold fs. clear fs. cbn [act]. destruct (r_needs (q_theta s)) eqn:N.
      + cbn [act]. rewrite mv_concat. revert SM. induction F2 as [|c d cs ds Hc F2 IH]; intros SM; [reflexivity|].
        cbn [combine map concat fst snd]. rewrite IH by (intros c' HI; apply SM; right; exact HI).
        destruct (SM c (or_introl eq_refl)) as (_ & LU & HM & _). pose proof (proj1 (proj2 Hc)) as Ld. fold x in LU, HM |- *.
        destruct (r_dM (q_theta s) x (c 0)) as [M|]; [|congruence]. cbn [applied0].
        rewrite vmul_app by congruence. rewrite vadd_app by (rewrite vmul_length, mv_length by congruence; destruct HM as [[HM _] _]; congruence). reflexivity.
      + revert SM. induction F2 as [|c d cs ds Hc F2 IH]; intros SM; [reflexivity|].
        cbn [combine map concat fst snd]. rewrite IH by (intros c' HI; apply SM; right; exact HI).
        destruct (SM c (or_introl eq_refl)) as (_ & LU & HM & _). pose proof (proj1 (proj2 Hc)) as Ld. fold x in LU, HM |- *.
        destruct (r_dM (q_theta s) x (c 0)) as [M|]; [destruct HM; congruence|]. cbn [applied0].
        rewrite vmul_app by congruence. f_equal. apply vadd_zero_r. ln.
    - revert SM. induction F2 as [|c d cs ds Hc F2 IH]; intros SM; cbn [map combine]; constructor.
      + cbn [fst snd]. destruct (SM c (or_introl eq_refl)) as (_ & _ & _ & D). apply D; auto.
      + apply IH. intros c' HI. apply SM. right. exact HI.
  Qed.
  Lemma rx_deriv_ok xs v cs ds r : vderiv p xs 0 v -> Forall2 (fun c d => vderiv n c 0 d) cs ds -> (forall c, In c cs -> smooth_at p n (q_theta s) (xs 0) (c 0)) ->
    is_mat (length (x_P r)) (length cs * n) (x_P r) ->
    vderiv (length (x_P r)) (fun t => rx_call s (xs t) (map (fun c => c t) cs) r) 0 (rx_deriv s (xs 0) (map (fun c => c 0) cs) (concat ds) v r).
  Proof.
    intros Dx F2 SM W. unfold rx_call, rx_deriv. destruct (x_kind r).
    - apply (vderiv_mv _ (length cs * n)); [exact W|]. apply vderiv_concat. exact F2.
    - pose proof (sat_deriv xs v cs ds Dx F2 SM) as D. cbv zeta in D. destruct (sat_dm s (xs 0) (map (fun c => c 0) cs)) as [M|] eqn:EM.
      + rewrite <- mv_vadd.
        * apply (vderiv_mv _ (length cs * n)); [exact W|exact D].
        * pose proof (proj1 (proj2 D)) as L. unfold sat_dm in EM. destruct (r_needs (q_theta s)) eqn:N; [|discriminate]. injection EM as <-. cbn [act sat_du] in *.
          revert F2 SM N. clear. intros F2 SM N. rewrite mv_concat. induction F2 as [|c d cs ds Hc F2 IH]; [reflexivity|]. cbn [map concat].
          destruct (SM c (or_introl eq_refl)) as (_ & LU & HM & _). pose proof (proj1 (proj2 Hc)) as Ld.
          rewrite vmul_app by congruence. rewrite !app_length, IH by (intros c' HI; apply SM; right; exact HI). f_equal.
          rewrite vmul_length, mv_length by congruence. destruct (r_dM (q_theta s) (xs 0) (c 0)); [destruct HM as [[HM _] _]|]; congruence.
      + apply (vderiv_mv _ (length cs * n)); [exact W|exact D].
  Qed.
  Lemma data_deriv xs v cs ds rs : vderiv p xs 0 v -> Forall2 (fun c d => vderiv n c 0 d) cs ds -> (forall c, In c cs -> smooth_at p n (q_theta s) (xs 0) (c 0)) ->
    Forall (fun r => is_mat (length (x_P r)) (length cs * n) (x_P r)) rs ->
    vderiv (list_sum (map (fun r => length (x_P r)) rs)) (fun t => concat (map (rx_call s (xs t) (map (fun c => c t) cs)) rs)) 0
      (concat (map (rx_deriv s (xs 0) (map (fun c => c 0) cs) (concat ds) v) rs)).
  Proof.
    intros Dx F2 SM. induction 1 as [|r rs W _ IH]; cbn [map concat].
    - split; [reflexivity|]. split; [reflexivity|]. intros i Hi. cbn in Hi. lia.
    - apply vderiv_app; [apply rx_deriv_ok; assumption|exact IH].
  Qed.
End Branch.
