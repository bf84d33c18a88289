From Verif Require Import Py Vec VecDeriv PropsM PropsFacts ParamFacts SpecMass MassFacts2 Empir SpecEmpir EmpirFacts EmpirFacts2 EmpirFacts3 EmpirFacts4 EmpirFacts5.
From Coq Require Import Lra.
Local Open Scope R_scope.

(** ** All cells *)
Lemma tab_length k g : length (tab k g) = k.
Proof. unfold tab. rewrite map_length, seq_length. reflexivity. Qed.
Lemma tab_nth k g i : (i < k)%nat -> nth i (tab k g) 0 = g i.
Proof. intros H. unfold tab. rewrite (nth_indep _ 0 (g 0%nat)) by (rewrite map_length, seq_length; exact H). rewrite map_nth, seq_nth by exact H. reflexivity. Qed.
Definition zmat (n k : nat) (d : option mat) : Prop := match d with Some M => is_mat k n M | None => True end.
Definition dpar (k : nat) (p : par) (x h : vec) (i : nat) : R := nth i (applied0 k (pd p x) h) 0.
Lemma pd_zmat n k p x : par_ok n k p x -> zmat n k (pd p x).
Proof. destruct p; cbn; auto. intros (_ & _ & H & _). exact H. Qed.
Lemma curve n k p x h i : par_ok n k p x -> length h = n -> (i < k)%nat ->
  derivable_pt_lim (fun t => val k p (vadd x (vscale t h)) i) 0 (dpar k p x h i).
Proof.
  intros OK Lh Hi. unfold val, dpar. destruct p as [c|v|f]; cbn [pv pd applied0].
  - rewrite nth_zero. apply dpl_const.
  - rewrite nth_zero. apply dpl_const.
  - destruct OK as (_ & _ & _ & HJ). apply (proj2 (proj2 (HJ h Lh))). exact Hi.
Qed.
Lemma at_start n (x h : vec) : length x = n -> length h = n -> vadd x (vscale 0 h) = x.
Proof. intros Lx Lh. rewrite vscale_0. rewrite vadd_zero_r; congruence. Qed.
Lemma zmat_part n k p x ddm : par_ok n k p x -> length ddm = k -> zmat n k (part p x ddm).
Proof. intros OK L. unfold part. pose proof (pd_zmat n k p x OK) as H. destruct (pd p x); cbn in *; [apply scale_rows_mat; assumption|exact I]. Qed.
Lemma act_part n k p x ddm h i : par_ok n k p x -> length ddm = k -> length h = n -> (i < k)%nat ->
  nth i (applied0 k (part p x ddm) h) 0 = nth i ddm 0 * dpar k p x h i.
Proof.
  intros OK L Lh Hi. unfold part, dpar. pose proof (pd_zmat n k p x OK) as H. destruct (pd p x) as [D|]; cbn [option_map applied0 zmat] in *.
  - rewrite scale_rows_mv by (destruct H; congruence). apply nth_vmul; rewrite ?mv_length; destruct H; congruence.
  - rewrite !nth_zero. ring.
Qed.
Lemma madd_mat k n A B : is_mat k n A -> is_mat k n B -> is_mat k n (madd A B).
Proof.
  intros [LA FA] [LB FB]. unfold madd. split; [rewrite map_length, combine_length; lia|]. apply Forall_forall. intros r Hr.
  apply in_map_iff in Hr. destruct Hr as ([a b] & <- & Hab). cbn [fst snd]. rewrite Forall_forall in FA, FB.
  rewrite vadd_length; [apply FA; exact (in_combine_l _ _ _ _ Hab)|]. rewrite (FA a), (FB b); [reflexivity|exact (in_combine_r _ _ _ _ Hab)|exact (in_combine_l _ _ _ _ Hab)].
Qed.
Lemma madd_mv k n A B h : is_mat k n A -> is_mat k n B -> length h = n -> mv (madd A B) h = vadd (mv A h) (mv B h).
Proof.
  intros [LA FA] [LB FB] Lh. revert k B LA LB FB. induction A as [|a A IH]; intros k [|b B] LA LB FB; cbn in *; try reflexivity; try lia.
  f_equal; [apply dot_vadd_l; rewrite (Forall_inv FA), (Forall_inv FB); reflexivity|].
  destruct k; [lia|]. apply (IH (Forall_inv_tail FA) k); [lia|lia|exact (Forall_inv_tail FB)].
Qed.
Lemma zmat_zadd n k a b : zmat n k a -> zmat n k b -> zmat n k (zadd a b).
Proof. destruct a, b; cbn; auto. intros; apply madd_mat; assumption. Qed.
Lemma act_zadd n k a b h i : zmat n k a -> zmat n k b -> length h = n ->
  (i < k)%nat -> nth i (applied0 k (zadd a b) h) 0 = nth i (applied0 k a h) 0 + nth i (applied0 k b h) 0.
Proof.
  intros Ha Hb Lh Hi. destruct a as [A|], b as [B|]; cbn [zadd applied0 zmat] in *; rewrite ?nth_zero; try ring.
  rewrite (madd_mv k n A B h) by assumption. apply nth_vadd; rewrite ?mv_length; destruct Ha, Hb; congruence.
Qed.
Lemma zmat_part_pn n k p x u g : par_ok n k p x -> length u = k -> length g = k -> zmat n k (part_pn p x u g).
Proof.
  intros OK Lu Lg. unfold part_pn. pose proof (pd_zmat n k p x OK) as H. destruct (pd p x); cbn in *; [|exact I].
  apply madd_mat; repeat apply scale_rows_mat; rewrite ?map_length; assumption.
Qed.
Lemma act_part_pn n k p x u g h i : par_ok n k p x -> length u = k -> length g = k -> length h = n -> (i < k)%nat ->
  nth i (applied0 k (part_pn p x u g) h) 0 = proj_p (nth i u 0) 1 * dpar k p x h i + proj_n (nth i u 0) 1 * (nth i g 0 * dpar k p x h i).
Proof.
  intros OK Lu Lg Lh Hi. unfold part_pn, dpar. pose proof (pd_zmat n k p x OK) as H. destruct (pd p x) as [D|]; cbn [option_map applied0 zmat] in *.
  - assert (L1 : length (map (fun v => proj_p v 1) u) = k) by (rewrite map_length; exact Lu).
    assert (L2 : length (map (fun v => proj_n v 1) u) = k) by (rewrite map_length; exact Lu). destruct H as [LD FD].
    rewrite (madd_mv k n) by (try assumption; repeat apply scale_rows_mat; try assumption; split; assumption).
    rewrite !scale_rows_mv by (rewrite ?(proj1 (scale_rows_mat k n g D Lg (conj LD FD))); congruence).
    assert (Lm : length (mv D h) = k) by (rewrite mv_length; exact LD).
    rewrite nth_vadd by (rewrite !vmul_length; rewrite ?vmul_length; congruence).
    rewrite !nth_vmul by (rewrite ?vmul_length; congruence).
    rewrite !map_nth_lt by congruence. reflexivity.
  - rewrite !nth_zero. ring.
Qed.
Lemma cells4_length f p1 p2 p3 p4 x u : length (cells4 f p1 p2 p3 p4 x u) = length u.
Proof. apply tab_length. Qed.
Lemma cells4_nth f p1 p2 p3 p4 x u i : (i < length u)%nat -> nth i (cells4 f p1 p2 p3 p4 x u) 0 = f (val (length u) p1 x i) (val (length u) p2 x i) (val (length u) p3 x i) (val (length u) p4 x i) (nth i u 0).
Proof. intros H. unfold cells4. rewrite tab_nth by exact H. reflexivity. Qed.
Lemma cells3_length f p1 p2 p3 x u : length (cells3 f p1 p2 p3 x u) = length u.
Proof. apply tab_length. Qed.
Lemma cells3_nth f p1 p2 p3 x u i : (i < length u)%nat -> nth i (cells3 f p1 p2 p3 x u) 0 = f (val (length u) p1 x i) (val (length u) p2 x i) (val (length u) p3 x i) (nth i u 0).
Proof. intros H. unfold cells3. rewrite tab_nth by exact H. reflexivity. Qed.
Lemma applied0_length n k d h : zmat n k d -> length (applied0 k d h) = k.
Proof. destruct d; cbn; intros H; [rewrite mv_length; apply H|apply vconst_length]. Qed.

Section M4.
  Variables (n : nat) (x u : vec).
  Let k := length u.
  Variables (p1 p2 p3 p4 : par) (f : R -> R -> R -> R -> R -> R) (d : option mat) (c : nat -> vec -> R).
  Hypothesis (Lx : length x = n).
  Hypothesis (O1 : par_ok n k p1 x) (O2 : par_ok n k p2 x) (O3 : par_ok n k p3 x) (O4 : par_ok n k p4 x).
  Hypothesis Hd : zmat n k d.
  Lemma jac4 : (forall i h q1 q2 q3 q4, (i < k)%nat -> length h = n ->
      q1 0 = val k p1 x i -> q2 0 = val k p2 x i -> q3 0 = val k p3 x i -> q4 0 = val k p4 x i ->
      derivable_pt_lim q1 0 (dpar k p1 x h i) -> derivable_pt_lim q2 0 (dpar k p2 x h i) -> derivable_pt_lim q3 0 (dpar k p3 x h i) -> derivable_pt_lim q4 0 (dpar k p4 x h i) ->
      derivable_pt_lim (fun t => f (q1 t) (q2 t) (q3 t) (q4 t) (nth i u 0)) 0 (nth i (applied0 k d h) 0)) ->
    has_jacobian n k (fun x => cells4 f p1 p2 p3 p4 x u) x (applied0 k d).
  Proof.
    intros H h Lh. split; [intros; apply cells4_length|]. split; [apply (applied0_length n); exact Hd|]. intros i Hi.
    apply (dpl_ext (fun t => f (val k p1 (vadd x (vscale t h)) i) (val k p2 (vadd x (vscale t h)) i) (val k p3 (vadd x (vscale t h)) i) (val k p4 (vadd x (vscale t h)) i) (nth i u 0))).
    { intros t. rewrite cells4_nth by exact Hi. reflexivity. }
    apply (H i h (fun t => val k p1 (vadd x (vscale t h)) i) (fun t => val k p2 (vadd x (vscale t h)) i) (fun t => val k p3 (vadd x (vscale t h)) i) (fun t => val k p4 (vadd x (vscale t h)) i));
      try assumption; cbv beta; rewrite ?(at_start n) by assumption; try reflexivity; apply (curve n); assumption.
  Qed.
End M4.
Lemma ht_jac n k P x u : length x = n -> length u = k -> par_ok n k (ht_r P) x -> par_ok n k (ht_s P) x -> par_ok n k (ht_a P) x -> par_ok n k (ht_b P) x ->
  (forall i, (i < k)%nat -> nth i u 0 < 0 -> 0 < val k (ht_a P) x i) ->
  has_jacobian n k (fun x => ht_call P x (floats u)) x (applied0 k (ht_derivM P x (floats u))).
Proof.
  intros Lx <- O1 O2 O3 O4 Ha. unfold ht_call, ht_derivM. cbn [u_val floats].
  assert (Lc : forall f, length (cells4 f (ht_r P) (ht_s P) (ht_a P) (ht_b P) x u) = length u) by (intros; apply cells4_length).
  assert (Z1 : forall f, zmat n (length u) (part (ht_r P) x (cells4 f (ht_r P) (ht_s P) (ht_a P) (ht_b P) x u))) by (intros; apply zmat_part; auto).
  assert (Z2 : forall f, zmat n (length u) (part_pn (ht_s P) x u (cells4 f (ht_r P) (ht_s P) (ht_a P) (ht_b P) x u))) by (intros; apply zmat_part_pn; auto).
  assert (Z3 : forall f, zmat n (length u) (part (ht_a P) x (cells4 f (ht_r P) (ht_s P) (ht_a P) (ht_b P) x u))) by (intros; apply zmat_part; auto).
  assert (Z4 : forall f, zmat n (length u) (part (ht_b P) x (cells4 f (ht_r P) (ht_s P) (ht_a P) (ht_b P) x u))) by (intros; apply zmat_part; auto).
  apply jac4; try assumption; [repeat apply zmat_zadd; auto|].
  intros i h q1 q2 q3 q4 Hi Lh E1 E2 E3 E4 D1 D2 D3 D4.
  rewrite !(act_zadd n) by (try assumption; repeat apply zmat_zadd; auto).
  rewrite !(act_part n), (act_part_pn n) by auto. rewrite !cells4_nth by exact Hi. rewrite <- E1, <- E2, <- E3, <- E4.
  apply ht_cell_M; try assumption. rewrite E3. apply Ha; exact Hi.
Qed.
Lemma vt_jac n k P x u : length x = n -> length u = k -> par_ok n k (vt_r P) x -> par_ok n k (vt_s P) x -> par_ok n k (vt_a P) x -> par_ok n k (vt_n P) x ->
  (forall i, (i < k)%nat -> nth i u 0 < 0 -> 0 < val k (vt_a P) x i /\ val k (vt_n P) x i <> 0) ->
  has_jacobian n k (fun x => vt_call P x (floats u)) x (applied0 k (vt_derivM P x (floats u))).
Proof.
  intros Lx <- O1 O2 O3 O4 Ha. unfold vt_call, vt_derivM. cbn [u_val floats].
  assert (Lc : forall f, length (cells4 f (vt_r P) (vt_s P) (vt_a P) (vt_n P) x u) = length u) by (intros; apply cells4_length).
  assert (Z1 : forall f, zmat n (length u) (part (vt_r P) x (cells4 f (vt_r P) (vt_s P) (vt_a P) (vt_n P) x u))) by (intros; apply zmat_part; auto).
  assert (Z2 : forall f, zmat n (length u) (part_pn (vt_s P) x u (cells4 f (vt_r P) (vt_s P) (vt_a P) (vt_n P) x u))) by (intros; apply zmat_part_pn; auto).
  assert (Z3 : forall f, zmat n (length u) (part (vt_a P) x (cells4 f (vt_r P) (vt_s P) (vt_a P) (vt_n P) x u))) by (intros; apply zmat_part; auto).
  assert (Z4 : forall f, zmat n (length u) (part (vt_n P) x (cells4 f (vt_r P) (vt_s P) (vt_a P) (vt_n P) x u))) by (intros; apply zmat_part; auto).
  apply jac4; try assumption; [repeat apply zmat_zadd; auto|].
  intros i h q1 q2 q3 q4 Hi Lh E1 E2 E3 E4 D1 D2 D3 D4.
  rewrite !(act_zadd n) by (try assumption; repeat apply zmat_zadd; auto).
  rewrite !(act_part n), (act_part_pn n) by auto. rewrite !cells4_nth by exact Hi. rewrite <- E1, <- E2, <- E3, <- E4.
  apply vt_cell_M; try assumption. rewrite E3, E4. apply Ha; exact Hi.
Qed.
Lemma vk_jac n k P x u : length x = n -> length u = k -> par_ok n k (vk_k P) x -> par_ok n k (vk_a P) x -> par_ok n k (vk_i P) x -> par_ok n k (vk_n P) x ->
  (forall i, (i < k)%nat -> nth i u 0 < 0 -> 0 < val k (vk_a P) x i /\ 1 < val k (vk_n P) x i) ->
  has_jacobian n k (fun x => vk_call P x (floats u)) x (applied0 k (vk_derivM P x (floats u))).
Proof.
  intros Lx <- O1 O2 O3 O4 Ha. unfold vk_call, vk_derivM. cbn [u_val floats].
  assert (Lc : forall f, length (cells4 f (vk_k P) (vk_a P) (vk_i P) (vk_n P) x u) = length u) by (intros; apply cells4_length).
  assert (Z1 : forall f, zmat n (length u) (part_pn (vk_k P) x u (cells4 f (vk_k P) (vk_a P) (vk_i P) (vk_n P) x u))) by (intros; apply zmat_part_pn; auto).
  assert (Z2 : forall f, zmat n (length u) (part (vk_a P) x (cells4 f (vk_k P) (vk_a P) (vk_i P) (vk_n P) x u))) by (intros; apply zmat_part; auto).
  assert (Z3 : forall f, zmat n (length u) (part (vk_i P) x (cells4 f (vk_k P) (vk_a P) (vk_i P) (vk_n P) x u))) by (intros; apply zmat_part; auto).
  assert (Z4 : forall f, zmat n (length u) (part (vk_n P) x (cells4 f (vk_k P) (vk_a P) (vk_i P) (vk_n P) x u))) by (intros; apply zmat_part; auto).
  apply jac4; try assumption; [repeat apply zmat_zadd; auto|].
  intros i h q1 q2 q3 q4 Hi Lh E1 E2 E3 E4 D1 D2 D3 D4.
  rewrite !(act_zadd n) by (try assumption; repeat apply zmat_zadd; auto).
  rewrite !(act_part n), (act_part_pn n) by auto. rewrite !cells4_nth by exact Hi. rewrite <- E1, <- E2, <- E3, <- E4.
  apply vk_cell_M; try assumption; [reflexivity|]. rewrite E2, E4. apply Ha; exact Hi.
Qed.
Lemma hk_jac n k P x u : length x = n -> length u = k -> par_ok n k (hk_k P) x -> par_ok n k (hk_a P) x -> par_ok n k (hk_g P) x ->
  (forall i, (i < k)%nat -> nth i u 0 < 0 -> 0 < val k (hk_a P) x i) ->
  has_jacobian n k (fun x => hk_call P x (floats u)) x (applied0 k (hk_derivM P x (floats u))).
Proof.
  intros Lx <- O1 O2 O3 Ha. unfold hk_call, hk_derivM. cbn [u_val floats].
  assert (Lc : forall f, length (cells3 f (hk_k P) (hk_a P) (hk_g P) x u) = length u) by (intros; apply cells3_length).
  assert (Z1 : forall f, zmat n (length u) (part_pn (hk_k P) x u (cells3 f (hk_k P) (hk_a P) (hk_g P) x u))) by (intros; apply zmat_part_pn; auto).
  assert (Z2 : forall f, zmat n (length u) (part (hk_a P) x (cells3 f (hk_k P) (hk_a P) (hk_g P) x u))) by (intros; apply zmat_part; auto).
  assert (Z3 : forall f, zmat n (length u) (part (hk_g P) x (cells3 f (hk_k P) (hk_a P) (hk_g P) x u))) by (intros; apply zmat_part; auto).
  intros h Lh. split; [intros; apply cells3_length|]. split; [apply (applied0_length n); repeat apply zmat_zadd; auto|]. intros i Hi.
  apply (dpl_ext (fun t => hk_cell (floats u) (val (length u) (hk_k P) (vadd x (vscale t h)) i) (val (length u) (hk_a P) (vadd x (vscale t h)) i) (val (length u) (hk_g P) (vadd x (vscale t h)) i) (nth i u 0))).
  { intros t. rewrite cells3_nth by exact Hi. reflexivity. }
  rewrite !(act_zadd n) by (try assumption; repeat apply zmat_zadd; auto).
  rewrite !(act_part n), (act_part_pn n) by auto. rewrite !cells3_nth by exact Hi.
  assert (E : forall p, val (length u) p x i = val (length u) p (vadd x (vscale 0 h)) i) by (intros; rewrite (at_start n) by assumption; reflexivity).
  rewrite (E (hk_k P)), (E (hk_a P)), (E (hk_g P)).
  apply (hk_cell_M (floats u) (fun t => val (length u) (hk_k P) (vadd x (vscale t h)) i) (fun t => val (length u) (hk_a P) (vadd x (vscale t h)) i) (fun t => val (length u) (hk_g P) (vadd x (vscale t h)) i)); try (apply (curve n); assumption); [reflexivity|].
  rewrite <- E. apply Ha; exact Hi.
Qed.
(** ** With respect to the head *)
Lemma diag_jac k (F : vec -> vec) (f : nat -> R -> R) (g : vec) u : length u = k -> length g = k ->
  (forall v, length v = k -> length (F v) = k /\ forall i, (i < k)%nat -> nth i (F v) 0 = f i (nth i v 0)) ->
  (forall i, (i < k)%nat -> derivable_pt_lim (f i) (nth i u 0) (nth i g 0)) -> has_jacobian k k F u (vmul g).
Proof.
  intros Lu Lg HF HD h Lh. assert (L : forall t, length (vadd u (vscale t h)) = k) by (intros; rewrite vadd_length; rewrite ?vscale_length; congruence).
  split; [intros t; apply HF; apply L|]. split; [rewrite vmul_length; congruence|]. intros i Hi.
  apply (dpl_ext (fun t => f i (nth i u 0 + t * nth i h 0))).
  { intros t. rewrite (proj2 (HF _ (L t)) i Hi). rewrite nth_vadd, nth_vscale by (rewrite ?vscale_length; congruence). reflexivity. }
  rewrite nth_vmul by congruence. apply (dpl_comp (fun t => nth i u 0 + t * nth i h 0) (f i)).
  - eapply dpl_eq; [|apply (dpl_plus (fun _ => nth i u 0) (fun t => t * nth i h 0)); [apply dpl_const|apply (dpl_mult (fun t => t) (fun _ => nth i h 0)); [apply dpl_id|apply dpl_const]]]. ring.
  - replace (nth i u 0 + 0 * nth i h 0) with (nth i u 0) by ring. apply HD; exact Hi.
Qed.
Lemma ht_jacU k P x u : length u = k -> (forall i, (i < k)%nat -> 0 < val k (ht_a P) x i /\ (nth i u 0 = 0 -> 1 < val k (ht_b P) x i)) ->
  has_jacobian k k (fun u => ht_call P x (floats u)) u (vmul (ht_derivU P x (floats u))).
Proof.
  intros Lu H. apply (diag_jac k _ (fun i => ht_cell (val k (ht_r P) x i) (val k (ht_s P) x i) (val k (ht_a P) x i) (val k (ht_b P) x i))); [exact Lu|unfold ht_derivU; rewrite cells4_length; exact Lu| |].
  - intros v Lv. unfold ht_call. cbn [u_val floats]. split; [rewrite cells4_length; exact Lv|]. intros i Hi. rewrite cells4_nth by congruence. rewrite Lv. reflexivity.
  - intros i Hi. unfold ht_derivU. cbn [u_val floats]. rewrite cells4_nth by congruence. rewrite Lu. apply ht_cell_u; apply H; exact Hi.
Qed.
Lemma vt_jacU k P x u : length u = k -> (forall i, (i < k)%nat -> 0 < val k (vt_a P) x i /\ val k (vt_n P) x i <> 0 /\ (nth i u 0 = 0 -> 1 < val k (vt_n P) x i)) ->
  has_jacobian k k (fun u => vt_call P x (floats u)) u (vmul (vt_derivU P x (floats u))).
Proof.
  intros Lu H. apply (diag_jac k _ (fun i => vt_cell (val k (vt_r P) x i) (val k (vt_s P) x i) (val k (vt_a P) x i) (val k (vt_n P) x i))); [exact Lu|unfold vt_derivU; rewrite cells4_length; exact Lu| |].
  - intros v Lv. unfold vt_call. cbn [u_val floats]. split; [rewrite cells4_length; exact Lv|]. intros i Hi. rewrite cells4_nth by congruence. rewrite Lv. reflexivity.
  - intros i Hi. unfold vt_derivU. cbn [u_val floats]. rewrite cells4_nth by congruence. rewrite Lu. apply vt_cell_u; apply H; exact Hi.
Qed.
Lemma vk_jacU k P x u : length u = k ->
  (forall i, (i < k)%nat -> 0 < val k (vk_a P) x i /\ 1 < val k (vk_n P) x i /\ (nth i u 0 = 0 -> 2 < val k (vk_n P) x i /\ 0 <= val k (vk_i P) x i)) ->
  has_jacobian k k (fun u => vk_call P x (floats u)) u (vmul (vk_derivU P x (floats u))).
Proof.
  intros Lu H. apply (diag_jac k _ (fun i => vk_cell (floats []) (val k (vk_k P) x i) (val k (vk_a P) x i) (val k (vk_i P) x i) (val k (vk_n P) x i))); [exact Lu|unfold vk_derivU; rewrite cells4_length; exact Lu| |].
  - intros v Lv. unfold vk_call. cbn [u_val floats]. split; [rewrite cells4_length; exact Lv|]. intros i Hi. rewrite cells4_nth by congruence. rewrite Lv. reflexivity.
  - intros i Hi. unfold vk_derivU. cbn [u_val floats]. rewrite cells4_nth by congruence. rewrite Lu. apply vk_cell_u; try apply H; try exact Hi. reflexivity.
Qed.
Lemma hk_jacU k P x u : length u = k -> (forall i, (i < k)%nat -> 0 < val k (hk_a P) x i /\ (nth i u 0 = 0 -> 1 < val k (hk_g P) x i)) ->
  has_jacobian k k (fun u => hk_call P x (floats u)) u (vmul (hk_derivU P x (floats u))).
Proof.
  intros Lu H. apply (diag_jac k _ (fun i => hk_cell (floats []) (val k (hk_k P) x i) (val k (hk_a P) x i) (val k (hk_g P) x i))); [exact Lu|unfold hk_derivU; rewrite cells3_length; exact Lu| |].
  - intros v Lv. unfold hk_call. cbn [u_val floats]. split; [rewrite cells3_length; exact Lv|]. intros i Hi. rewrite cells3_nth by congruence. rewrite Lv. reflexivity.
  - intros i Hi. unfold hk_derivU. cbn [u_val floats]. rewrite cells3_nth by congruence. rewrite Lu. apply hk_cell_u; try apply H; try exact Hi. reflexivity.
Qed.
