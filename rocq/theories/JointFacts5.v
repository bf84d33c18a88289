From Verif Require Import Vec VecDeriv Joint SpecJoint JointFacts JointFacts2 ProbeFacts.
Local Open Scope R_scope.

(** ** Full gradient *)
Section FG.
  Context (n nc nf : nat) (F : vec -> vec) (J Jt : vec -> vec -> vec) (G Mf : mat) (mref : option vec).
  Context (HG : is_mat nf nc G) (HM : is_mat nf nf Mf).
  Context (SYM : symmetric_action nf (mv Mf)).
  Context (LF : forall m, length m = n -> length (F m) = nc).
  Context (LJt : forall m w, length m = n -> length w = nc -> length (Jt m w) = n).
  Context (ADJ : forall m v w, length m = n -> length v = n -> length w = nc -> dot w (J m v) = dot (Jt m w) v).
  Context (DER : forall m, length m = n -> has_jacobian n nc F m (J m)).
  Context (LR : match mref with Some r => length r = n | None => True end).

  Lemma fg_res_deriv m h : length m = n -> length h = n -> vderiv nf (fun t => fg_residual F G mref (vadd m (vscale t h))) 0 (mv G (J m h)).
  Proof.
    intros Lm Lh. unfold fg_residual. destruct mref as [r|].
    - apply (vderiv_mv nf nc G (fun t => vsub (F (vadd m (vscale t h))) (F r)) 0 (J m h) HG).
      pose proof (DER m Lm h Lh) as D. eapply vderiv_eq; [|apply vderiv_sub; [exact D|apply vderiv_const; apply LF; exact LR]].
      rewrite vsub_as_add, vscale_vzero. apply vadd_zero_r. apply (proj1 (proj2 D)).
    - apply (vderiv_mv nf nc G (fun t => F (vadd m (vscale t h))) 0 (J m h) HG). apply DER; assumption.
  Qed.
  Lemma fg_res_len m : length (fg_residual F G mref m) = nf.
  Proof. unfold fg_residual. rewrite mv_length. apply (proj1 HG). Qed.
  Lemma Mlen v : length (mv Mf v) = nf.
  Proof. rewrite mv_length. apply (proj1 HM). Qed.
  Lemma Glen v : length (mv G v) = nf.
  Proof. rewrite mv_length. apply (proj1 HG). Qed.
  Lemma Gtlen v : length (mtv nc G v) = nc.
  Proof. apply (mtv_length nf nc G v HG). Qed.
  Lemma Jlen m v : length m = n -> length v = n -> length (J m v) = nc.
  Proof. intros Lm Lv. apply (proj1 (proj2 (DER m Lm v Lv))). Qed.

  Lemma fg_gradient m : length m = n -> has_gradient n (fg_value F G Mf mref) m (fg_deriv F Jt nc G Mf mref m).
  Proof.
    intros Lm. split; [unfold fg_deriv; rewrite vscale_length; apply LJt; [assumption|apply Gtlen]|].
    intros h Lh. unfold fg_value. pose proof (fg_res_deriv m h Lm Lh) as V.
    eapply dpl_eq; [|apply (deriv_dot nf _ _ 0 _ _ V (vderiv_mv nf nf Mf _ 0 _ HM V))].
    cbv beta. rewrite line0 by congruence. set (r := fg_residual F G mref m). assert (Lr : length r = nf) by apply fg_res_len.
    unfold fg_deriv. fold r. rewrite dot_vscale_l, <- ADJ by (assumption || apply Gtlen).
    rewrite (adjG nc nf G HG) by (apply Mlen || (apply Jlen; assumption)).
    rewrite (SYM r) by (assumption || apply Glen). rewrite (dot_comm (mv G (J m h))). ring.
  Qed.
  Lemma fg_sym m : length m = n -> symmetric_action n (fg_deriv2 J Jt nc G Mf m).
  Proof.
    intros Lm u v Lu Lv. unfold fg_deriv2. rewrite (dot_comm u), !dot_vscale_l. rewrite <- !ADJ by (assumption || apply Gtlen).
    rewrite !(adjG nc nf G HG) by (apply Mlen || (apply Jlen; assumption)). rewrite <- SYM by apply Glen. rewrite (dot_comm (mv G (J m v))). reflexivity.
  Qed.
  Lemma fg_psd m : length m = n -> psd_action nf (mv Mf) -> psd_action n (fg_deriv2 J Jt nc G Mf m).
  Proof.
    intros Lm P v Lv. unfold fg_deriv2. rewrite (dot_comm v), dot_vscale_l, <- ADJ by (assumption || apply Gtlen).
    rewrite (adjG nc nf G HG) by (apply Mlen || (apply Jlen; assumption)). specialize (P (mv G (J m v)) (Glen _)). rewrite dot_comm. lra.
  Qed.
  (** With a mapping whose derivative does not depend on the model the Hessian is exact. *)
  Context (JM : mat) (HJM : is_mat nc n JM) (JC : forall m v, length m = n -> J m v = mv JM v) (JtC : forall m w, length m = n -> Jt m w = mtv n JM w).
  Lemma fg_hessian m : length m = n -> has_jacobian n n (fg_deriv F Jt nc G Mf mref) m (fg_deriv2 J Jt nc G Mf m).
  Proof.
    intros Lm h Lh. pose proof (fg_res_deriv m h Lm Lh) as V. unfold fg_deriv, fg_deriv2. rewrite JtC by assumption.
    apply vderiv_ext with (fun t => vscale 2 (mtv n JM (mtv nc G (mv Mf (fg_residual F G mref (vadd m (vscale t h))))))).
    { intros t. rewrite JtC; [reflexivity|]. rewrite vadd_length; rewrite ?vscale_length; congruence. }
    apply vderiv_scale. apply (vderiv_mtv nc n JM (fun t => mtv nc G (mv Mf (fg_residual F G mref (vadd m (vscale t h))))) 0 _ HJM).
    apply (vderiv_mtv nf nc G (fun t => mv Mf (fg_residual F G mref (vadd m (vscale t h)))) 0 _ HG).
    apply (vderiv_mv nf nf Mf (fun t => fg_residual F G mref (vadd m (vscale t h))) 0 _ HM). exact V.
  Qed.
End FG.

Lemma fg_W_action inner nc nf ws W : fg_W inner nc nf ws = Ok W ->
  exists cw s, length s = nf /\ is_true true /\ (forall v, act false W v = vmul s (mv (inner cw) (vmul s v))) /\ (forall x, In x s -> 0 <= x).
Proof.
  unfold fg_W. destruct (split_weights nc nf ws (vconst nc 1) (vconst nf 1)) as [[cw fw]|] eqn:E; cbn [bind]; [|discriminate].
  intros [= <-]. exists cw, (map sqrt fw). split; [|split; [reflexivity|split; [intros v; reflexivity|]]].
  - rewrite map_length. revert E. assert (L : length (vconst nf 1) = nf) by apply vconst_length. revert L. generalize (vconst nf 1) (vconst nc 1). induction ws as [|w ws IH]; cbn; intros f c L E; [injection E as _ <-; exact L|].
    destruct (Nat.eqb (length w) nc); [apply (IH f (vmul c w)); assumption|]. destruct (Nat.eqb_spec (length w) nf) as [Q|Q]; [|discriminate].
    apply (IH (vmul f w) c); [rewrite vmul_length; congruence|assumption].
  - intros x Hx. cbn [snd] in Hx. apply in_map_iff in Hx. destruct Hx as (y & <- & _). apply sqrt_pos.
Qed.
Lemma fg_W_good inner nc nf ws W : (forall cw, is_mat nf nf (inner cw) /\ symmetric_action nf (mv (inner cw)) /\ psd_action nf (mv (inner cw))) -> fg_W inner nc nf ws = Ok W ->
  symmetric_action nf (act false W) /\ psd_action nf (act false W).
Proof.
  intros H E. destruct (fg_W_action _ _ _ _ _ E) as (cw & s & Ls & _ & A & _). destruct (H cw) as (HM & S & P). split.
  - intros u v Lu Lv. rewrite !A. rewrite (vmul_comm s (mv _ _)), (dot_comm u), dot_vmul_l.
    rewrite (dot_comm (mv (inner cw) (vmul s v))). rewrite S by (rewrite vmul_length; congruence). rewrite (vmul_comm s (mv _ _)), dot_vmul_l. reflexivity.
  - intros v Lv. rewrite A. rewrite (dot_comm v), (vmul_comm s (mv _ _)), dot_vmul_l, dot_comm. apply P. rewrite vmul_length; congruence.
Qed.

(** ** Rotated weights *)
Lemma rotate_action dim D a x : is_mat dim dim D -> length a = dim -> length x = dim ->
  mv (rotate D a) x = mv D (vmul a (mtv dim D x)).
Proof.
  intros HD La Lx. unfold rotate, mv at 1 2. rewrite map_map. apply map_ext_in. intros r Hr.
  assert (Lr : length r = dim) by (apply (proj1 (Forall_forall _ _) (proj2 HD)); assumption).
  rewrite <- dot_vmul_l. rewrite (dot_comm (vmul r a)). 
  change (dot (map (fun rj => dot (vmul r a) rj) D) x = dot (mtv dim D x) (vmul r a)).
  rewrite (adjG dim dim D HD) by (assumption || (rewrite vmul_length; congruence)). rewrite (dot_comm x). f_equal. unfold mv. apply map_ext. intros y. apply dot_comm.
Qed.
Lemma rotate_energy dim D a x : is_mat dim dim D -> length a = dim -> length x = dim ->
  dot x (mv (rotate D a) x) = directional_energy dim D a x.
Proof.
  intros HD La Lx. rewrite (rotate_action dim) by assumption. rewrite <- (adjG dim dim D HD) by (first [assumption | rewrite vmul_length; rewrite ?(mtv_length dim dim D x HD); congruence]).
  pose proof (mtv_length dim dim D x HD) as Ly. set (y := mtv dim D x) in *.
  rewrite (dot_as_sum dim) by (first [assumption | rewrite vmul_length; congruence]). unfold directional_energy. apply vsum_ext. intros j Hj. apply in_seq in Hj.
  rewrite nth_vmul by lia. unfold y. rewrite (nth_mtv dim dim D HD) by (assumption || lia). fold (column D j). ring.
Qed.
Lemma rotate_sym dim D a : is_mat dim dim D -> length a = dim -> symmetric_action dim (mv (rotate D a)).
Proof.
  intros HD La u v Lu Lv. rewrite !(rotate_action dim) by assumption.
  rewrite <- (adjG dim dim D HD) by (first [assumption | rewrite vmul_length; rewrite ?(mtv_length dim dim D _ HD); congruence]).
  rewrite (dot_comm (mv D _)), <- (adjG dim dim D HD) by (first [assumption | rewrite vmul_length; rewrite ?(mtv_length dim dim D _ HD); congruence]).
  rewrite (vmul_comm a (mtv dim D u)), (dot_comm (mtv dim D v)), dot_vmul_l. reflexivity.
Qed.
Lemma energy_nonneg dim D a x : nonneg_vec a -> 0 <= directional_energy dim D a x.
Proof.
  intros Ha. unfold directional_energy. induction (seq 0 dim) as [|j l IH]; cbn; [lra|]. pose proof (nonneg_nth a j Ha). assert (0 <= dot (column D j) x * dot (column D j) x) by nra. nra.
Qed.

(** Directions for the active cells only are always refused while the check is on. *)
Lemma close_1_0 : close 1 0 = false.
Proof. unfold close. destruct (Rle_dec (Rabs (1 - 0)) (1e-8 + 1e-5 * Rabs 0)) as [H|]; [|reflexivity]. exfalso. rewrite Rabs_R0 in H. replace (1 - 0) with 1 in H by ring. rewrite Rabs_R1 in H. lra. Qed.
Lemma zero_not_orthonormal dim : (0 < dim)%nat -> orthonormal_check (repeat (vzero dim) dim) = false.
Proof.
  intros Hd. destruct dim; [lia|]. unfold orthonormal_check, gram. cbn [repeat map close_eye close_row]. rewrite dot_zero_l. cbn [Nat.eqb]. rewrite close_1_0. reflexivity.
Qed.
Lemma fill_rows_zero {A} (zero : A) act rows : In false act -> In zero (fill_rows zero act rows).
Proof. revert rows; induction act as [|b act IH]; intros rows H; [destruct H|]. cbn. destruct b; [|left; reflexivity]. destruct H as [H|H]; [discriminate|]. destruct rows; right; apply IH; assumption. Qed.
Lemma expand_fill {A} (zero : A) active ncells rows act : active = Some act -> length rows <> ncells -> length rows = length (filter (fun b => b) act) ->
  expand_rows zero active ncells rows = Ok (fill_rows zero act rows).
Proof. intros -> H1 H2. unfold expand_rows. destruct (Nat.eqb_spec (length rows) ncells); [contradiction|]. rewrite H2, Nat.eqb_refl. reflexivity. Qed.
Lemma filter_full (l : list bool) : ~ In false l -> length (filter (fun b => b) l) = length l.
Proof. induction l as [|b l IH]; intros H; [reflexivity|]. destruct b; cbn; [f_equal; apply IH; intros Q; apply H; right; assumption|exfalso; apply H; left; reflexivity]. Qed.
Lemma active_dirs_refused dim ncells act alphas dirs : (0 < dim)%nat -> length act = ncells ->
  length dirs = length (filter (fun b => b) act) -> length dirs <> ncells ->
  fg_dirs dim ncells (Some act) true alphas dirs = Err ValueError.
Proof.
  intros Hd La Ld Hne. unfold fg_dirs. rewrite (expand_fill _ _ _ _ act eq_refl Hne Ld). cbn [bind].
  replace (forallb orthonormal_check (fill_rows (repeat (vzero dim) dim) act dirs)) with false; [reflexivity|]. symmetry.
  destruct (in_dec Bool.bool_dec false act) as [I|N]; [|exfalso; apply Hne; rewrite Ld, filter_full by assumption; assumption].
  pose proof (fill_rows_zero (repeat (vzero dim) dim) act dirs I) as Q. destruct (forallb _ _) eqn:E; [|reflexivity].
  rewrite forallb_forall in E. specialize (E _ Q). rewrite zero_not_orthonormal in E by assumption. discriminate.
Qed.
Lemma full_dirs_accepted dim ncells active alphas dirs : length dirs = ncells -> forallb orthonormal_check dirs = true ->
  fg_dirs dim ncells active true alphas dirs = Ok (zip2 rotate dirs alphas).
Proof. intros L H. unfold fg_dirs, expand_rows. rewrite L, Nat.eqb_refl. cbn [bind]. rewrite H. reflexivity. Qed.

(** ** Normalised cross gradient *)
Lemma norm2_sq g : norm2 g * norm2 g = dot g g.
Proof. apply sqrt_sqrt, dot_self_nonneg. Qed.
Lemma norm2_pos g : 0 <= norm2 g.
Proof. apply sqrt_pos. Qed.
Lemma maxl_ge : forall l a, a <= maxl a l.
Proof. induction l as [|x l IH]; intros a; cbn; [lra|]. eapply Rle_trans; [apply Rmax_l|apply IH]. Qed.
Lemma maxl_nonneg x l : 0 <= x -> 0 <= maxl x l.
Proof. intros H. pose proof (maxl_ge l x). lra. Qed.
Lemma normalise_spec rtol gs hs : 0 <= rtol -> normalise rtol gs = Ok hs ->
  length hs = length gs /\ Forall2 (fun g h => length h = length g /\ (norm2 h = 1 \/ norm2 h = 0)) gs hs.
Proof.
  intros Hr. unfold normalise. destruct (map norm2 gs) as [|x l] eqn:E; [discriminate|]. intros [= <-]. split; [apply map_length|].
  assert (Hm : 0 <= maxl x l * rtol). { apply Rmult_le_pos; [|assumption]. apply maxl_nonneg. destruct gs; [discriminate|]. injection E; intros _ <-. apply norm2_pos. }
  clear E. induction gs as [|g gs IH]; cbn; constructor; [|exact IH].
  destruct (Rle_dec (norm2 g) (maxl x l * rtol)) as [H|H].
  - split; [apply vscale_length|]. right. unfold norm2. rewrite dot_vscale_l, dot_vscale_r. replace (0 * (0 * dot g g)) with 0 by ring. apply sqrt_0.
  - split; [apply vscale_length|]. left. assert (P : 0 < norm2 g) by lra. unfold norm2 at 1. rewrite dot_vscale_l, dot_vscale_r, <- norm2_sq.
    replace (/ norm2 g * (/ norm2 g * (norm2 g * norm2 g))) with 1 by (field; lra). apply sqrt_1.
Qed.
Lemma cross_bound a b : Rabs (cross_of a b) <= norm2 a * norm2 b.
Proof.
  pose proof (norm2_pos a). pose proof (norm2_pos b).
  assert (Z : Rabs 0 <= norm2 a * norm2 b) by (rewrite Rabs_R0; nra).
  assert (K : forall c, c * c <= (norm2 a * norm2 b) * (norm2 a * norm2 b) -> Rabs c <= norm2 a * norm2 b).
  { intros c Hc. apply Rsqr_le_abs_0 in Hc. rewrite (Rabs_pos_eq (norm2 a * norm2 b)) in Hc by nra. exact Hc. }
  assert (N : (norm2 a * norm2 b) * (norm2 a * norm2 b) = dot a a * dot b b) by (rewrite <- !norm2_sq; ring).
  destruct a as [|x1 [|y1 [|z1 [|w1 a]]]]; destruct b as [|x2 [|y2 [|z2 [|w2 b]]]]; try exact Z; apply K; rewrite N; unfold cross_of.
  - cbn [dot]. enough (0 <= (x1 * x2 + y1 * y2) * (x1 * x2 + y1 * y2)) by lra. apply Rle_0_sqr.
  - rewrite norm2_sq. cbn [dot].
    enough (0 <= (x1 * x2 + y1 * y2 + z1 * z2) * (x1 * x2 + y1 * y2 + z1 * z2)) by lra. apply Rle_0_sqr.
Qed.
Lemma cross_list_bound a b : Forall (fun g => norm2 g <= 1) a -> Forall (fun g => norm2 g <= 1) b -> Forall (fun c => Rabs c <= 1) (cross_list a b).
Proof.
  intros Ha; revert b; induction Ha as [|x a Hx Ha IH]; intros b Hb; [constructor|]. destruct Hb as [|y b Hy Hb]; [constructor|]. cbn. constructor; [|apply IH; assumption].
  eapply Rle_trans; [apply cross_bound|]. pose proof (norm2_pos x). pose proof (norm2_pos y). nra.
Qed.
Lemma normalised_bound rtol g1 g2 c : 0 <= rtol -> cross_gradient true rtol g1 g2 = Ok c -> Forall (fun x => Rabs x <= 1) c.
Proof.
  intros Hr. unfold cross_gradient. destruct (normalise rtol g1) as [h1|] eqn:E1; cbn [bind]; [|discriminate]. destruct (normalise rtol g2) as [h2|] eqn:E2; cbn [bind]; [|discriminate]. intros [= <-].
  assert (W : forall gs hs, normalise rtol gs = Ok hs -> Forall (fun g => norm2 g <= 1) hs).
  { intros gs hs E. destruct (normalise_spec rtol gs hs Hr E) as [_ F]. clear - F. induction F as [|g h gs hs [_ [Q|Q]] F IH]; constructor; auto; lra. }
  apply cross_list_bound; eapply W; eassumption.
Qed.
Lemma cross_parallel c a : cross_of a (vscale c a) = 0.
Proof.
  destruct a as [|x [|y [|z [|w a]]]]; try reflexivity; cbn [vscale map cross_of]; [ring|].
  unfold norm2. cbn [dot]. match goal with |- sqrt ?e = 0 => replace e with 0 by ring end. apply sqrt_0.
Qed.

(** ** Weights of the joint total variation *)
Lemma jtv_W_good nc nf weights ave W : weights <> [] -> Forall (fun w => length w = nc) weights -> is_mat nc nf ave -> nonneg_mat ave ->
  jtv_W weights ave = Ok W -> is_mat nc nf W /\ nonneg_mat W.
Proof.
  intros Hn HF HA NA. unfold jtv_W. destruct weights as [|w ws]; [contradiction|]. intros [= <-].
  assert (L : length (fold_left vmul ws w) = nc).
  { pose proof (Forall_inv HF) as L0. pose proof (Forall_inv_tail HF) as F. cbv beta in L0. clear - L0 F. revert w L0. induction F as [|x ws Hx F IH]; intros w L0; cbn; [assumption|]. apply IH. rewrite vmul_length; congruence. }
  split.
  - apply scale_rows_mat; [rewrite vmul_length; congruence|assumption].
  - apply scale_rows_nonneg; [apply sq_nonneg|assumption].
Qed.
Lemma jtv_W_ok weights ave : weights <> [] -> exists W, jtv_W weights ave = Ok W.
Proof. destruct weights; [contradiction|]. intros _. eexists; reflexivity. Qed.

(** ** Example data *)
Lemma ex_joint_ok : is_mat 2 3 ex_G /\ is_mat 3 2 ex_ave /\ nonneg_mat ex_ave /\ kills_constants 3 ex_G /\
  is_mat 3 2 (cg_av ex_vol ex_ave) /\ nonneg_mat (cg_av ex_vol ex_ave) /\ cg_value 3 ex_G (cg_av ex_vol ex_ave) ex_m = 1.
Proof.
  assert (A : is_mat 3 2 ex_ave) by (split; [reflexivity|repeat constructor]).
  assert (N : nonneg_mat ex_ave) by (repeat constructor; lra).
  split; [split; [reflexivity|repeat constructor]|]. split; [exact A|]. split; [exact N|].
  split. { repeat constructor; intros c; cbn; lra. }
  split. { apply scale_rows_mat; [reflexivity|exact A]. }
  split. { apply scale_rows_nonneg; [apply sqrt_nonneg|exact N]. }
  unfold cg_av, ex_vol. cbn [map]. rewrite sqrt_1. unfold cg_value, ex_m, ex_G, ex_ave, vmul, vsub. cbn. lra.
Qed.
Lemma ex_dir_ok : is_mat 2 2 ex_dir /\ orthonormal_check ex_dir = true /\ rotate ex_dir [4; 1] = [[1; 0]; [0; 4]] /\
  fg_dirs 2 2 (Some [true; false]) true [[4; 1]; [0; 0]] [ex_dir] = Err ValueError.
Proof.
  assert (C1 : forall x y, x = 0 -> y = 0 -> close x y = true).
  { intros x y -> ->. unfold close. destruct (Rle_dec (Rabs (0 - 0)) (1e-8 + 1e-5 * Rabs 0)) as [|H]; [reflexivity|]. exfalso. apply H. rewrite Rminus_0_r, Rabs_R0. lra. }
  assert (C2 : forall x y, x = 1 -> y = 1 -> close x y = true).
  { intros x y -> ->. unfold close. destruct (Rle_dec (Rabs (1 - 1)) (1e-8 + 1e-5 * Rabs 1)) as [|H]; [reflexivity|]. exfalso. apply H. rewrite Rminus_diag_eq by reflexivity. rewrite Rabs_R0, Rabs_R1. lra. }
  split; [split; [reflexivity|repeat constructor]|]. split.
  { unfold orthonormal_check, gram, ex_dir. cbn [map dot close_eye close_row Nat.eqb]. repeat match goal with |- context [close ?a ?b] => first [rewrite (C2 a b) by lra | rewrite (C1 a b) by lra] end. reflexivity. }
  split.
  { unfold rotate, ex_dir, vmul. cbn. repeat f_equal; lra. }
  apply (active_dirs_refused 2 2 [true; false]); cbn; lia.
Qed.
From Verif Require Import JointFacts4.
Lemma cg_sign n nf nc G vol ave m dim Av : is_mat nf n G -> is_mat nc nf ave -> length vol = nc ->
  nonneg_mat ave -> cg_init dim vol ave = Ok Av -> length m = (2 * n)%nat ->
  0 <= cg_value n G Av m /\
  psd_action (2 * n) (cg_deriv2v true n nf G Av m) /\
  (kills_constants n G -> forall a b m1, length m1 = n -> cg_value n G Av (m1 ++ affine_copy a b m1) = 0) /\
  (forall m1 m2, length m1 = n -> length m2 = n -> cg_value n G Av (m2 ++ m1) = cg_value n G Av (m1 ++ m2)).
Proof.
  intros HG HA Lv NA E Lm. unfold cg_init in E. destruct (_ || _); [|discriminate]. injection E as <-.
  assert (M : is_mat nc nf (cg_av vol ave)) by (apply scale_rows_mat; [rewrite map_length; assumption|assumption]).
  assert (P : nonneg_mat (cg_av vol ave)) by (apply scale_rows_nonneg; [apply sqrt_nonneg|assumption]).
  split; [apply (cg_nonneg n nf nc); assumption|]. split; [apply (cg_approx_psd n nf nc); assumption|].
  split; [intros K a b m1 L1; apply (cg_affine_zero n nf nc); assumption|]. intros m1 m2 L1 L2. apply (cg_swap n nf nc); assumption.
Qed.
Lemma jtv_all n k nf nc G weights ave W eps vol m :
  is_mat nf n G -> is_mat nc nf ave -> nonneg_mat ave -> weights <> [] -> Forall (fun w => length w = nc) weights ->
  jtv_W weights ave = Ok W -> length vol = nc -> 0 < eps -> Forall (fun v => 0 < v) vol -> length m = (k * n)%nat ->
  has_gradient (k * n) (jtv_value n k nf G W eps vol) m (jtv_deriv n k nf G W eps vol m) /\
  has_jacobian (k * n) (k * n) (jtv_deriv n k nf G W eps vol) m (jtv_deriv2v n k nf G W eps vol m) /\
  (forall v, length v = (k * n)%nat -> jtv_deriv2m n k nf G W eps vol m v = jtv_deriv2v n k nf G W eps vol m v) /\
  symmetric_action (k * n) (jtv_deriv2v n k nf G W eps vol m) /\
  psd_action (k * n) (jtv_deriv2v n k nf G W eps vol m) /\
  sqrt eps * vsum vol <= jtv_value n k nf G W eps vol m.
Proof.
  intros HG HA NA Hn HF EW Lv He Hv Lm. destruct (jtv_W_good nc nf weights ave W Hn HF HA NA EW) as [HW NW].
  assert (Hvi : forall i, (i < nc)%nat -> 0 < nth i vol 0). { intros i Hi. apply (proj1 (Forall_nth _ vol) Hv i 0). lia. }
  assert (NV : nonneg_vec vol). { eapply Forall_impl; [|exact Hv]. cbv beta. intros; lra. }
  pose proof (positive_radicand n nf nc G W HW eps vol Lv k m He Hvi NW Lm) as POS.
  split; [apply (jtv_grad n nf nc); assumption|]. split; [apply (jtv_hess n nf nc); assumption|].
  split; [intros v Lvv; apply (dm_eq n nf nc); assumption|]. split; [apply (jtv_sym n nf nc); assumption|].
  split; [apply (jtv_psd n nf nc); try assumption; lra|]. apply (jtv_lower n nf nc); try assumption; lra.
Qed.
Lemma directions_all dim D alpha x : is_mat dim dim D -> length alpha = dim -> length x = dim ->
  dot x (mv (rotate D alpha) x) = directional_energy dim D alpha x /\
  symmetric_action dim (mv (rotate D alpha)) /\
  (nonneg_vec alpha -> 0 <= dot x (mv (rotate D alpha) x)).
Proof.
  intros HD La Lx. pose proof (rotate_energy dim D alpha x HD La Lx) as E. split; [exact E|]. split; [apply rotate_sym; assumption|]. intros Ha. rewrite E. apply energy_nonneg; assumption.
Qed.
Lemma wire_sizes sizes n : (set_wire_map sizes = Ok n <-> sizes = [n; n]) /\
  (set_wire_map_jtv n sizes = Ok tt <-> Forall (fun s => s = n) sizes).
Proof.
  split.
  - destruct sizes as [|a [|b [|c l]]]; cbn; try (split; discriminate). destruct (Nat.eqb_spec a b); split; intros H; try discriminate; [injection H as <-; congruence|injection H as -> ->; reflexivity|injection H as -> ->; contradiction].
  - unfold set_wire_map_jtv. destruct (forallb (Nat.eqb n) sizes) eqn:E; split; intros H; try reflexivity; try discriminate.
    + apply Forall_forall. intros x Hx. rewrite forallb_forall in E. specialize (E x Hx). apply Nat.eqb_eq in E. symmetry; assumption.
    + exfalso. rewrite Forall_forall in H. assert (T : forallb (Nat.eqb n) sizes = true); [|congruence]. apply forallb_forall. intros x Hx. rewrite (H x Hx). apply Nat.eqb_refl.
Qed.

(** ** Components and placement *)
Lemma components_all dim D a : dim = 2%nat \/ dim = 3%nat -> is_mat dim dim D -> length a = dim -> tensor dim (components dim (rotate D a)) = rotate D a.
Proof.
  intros [->| ->] [LD FD] La.
  - destruct D as [|r1 [|r2 [|? ?]]]; try discriminate. destruct a as [|a1 [|a2 [|? ?]]]; try discriminate.
    pose proof (Forall_inv FD) as L1. pose proof (Forall_inv (Forall_inv_tail FD)) as L2. cbv beta in L1, L2.
    destruct r1 as [|x1 [|x2 [|? ?]]]; try discriminate. destruct r2 as [|y1 [|y2 [|? ?]]]; try discriminate.
    unfold tensor, components, rotate, entry2, vmul. cbn [Nat.eqb map nth zipw dot]. repeat match goal with |- _ :: _ = _ :: _ => f_equal end; ring.
  - destruct D as [|r1 [|r2 [|r3 [|? ?]]]]; try discriminate. destruct a as [|a1 [|a2 [|a3 [|? ?]]]]; try discriminate.
    pose proof (Forall_inv FD) as L1. pose proof (Forall_inv (Forall_inv_tail FD)) as L2. pose proof (Forall_inv (Forall_inv_tail (Forall_inv_tail FD))) as L3. cbv beta in L1, L2, L3.
    destruct r1 as [|x1 [|x2 [|x3 [|? ?]]]]; try discriminate. destruct r2 as [|y1 [|y2 [|y3 [|? ?]]]]; try discriminate. destruct r3 as [|z1 [|z2 [|z3 [|? ?]]]]; try discriminate.
    unfold tensor, components, rotate, entry2, vmul. cbn [Nat.eqb map nth zipw dot]. repeat match goal with |- _ :: _ = _ :: _ => f_equal end; ring.
Qed.
Lemma fill_placed {A} (zero : A) act : forall rows, length rows = length (filter (fun b => b) act) -> placed zero act rows (fill_rows zero act rows).
Proof.
  induction act as [|b act IH]; intros rows L; [split; [reflexivity|cbn; intros; lia]|].
  destruct b; cbn [fill_rows filter length] in *.
  - destruct rows as [|x rows]; [discriminate|]. destruct (IH rows ltac:(cbn in L; lia)) as [L1 P].
    split; [cbn; lia|]. intros [|i] Hi; [reflexivity|]. cbn [nth length] in *. rewrite P by lia. reflexivity.
  - destruct (IH rows L) as [L1 P]. split; [cbn; lia|]. intros [|i] Hi; [reflexivity|]. cbn [nth length] in *. rewrite P by lia. reflexivity.
Qed.
Lemma placed_all {A} (zero : A) act rows out ncells : length act = ncells -> length rows <> ncells -> expand_rows zero (Some act) ncells rows = Ok out ->
  placed zero act rows out.
Proof.
  intros La Lr. unfold expand_rows. destruct (Nat.eqb_spec (length rows) ncells); [contradiction|].
  destruct (Nat.eqb_spec (length rows) (length (filter (fun b => b) act))) as [E|E]; [|discriminate]. injection 1 as <-. apply fill_placed. exact E.
Qed.
Lemma alphas_placed dim ncells act alphas out : length act = ncells -> length alphas <> ncells -> fg_alphas dim ncells (Some act) alphas = Ok out ->
  placed (vzero dim) act alphas out.
Proof.
  intros La Lr. unfold fg_alphas. destruct (expand_rows (vzero dim) (Some act) ncells alphas) as [a|] eqn:E; cbn [bind]; [|discriminate].
  destruct (existsb _ a); [discriminate|]. injection 1 as <-. apply (placed_all _ _ _ _ ncells); assumption.
Qed.
