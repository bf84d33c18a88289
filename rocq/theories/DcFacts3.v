From Verif Require Import Py Vec VecDeriv Frechet Joint Richards RichardsFacts RichardsFacts2 RichardsFacts3 LinSimFacts SolveDeriv Dc SpecDc DcFacts DcFacts2.
From Coq Require Import Reals Lra Lia.
Local Open Scope R_scope.

(** ** From and to the pole-pole data *)
Lemma masked_length {A} (op : A -> A -> A) mask : forall out vals, length (masked op mask out vals) = length out.
Proof. induction mask as [|b mask IH]; intros [|o out] vals; try reflexivity; destruct b; try reflexivity. - cbn. destruct vals; cbn; rewrite IH; reflexivity. - cbn. rewrite IH. reflexivity. Qed.
Lemma dot_masked (op : R -> R -> R) (c : R) (Hop : forall a b, op a b = a + c * b) mask : forall out vals w,
  length mask = length out -> length w = length out -> length vals = count mask ->
  dot w (masked op mask out vals) = dot w out + c * dot (compress mask w) vals.
Proof.
  induction mask as [|b mask IH]; intros [|o out] vals [|x w] L1 L2 L3; try discriminate.
  - cbn. ring.
  - destruct b; cbn in L3.
    + destruct vals as [|y vals]; [discriminate|]. cbn [masked dot compress]. rewrite (IH out vals w) by (cbn in *; unfold count; lia). rewrite Hop. ring.
    + cbn [masked dot compress]. rewrite (IH out vals w) by (cbn in *; unfold count; lia). ring.
Qed.
Lemma compress_length mask : forall v, length v = length mask -> length (compress mask v) = count mask.
Proof. induction mask as [|b mask IH]; intros [|x v] L; try discriminate; [reflexivity|]. destruct b; cbn; rewrite ?IH by (cbn in L; lia); reflexivity. Qed.
Lemma upd_length out : forall i f, length (upd out i f) = length out.
Proof. induction out as [|x out IH]; intros [|i] f; cbn; rewrite ?IH; reflexivity. Qed.
Lemma dot_upd out : forall i f d, (i < length out)%nat -> length d = length out -> dot (upd out i f) d = dot out d + (f (nth i out 0) - nth i out 0) * nth i d 0.
Proof.
  induction out as [|x out IH]; intros [|i] f [|y d] Hi L; cbn in Hi; try lia; try discriminate; cbn [upd dot nth].
  - ring.
  - rewrite IH by (cbn in L; lia). ring.
Qed.
Lemma at_op_length op is : forall v out, length (at_op op out is v) = length out.
Proof. induction is as [|i is IH]; intros [|x v] out; try reflexivity. unfold at_op in *. cbn [combine fold_left fst snd]. rewrite IH. apply upd_length. Qed.
Lemma dot_at (op : R -> R -> R) (c : R) (Hop : forall a b, op a b = a + c * b) is : forall v out d,
  length v = length is -> Forall (fun i => (i < length out)%nat) is -> length d = length out ->
  dot (at_op op out is v) d = dot out d + c * dot v (take 0 d is).
Proof.
  induction is as [|i is IH]; intros [|x v] out d L F Ld; try discriminate.
  - cbn. ring.
  - unfold at_op in *. cbn [combine fold_left fst snd take map dot]. rewrite IH; [|cbn in L; lia| |rewrite upd_length; exact Ld].
    + rewrite dot_upd by (auto; apply (Forall_inv F)). rewrite Hop. unfold take. ring.
    + rewrite upd_length. exact (Forall_inv_tail F).
Qed.
Lemma lin_of_adjoint n k (f g : vec -> vec) : (forall d, length d = n -> length (f d) = k) ->
  (forall d w, length d = n -> length w = k -> dot w (f d) = dot (g w) d) -> lin_map n k f.
Proof.
  intros Lf Ad. split; [exact Lf|]. split.
  - intros a b La Lb. assert (Lab : length (vadd a b) = n) by ln. pose proof (Lf _ La). pose proof (Lf _ Lb). pose proof (Lf _ Lab). apply dot_ext; [transitivity k; [assumption|symmetry; ln]|]. intros w Lw. rewrite H1 in Lw.
    rewrite dot_comm, Ad by auto. rewrite dot_vadd_r by congruence. rewrite dot_vadd_l by congruence. rewrite !(dot_comm (f _)), !Ad by auto. reflexivity.
  - intros c a La. assert (Lca : length (vscale c a) = n) by ln. pose proof (Lf _ La). pose proof (Lf _ Lca). apply dot_ext; [transitivity k; [assumption|symmetry; ln]|]. intros w Lw. rewrite H0 in Lw.
    rewrite dot_comm, Ad by auto. rewrite dot_vscale_r, dot_vscale_l, dot_comm. rewrite (dot_comm (f a)), Ad by auto. rewrite dot_comm. reflexivity.
Qed.

Lemma both_length mi k : length (mi_rx mi) = k -> length (mi_tx mi) = k -> length (both mi) = k.
Proof. intros A B. unfold both. rewrite map_length, combine_length. lia. Qed.
Lemma take_length {A} (x : A) d is : length (take x d is) = length is.
Proof. apply map_length. Qed.

Section Mini.
  Context (s : dc) (srcs : list source) (SO : setup_ok s srcs).
  Definition nU : nat := survey_nD (U s srcs).
  Lemma survey_U : survey_ok (U s srcs).
  Proof. destruct SO as [_ H]. unfold U, used. destruct (d_mini s); [apply H|exact H]. Qed.
  Lemma mini_adjoint d w : length d = nU -> length w = data_size s srcs ->
    length (mini_data s 0 Rminus Rplus d) = data_size s srcs /\ length (mini_dataT s w) = nU /\
    dot w (mini_data s 0 Rminus Rplus d) = dot (mini_dataT s w) d.
  Proof.
    destruct SO as [_ H]. unfold nU, data_size, mini_data, mini_dataT, U, used. destruct (d_mini s) as [mi|]; [|cbn; auto].
    destruct H as (_ & L1 & L2 & L3 & L4 & L5 & F). apply Forall_app in F. destruct F as [F1 F]. apply Forall_app in F. destruct F as [F2 F]. apply Forall_app in F. destruct F as [F3 F4].
    intros Ld Lw. pose proof (both_length mi _ L1 L2) as L6.
    split; [rewrite !masked_length; apply take_length|]. split; [rewrite !at_op_length; apply vzero_length|].
    rewrite (dot_masked Rplus 1) by (rewrite ?masked_length, ?take_length; auto; intros; ring).
    rewrite !(dot_masked Rminus (-1)) by (rewrite ?masked_length, ?take_length; auto; intros; ring).
    rewrite (dot_at Rplus 1); [|intros; ring|rewrite compress_length by congruence; auto|rewrite !at_op_length, vzero_length; exact F4|rewrite !at_op_length, vzero_length; exact Ld].
    rewrite (dot_at Rminus (-1)); [|intros; ring|rewrite compress_length by congruence; auto|rewrite !at_op_length, vzero_length; exact F3|rewrite !at_op_length, vzero_length; exact Ld].
    rewrite (dot_at Rminus (-1)); [|intros; ring|rewrite compress_length by congruence; auto|rewrite !at_op_length, vzero_length; exact F2|rewrite !at_op_length, vzero_length; exact Ld].
    rewrite (dot_at Rplus 1); [|intros; ring|exact Lw|rewrite vzero_length; exact F1|rewrite vzero_length; exact Ld].
    rewrite dot_zero_l. ring.
  Qed.
  Lemma mini_lin : lin_map nU (data_size s srcs) (mini_data s 0 Rminus Rplus).
  Proof.
    apply (lin_of_adjoint _ _ _ (mini_dataT s)).
    - intros d Ld. apply (mini_adjoint d (vzero (data_size s srcs)) Ld). apply vzero_length.
    - intros d w Ld Lw. apply mini_adjoint; assumption.
  Qed.
  (** The rows of a matrix are combined like the entries of its products. *)
  Lemma masked_map {A B} (Q : A -> Prop) (f : A -> B) op op' (HQ : forall a b, Q a -> Q b -> Q (op a b)) (Hf : forall a b, Q a -> Q b -> f (op a b) = op' (f a) (f b)) mask :
    forall out vals, Forall Q out -> Forall Q vals -> Forall Q (masked op mask out vals) /\ map f (masked op mask out vals) = masked op' mask (map f out) (map f vals).
  Proof.
    induction mask as [|b mask IH]; intros out vals Fo Fv; [cbn; auto|]. destruct out as [|o out]; [destruct b; cbn; auto|].
    pose proof (Forall_inv Fo) as Ho. apply Forall_inv_tail in Fo. destruct b; cbn [masked map].
    - destruct vals as [|v vals]; cbn [map].
      + destruct (IH out [] Fo Fv) as [H1 H2]. split; [constructor; assumption|]. rewrite H2. reflexivity.
      + pose proof (Forall_inv Fv) as Hv. apply Forall_inv_tail in Fv. destruct (IH out vals Fo Fv) as [H1 H2]. split; [constructor; auto|]. rewrite Hf, H2 by assumption. reflexivity.
    - destruct (IH out vals Fo Fv) as [H1 H2]. split; [constructor; auto|]. rewrite H2. reflexivity.
  Qed.
  Lemma take_map {A B} (Q : A -> Prop) (f : A -> B) x d is : Q x -> Forall Q d -> Forall Q (take x d is) /\ map f (take x d is) = take (f x) (map f d) is.
  Proof.
    intros Hx Fd. split.
    - apply Forall_forall. intros y Hy. unfold take in Hy. apply in_map_iff in Hy. destruct Hy as (i & <- & _). destruct (Nat.lt_ge_cases i (length d)); [|rewrite nth_overflow by assumption; exact Hx].
      rewrite Forall_forall in Fd. apply Fd. apply nth_In. assumption.
    - unfold take. rewrite map_map. apply map_ext. intros i. symmetry. apply map_nth.
  Qed.
  Lemma mini_rows p (J : mat) : Forall (fun r => length r = p) J ->
    Forall (fun r => length r = p) (mini_data s (vzero p) vsub vadd J) /\ forall v, mv (mini_data s (vzero p) vsub vadd J) v = mini_data s 0 Rminus Rplus (mv J v).
  Proof.
    intros F. unfold mini_data. destruct (d_mini s) as [mi|]; [|auto].
    pose (Q := fun r : vec => length r = p).
    assert (T : forall v is, Forall Q (take (vzero p) J is) /\ mv (take (vzero p) J is) v = take 0 (mv J v) is).
    { intros v is. destruct (take_map Q (fun r => dot r v) (vzero p) J is) as [T1 T2]; [apply vzero_length|exact F|]. split; [exact T1|]. unfold mv. rewrite T2, dot_zero_l. reflexivity. }
    assert (S1 : forall v mask out vals, Forall Q out -> Forall Q vals -> Forall Q (masked vsub mask out vals) /\ mv (masked vsub mask out vals) v = masked Rminus mask (mv out v) (mv vals v)).
    { intros v. apply (masked_map Q (fun r => dot r v) vsub Rminus); unfold Q; intros a b Ha Hb; [ln|apply dot_vsub_l; congruence]. }
    assert (S2 : forall v mask out vals, Forall Q out -> Forall Q vals -> Forall Q (masked vadd mask out vals) /\ mv (masked vadd mask out vals) v = masked Rplus mask (mv out v) (mv vals v)).
    { intros v. apply (masked_map Q (fun r => dot r v) vadd Rplus); unfold Q; intros a b Ha Hb; [ln|apply dot_vadd_l; congruence]. }
    assert (T' := fun is => proj1 (T [] is)). assert (S1' := fun mask out vals Ho Hv => proj1 (S1 [] mask out vals Ho Hv)). assert (S2' := fun mask out vals Ho Hv => proj1 (S2 [] mask out vals Ho Hv)).
    cbv zeta. split; [auto|]. intros v. rewrite (proj2 (S2 v _ _ _ (S1' _ _ _ (S1' _ _ _ (T' _) (T' _)) (T' _)) (T' _))). rewrite (proj2 (S1 v _ _ _ (S1' _ _ _ (T' _) (T' _)) (T' _))). rewrite (proj2 (S1 v _ _ _ (T' _) (T' _))). rewrite !(fun is => proj2 (T v is)). reflexivity.
  Qed.
  Lemma mini_rows_len {A} (x : A) sub add J : length J = nU -> length (mini_data s x sub add J) = data_size s srcs.
  Proof.
    unfold mini_data, data_size, nU, U, used. destruct (d_mini s) as [mi|]; [|auto]. intros _. rewrite !masked_length. apply take_length.
  Qed.
End Mini.

(** ** Receivers *)
Section Rx.
  Context (s : dc) (SZ : sizes s).
  Let n := d_n s.
  Definition fac (src : source) (r : receiver) : vec :=
    if r_app r then match dict_get Nat.eqb (s_id src) (r_gf r) with Some g => map Rinv g | None => [] end else vconst (length (r_m r)) 1.
  Definition meas (src : source) (r : receiver) (u : vec) : vec := vmul (fac src r) (mv (getP s r) u).
  Lemma put_length q : forall i x, length (put q i x) = length q.
  Proof. induction q as [|y q IH]; intros [|i] x; cbn; rewrite ?IH; reflexivity. Qed.
  Lemma src_length src : length (src_eval s src) = n.
  Proof.
    destruct SZ as (_ & _ & _ & _ & _ & I & _). unfold src_eval. fold n in I |- *. destruct (d_form s).
    - induction (combine (s_locs src) (currents src)) as [|lc l IH]; cbn [fold_right]; [apply vzero_length|]. pose proof (I (fst lc)). ln.
    - generalize (vzero_length n). generalize (vzero n). induction (combine (s_locs src) (currents src)) as [|lc l IH]; intros q Lq; cbn [fold_left]; [exact Lq|]. apply IH. rewrite put_length. exact Lq.
  Qed.
  Context (src : source) (r : receiver) (RO : rx_ok src r).
  Lemma getP_mat : is_mat (nD r) n (getP s r).
  Proof.
    destruct SZ as (_ & _ & _ & _ & _ & I & _). fold n in I. destruct RO as [L _]. unfold getP, nD. destruct (r_n r) as [ns|].
    - split; [rewrite map_length, combine_length; lia|]. apply Forall_forall. intros row Hr. apply in_map_iff in Hr. destruct Hr as (mn & <- & _). pose proof (I (fst mn)). pose proof (I (snd mn)). ln.
    - split; [apply map_length|]. apply Forall_forall. intros row Hr. apply in_map_iff in Hr. destruct Hr as (mn & <- & _). apply I.
  Qed.
  Lemma fac_length : length (fac src r) = nD r.
  Proof. unfold fac, nD. destruct RO as [_ G]. destruct (r_app r); [|apply vconst_length]. destruct (G eq_refl) as (g & -> & L & _). ln. Qed.
  Lemma vmul_ones k a : length a = k -> vmul (vconst k 1) a = a.
  Proof. revert a. induction k; intros [|x a] L; cbn in L; try discriminate; cbn; [reflexivity|]. f_equal; [ring|]. apply IHk. lia. Qed.
  Lemma vdiv_inv a : forall g, vdiv a g = vmul (map Rinv g) a.
  Proof. induction a as [|x a IH]; intros [|y g]; cbn; try reflexivity. f_equal; [unfold Rdiv; ring|]. apply IH. Qed.
  Lemma gf_cases : (gfactor src r = Ok None /\ fac src r = vconst (nD r) 1) \/ (exists g, gfactor src r = Ok (Some g) /\ fac src r = map Rinv g /\ length g = nD r).
  Proof.
    unfold gfactor, fac, nD. destruct RO as [_ G]. destruct (r_app r); [right|left; auto]. destruct (G eq_refl) as (g & -> & L & _). exists g. auto.
  Qed.
  Lemma rx_eval_ok u : rx_eval s src r u = Ok (meas src r u).
  Proof.
    unfold rx_eval, meas. destruct gf_cases as [[-> ->]|(g & -> & -> & _)]; cbn [bind]; f_equal.
    - symmetry. apply vmul_ones. rewrite mv_length. apply getP_mat.
    - apply vdiv_inv.
  Qed.
  Lemma rx_deriv_ok v : rx_deriv s src r v = Ok (meas src r v).
  Proof.
    unfold rx_deriv, meas. destruct gf_cases as [[-> ->]|(g & -> & -> & _)]; cbn [bind]; f_equal. symmetry. apply vmul_ones. rewrite mv_length. apply getP_mat.
  Qed.
  Definition measT (w : vec) : vec := mtv n (getP s r) (vmul (fac src r) w).
  Lemma rx_derivT_ok w : length w = nD r -> rx_derivT s src r w = Ok (measT w).
  Proof.
    intros L. unfold rx_derivT, measT. fold n. destruct gf_cases as [[-> ->]|(g & -> & -> & _)]; cbn [bind]; f_equal. rewrite vmul_ones by exact L. reflexivity.
  Qed.
  Lemma meas_length u : length (meas src r u) = nD r.
  Proof. unfold meas. pose proof fac_length. pose proof (proj1 getP_mat). ln. Qed.
  Lemma meas_lin : lin_map n (nD r) (meas src r).
  Proof. apply (lin_comp n (nD r) (nD r) (mv (getP s r)) (vmul (fac src r))); [apply lin_mv; exact getP_mat|apply lin_vmul; exact fac_length]. Qed.
  Lemma measT_length w : length (measT w) = n.
  Proof. eapply mtv_length. exact getP_mat. Qed.
  Lemma meas_adjoint u w : length u = n -> length w = nD r -> dot w (meas src r u) = dot (measT w) u.
  Proof.
    intros Lu Lw. unfold meas, measT. rewrite <- dot_vmul. apply (mv_mtv_adjoint (nD r) n); [exact getP_mat| |exact Lu]. pose proof fac_length. ln.
  Qed.
  Definition rowsP : mat := map (fun gr => vscale (fst gr) (snd gr)) (combine (fac src r) (getP s r)).
  Lemma combine_map_l {A B C} (f : A -> C) (l : list A) : forall (k : list B), combine (map f l) k = map (fun p => (f (fst p), snd p)) (combine l k).
  Proof. induction l as [|x l IH]; intros [|y k]; cbn; try reflexivity. rewrite IH. reflexivity. Qed.
  Lemma rx_rows_ok : rx_rows s src r = Ok rowsP.
  Proof.
    unfold rx_rows, rowsP. destruct gf_cases as [[-> ->]|(g & -> & -> & _)]; cbn [bind]; f_equal.
    - rewrite <- (proj1 getP_mat). generalize (getP s r). intros P. induction P as [|x P IH]; [reflexivity|]. cbn [length vconst repeat combine map fst snd]. rewrite vscale_1. f_equal. exact IH.
    - rewrite combine_map_l, map_map. reflexivity.
  Qed.
  Lemma rowsP_mat : is_mat (nD r) n rowsP.
  Proof.
    unfold rowsP. pose proof fac_length. destruct getP_mat as [L F]. split; [rewrite map_length, combine_length; lia|]. apply Forall_forall. intros x Hx. apply in_map_iff in Hx. destruct Hx as ([c row] & <- & Hi).
    apply in_combine_r in Hi. rewrite Forall_forall in F. cbn. pose proof (F _ Hi). ln.
  Qed.
  Lemma rowsP_mv u : mv rowsP u = meas src r u.
  Proof.
    unfold rowsP, meas, mv. rewrite map_map. generalize (fac src r). generalize (getP s r). intros P. induction P as [|row P IH]; intros [|c f]; cbn [combine map vmul zipw]; try reflexivity.
    cbn [fst snd]. rewrite dot_vscale_l. f_equal. apply IH.
  Qed.
End Rx.

(** ** The loops *)
Section Loops.
  Context (s : dc) (srcs : list source) (SO : setup_ok s srcs).
  Let n := d_n s.
  Let SZ : sizes s := proj1 SO.
  Definition sol (m : vec) (src : source) : vec := d_solve s (getA s m) (src_eval s src).
  Lemma sol_length m src : length (sol m src) = n.
  Proof. apply (proj2 (proj2 (proj2 (proj2 (proj2 (proj2 SZ)))))). apply src_length. exact SZ. Qed.
  Lemma dict_get_combine {A} (f : source -> A) l src : NoDup (map s_id l) -> In src l -> dict_get Nat.eqb (s_id src) (combine (map s_id l) (map f l)) = Some (f src).
  Proof.
    induction l as [|x l IH]; intros ND Hi; [destruct Hi|]. cbn [map combine dict_get]. cbn in ND. inversion ND as [|? ? N1 N2]; subst.
    destruct (Nat.eqb_spec (s_id src) (s_id x)) as [E|E].
    - destruct Hi as [->|Hi]; [reflexivity|]. exfalso. apply N1. rewrite <- E. apply in_map. exact Hi.
    - destruct Hi as [->|Hi]; [contradiction|]. apply IH; assumption.
  Qed.
  Lemma lookup_ok m src : In src (U s srcs) -> lookup (fieldsP s srcs m) src = Ok (sol m src).
  Proof.
    intros Hi. unfold lookup, fieldsP. rewrite map_map. rewrite (dict_get_combine (fun x => d_solve s (getA s m) (src_eval s x))); [reflexivity|apply (survey_U s srcs SO)|exact Hi].
  Qed.
  Lemma rx_in src r : In src (U s srcs) -> In r (s_rx src) -> rx_ok src r.
  Proof. intros H1 H2. destruct (survey_U s srcs SO) as [_ F]. rewrite Forall_forall in F. specialize (F src H1). rewrite Forall_forall in F. apply F. exact H2. Qed.
  Definition loop {A} (G : source -> receiver -> list A) (l : list source) : list A := concat (map (fun src => concat (map (G src) (s_rx src))) l).
  Lemma over_ok {A} (g : source -> vec -> receiver -> result (list A)) G m :
    (forall src r, In src (U s srcs) -> In r (s_rx src) -> g src (sol m src) r = Ok (G src r)) -> over g (fieldsP s srcs m) (U s srcs) = Ok (loop G (U s srcs)).
  Proof.
    intros H. unfold over, loop. rewrite (mapM_all _ (fun src => concat (map (G src) (s_rx src)))); [reflexivity|]. intros src Hs. rewrite lookup_ok by exact Hs. cbn [bind].
    rewrite (mapM_all _ (G src)); [reflexivity|]. intros r Hr. apply H; assumption.
  Qed.
  Lemma loop_len {A} (G : source -> receiver -> list A) l : (forall src r, In src l -> In r (s_rx src) -> length (G src r) = nD r) -> length (loop G l) = survey_nD l.
  Proof.
    unfold loop, survey_nD. induction l as [|x l IH]; intros H; [reflexivity|]. cbn [map concat list_sum fold_right]. rewrite app_length. unfold list_sum in IH. rewrite IH by (intros; apply H; [right|]; assumption). change (fold_right Nat.add 0%nat) with list_sum. f_equal.
    assert (H' : forall r, In r (s_rx x) -> length (G x r) = nD r) by (intros; apply H; [left; reflexivity|assumption]). clear H IH. induction (s_rx x) as [|r rs IH]; [reflexivity|].
    cbn [map concat]. rewrite app_length. cbn [list_sum fold_right]. f_equal; [apply H'; left; reflexivity|]. apply IH. intros; apply H'. right. assumption.
  Qed.
  Lemma loop_vderiv (G : R -> source -> receiver -> vec) G' l : (forall src r, In src l -> In r (s_rx src) -> vderiv (nD r) (fun t => G t src r) 0 (G' src r)) ->
    vderiv (survey_nD l) (fun t => loop (G t) l) 0 (loop G' l).
  Proof.
    unfold loop, survey_nD. induction l as [|x l IH]; intros H; [cbn; apply (vderiv_const 0 []); reflexivity|].
    cbn [map concat list_sum fold_right]. apply vderiv_app; [|apply IH; intros; apply H; [right|]; assumption].
    assert (H' : forall r, In r (s_rx x) -> vderiv (nD r) (fun t => G t x r) 0 (G' x r)) by (intros; apply H; [left; reflexivity|assumption]). clear H IH.
    induction (s_rx x) as [|r rs IH]; [cbn; apply (vderiv_const 0 []); reflexivity|]. cbn [map concat list_sum fold_right]. apply vderiv_app; [apply H'; left; reflexivity|]. apply IH. intros; apply H'. right. assumption.
  Qed.
  Definition F0 (m : vec) : vec := mini_data s 0 Rminus Rplus (loop (fun src r => meas s src r (sol m src)) (U s srcs)).
  Definition du (m v : vec) (src : source) : vec := d_solve s (getA s m) (vopp (getADeriv s m (sol m src) v)).
  Definition J0 (m v : vec) : vec := mini_data s 0 Rminus Rplus (loop (fun src r => meas s src r (du m v src)) (U s srcs)).
  Lemma dpredP_ok m : length m = d_p s -> dpredP s srcs m = Ok (F0 m).
  Proof.
    intros Lm. unfold dpredP. rewrite Lm, Nat.eqb_refl. unfold predict. rewrite (over_ok _ (fun src r => meas s src r (sol m src))); [reflexivity|]. intros src r H1 H2. apply rx_eval_ok; [exact SZ|exact (rx_in _ _ H1 H2)].
  Qed.
  Lemma JvecP_ok m v : length m = d_p s -> d_storeJ s = false -> JvecP s srcs m v = Ok (J0 m v).
  Proof.
    intros Lm E. unfold JvecP. rewrite Lm, Nat.eqb_refl, E. rewrite (over_ok _ (fun src r => meas s src r (du m v src))); [reflexivity|]. intros src r H1 H2. cbn [Ainv stA st_A bind]. apply rx_deriv_ok; [exact SZ|exact (rx_in _ _ H1 H2)].
  Qed.
  Lemma loop_meas_len (X : source -> vec) : length (loop (fun src r => meas s src r (X src)) (U s srcs)) = nU s srcs.
  Proof. apply loop_len. intros src r H1 H2. apply meas_length; [exact SZ|exact (rx_in _ _ H1 H2)]. Qed.
  Lemma J0_length m v : length (J0 m v) = data_size s srcs.
  Proof. apply (mini_lin s srcs SO). apply loop_meas_len. Qed.
  Lemma data_jac m : d_neumann s = false -> regular s m -> has_jacobian (d_p s) (data_size s srcs) F0 m (J0 m).
  Proof.
    intros NN RG v Lv. unfold F0, J0. apply (vderiv_lin (nU s srcs) _ (mini_data s 0 Rminus Rplus) (fun t => loop (fun src r => meas s src r (sol (vadd m (vscale t v)) src)) (U s srcs))); [apply mini_lin; exact SO|].
    apply (loop_vderiv (fun t src r => meas s src r (sol (vadd m (vscale t v)) src))). intros src r H1 H2.
    apply (vderiv_lin n _ (meas s src r) (fun t => sol (vadd m (vscale t v)) src)); [apply meas_lin; [exact SZ|exact (rx_in _ _ H1 H2)]|].
    apply solve_jac; [exact SZ|exact NN|exact RG|exact Lv|]. apply src_length. exact SZ.
  Qed.

  (** The adjoint. *)
  Context (m : vec) (Lm : length m = d_p s) (SV : solves n (d_solve s) (getA s m)) (SY : symmetric n (getA s m)).
  Lemma du_adjoint src x v : length x = n -> length v = d_p s -> dot x (du m v src) = dot (vopp (getADerivT s m (sol m src) (d_solve s (getA s m) x))) v.
  Proof.
    intros Lx Lv. pose proof (sol_length m src) as Lu. unfold du. pose proof (proj2 (proj2 (proj2 (proj2 (proj2 (proj2 SZ)))))) as Ls.
    destruct (getADeriv_adjoint s SZ m (sol m src) v (d_solve s (getA s m) x) Lm Lu Lv (Ls _ _ Lx)) as (L1 & L2 & E).
    rewrite (sym_solve s SZ m Lm SV SY) by (auto; ln). rewrite dot_vopp_r, dot_vopp_l. f_equal. exact E.
  Qed.
  Lemma jt_rx_ok src (HU : In src (U s srcs)) rs : incl rs (s_rx src) -> forall w acc, (list_sum (map nD rs) <= length w)%nat -> length acc = d_p s ->
    exists acc', jt_rx s (stA srcs m) m src (sol m src) rs w acc = Ok (skipn (list_sum (map nD rs)) w, acc') /\ length acc' = d_p s /\
      forall v rest, length v = d_p s -> dot acc' v + dot (skipn (list_sum (map nD rs)) w) rest = dot acc v + dot w (concat (map (fun r => meas s src r (du m v src)) rs) ++ rest).
  Proof.
    induction rs as [|r rs IH]; intros HI w acc Lw La; cbn [jt_rx map list_sum fold_right] in *.
    - exists acc. split; [reflexivity|]. split; [exact La|]. intros. reflexivity.
    - change (fold_right Nat.add 0%nat) with list_sum in *. assert (RO : rx_ok src r) by (apply (rx_in src r HU), HI; left; reflexivity).
      assert (Lf : length (firstn (nD r) w) = nD r) by (rewrite firstn_length; lia). rewrite (rx_derivT_ok s src r RO) by exact Lf. cbn [bind Ainv stA st_A].
      pose proof (measT_length s SZ src r RO (firstn (nD r) w)) as Lt. pose proof (sol_length m src) as Lu. pose proof (proj2 (proj2 (proj2 (proj2 (proj2 (proj2 SZ)))))) as Ls.
      destruct (getADeriv_adjoint s SZ m (sol m src) (vzero (d_p s)) (d_solve s (getA s m) (measT s src r (firstn (nD r) w))) Lm Lu (vzero_length _) (Ls _ _ Lt)) as (_ & L2 & _).
      destruct (IH ltac:(intros x Hx; apply HI; right; exact Hx) (skipn (nD r) w) (vadd acc (vopp (getADerivT s m (sol m src) (d_solve s (getA s m) (measT s src r (firstn (nD r) w)))))) ltac:(rewrite skipn_length; lia) ltac:(ln)) as (acc' & E & La' & Q).
      exists acc'. rewrite E. split; [|split; [exact La'|]].
      + f_equal. f_equal. rewrite skipn_skipn. f_equal. lia.
      + intros v rest Lv. replace (nD r + list_sum (map nD rs))%nat with (list_sum (map nD rs) + nD r)%nat by lia. rewrite <- skipn_skipn. rewrite (Q v rest Lv). rewrite dot_vadd_l by (rewrite vopp_length; congruence). rewrite Rplus_assoc. f_equal.
        cbn [map concat]. rewrite <- (firstn_skipn (nD r) w) at 3. rewrite <- app_assoc. rewrite dot_app' by (rewrite Lf; symmetry; apply (meas_length s SZ src r RO)). f_equal.
        rewrite (meas_adjoint s SZ src r RO); [|apply Ls; assert (length (getADeriv s m (sol m src) v) = d_n s) by (apply (getADeriv_lin s SZ m); assumption); ln|exact Lf].
        symmetry. apply du_adjoint; assumption.
  Qed.
  Lemma jt_src_ok l : incl l (U s srcs) -> forall w acc, length w = survey_nD l -> length acc = d_p s ->
    exists acc', jt_src s (stA srcs m) m (fieldsP s srcs m) l w acc = Ok acc' /\ length acc' = d_p s /\
      forall v, length v = d_p s -> dot acc' v = dot acc v + dot w (loop (fun src r => meas s src r (du m v src)) l).
  Proof.
    induction l as [|src l IH]; intros HI w acc Lw La; cbn [jt_src].
    - exists acc. split; [reflexivity|]. split; [exact La|]. intros v Lv. destruct w; [cbn; ring|discriminate].
    - rewrite lookup_ok by (apply HI; left; reflexivity). cbn [bind]. unfold survey_nD in Lw. cbn [map list_sum fold_right] in Lw. change (fold_right Nat.add 0%nat) with list_sum in Lw. fold (survey_nD l) in Lw.
      destruct (jt_rx_ok src ltac:(apply HI; left; reflexivity) (s_rx src) (incl_refl _) w acc ltac:(lia) La) as (a1 & -> & L1 & Q1). cbn [bind fst snd].
      destruct (IH ltac:(intros x Hx; apply HI; right; exact Hx) (skipn (list_sum (map nD (s_rx src))) w) a1 ltac:(rewrite skipn_length; lia) L1) as (a2 & E & L2 & Q2).
      exists a2. split; [exact E|]. split; [exact L2|]. intros v Lv. rewrite Q2 by exact Lv. rewrite Q1 by exact Lv. reflexivity.
  Qed.
  Lemma JtvecP_ok w : d_storeJ s = false -> length w = data_size s srcs ->
    exists a, JtvecP s srcs m w = Ok a /\ length a = d_p s /\ forall v, length v = d_p s -> dot a v = dot w (J0 m v).
  Proof.
    intros E Lw. unfold JtvecP. rewrite Lm, Nat.eqb_refl, E.
    destruct (mini_adjoint s srcs SO (vzero (nU s srcs)) w (vzero_length _) Lw) as (_ & LT & _).
    destruct (jt_src_ok (U s srcs) (incl_refl _) (mini_dataT s w) (vzero (d_p s)) LT (vzero_length _)) as (a & Ea & La & Q).
    exists a. split; [exact Ea|]. split; [exact La|]. intros v Lv. rewrite Q by exact Lv. rewrite dot_zero_l, Rplus_0_l. symmetry. apply (mini_adjoint s srcs SO); [apply loop_meas_len|exact Lw].
  Qed.
  (** The sensitivity matrix. *)
  Lemma mapM_rows (P : mat) src : mapM (fun row => do a <- Ainv s (stA srcs m) row; Ok (vopp (getADerivT s m (sol m src) a))) P = Ok (map (fun row => vopp (getADerivT s m (sol m src) (d_solve s (getA s m) row))) P).
  Proof. apply mapM_all. intros row _. reflexivity. Qed.
  Lemma JP_ok : exists J, JP s srcs m = Ok J /\ is_mat (data_size s srcs) (d_p s) J /\ forall v, length v = d_p s -> mv J v = J0 m v.
  Proof.
    pose (G := fun src r => map (fun row => vopp (getADerivT s m (sol m src) (d_solve s (getA s m) row))) (rowsP s src r)).
    pose proof (proj2 (proj2 (proj2 (proj2 (proj2 (proj2 SZ)))))) as Ls.
    exists (mini_data s (vzero (d_p s)) vsub vadd (loop G (U s srcs))). unfold JP, Jrows.
    replace (used s (stA srcs m)) with (U s srcs) by (unfold U; apply used_eq; reflexivity). rewrite (over_ok _ G); [|intros src r H1 H2; rewrite (rx_rows_ok s SZ src r (rx_in _ _ H1 H2)); cbn [bind]; apply mapM_rows].
    split; [reflexivity|].
    assert (LG : forall src r, In src (U s srcs) -> In r (s_rx src) -> length (G src r) = nD r).
    { intros src r H1 H2. unfold G. rewrite map_length. apply (rowsP_mat s SZ src r (rx_in _ _ H1 H2)). }
    assert (RG : forall src r, In src (U s srcs) -> In r (s_rx src) -> Forall (fun row => length row = d_p s) (G src r)).
    { intros src r H1 H2. apply Forall_forall. intros x Hx. unfold G in Hx. apply in_map_iff in Hx. destruct Hx as (row & <- & Hr). destruct (rowsP_mat s SZ src r (rx_in _ _ H1 H2)) as [_ F]. rewrite Forall_forall in F.
      pose proof (Ls (getA s m) _ (F row Hr)) as La. destruct (getADeriv_adjoint s SZ m (sol m src) (vzero (d_p s)) _ Lm (sol_length m src) (vzero_length _) La) as (_ & L2 & _). ln. }
    assert (RL : Forall (fun row => length row = d_p s) (loop G (U s srcs))).
    { unfold loop. apply Forall_concat, Forall_forall. intros x Hx. apply in_map_iff in Hx. destruct Hx as (src & <- & Hs). apply Forall_concat, Forall_forall. intros y Hy. apply in_map_iff in Hy. destruct Hy as (r & <- & Hr). apply RG; assumption. }
    destruct (mini_rows s (d_p s) _ RL) as [MR MV]. split; [split; [apply (mini_rows_len s srcs), loop_len; exact LG|exact MR]|].
    intros v Lv. rewrite MV. unfold J0. f_equal. unfold loop. rewrite mv_concat, map_map. f_equal. apply map_ext_in. intros src Hs. rewrite mv_concat, map_map. f_equal. apply map_ext_in. intros r Hr.
    rewrite <- (rowsP_mv s src r). unfold G, mv. rewrite map_map. apply map_ext_in. intros row Hrow. destruct (rowsP_mat s SZ src r (rx_in _ _ Hs Hr)) as [_ F]. rewrite Forall_forall in F. rewrite du_adjoint by (auto; apply F; exact Hrow). reflexivity.
  Qed.
End Loops.
