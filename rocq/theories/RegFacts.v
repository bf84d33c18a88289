(** Proofs about regularization terms. *)
From Verif Require Import Py Vec VecDeriv Coords SpecCoords CoordsFacts Reg SpecReg.
Local Open Scope R_scope.

(** ** The dictionary *)
Lemma get_set d k v j : dict_get (dict_set d k v) j = if Nat.eqb j k then Some v else dict_get d j.
Proof.
  induction d as [|[k' v'] d IH]; cbn; [destruct (Nat.eqb j k); reflexivity|].
  destruct (Nat.eqb k k') eqn:E; cbn.
  - apply Nat.eqb_eq in E as <-. destruct (Nat.eqb j k) eqn:E; reflexivity.
  - destruct (Nat.eqb j k') eqn:E2; [|exact IH]. apply Nat.eqb_eq in E2 as ->. rewrite Nat.eqb_sym, E. reflexivity.
Qed.
Lemma get_pop d k j : dict_get (dict_pop d k) j = if Nat.eqb j k then None else dict_get d j.
Proof.
  unfold dict_pop. induction d as [|[k' v'] d IH]; cbn; [destruct (Nat.eqb j k); reflexivity|].
  destruct (Nat.eqb k k') eqn:E; cbn.
  - apply Nat.eqb_eq in E as <-. rewrite IH. destruct (Nat.eqb j k); reflexivity.
  - destruct (Nat.eqb j k') eqn:E2; [|exact IH]. apply Nat.eqb_eq in E2 as ->. rewrite Nat.eqb_sym, E. reflexivity.
Qed.
Lemma legal_iff s v : existsb (Nat.eqb (length v)) (weight_sizes s) = true <-> legal_size s v.
Proof.
  unfold weight_sizes, legal_size. destruct (r_kind s); cbn; rewrite ?orb_false_r, ?orb_true_iff, ?Nat.eqb_eq; tauto.
Qed.
Lemma set_loop_entries s kvs d r r' : (forall k, dict_get d k = r k) -> entries s r kvs r' -> forall k, dict_get (fst (set_loop s kvs d)) k = r' k.
Proof.
  intros H E. revert d H. induction E as [r|r k v l r' Hl E IH|r k v l Hl|r k l]; intros d H j; cbn [set_loop].
  - apply H.
  - cbn [check_weight]. apply legal_iff in Hl. rewrite Hl. apply IH. intros i. rewrite get_set, H. reflexivity.
  - cbn [check_weight]. destruct (existsb _ _) eqn:X; [apply legal_iff in X; contradiction|]. apply H.
  - apply H.
Qed.
Lemma set_loop_frame s s' kvs d : r_kind s' = r_kind s -> ops s' = ops s -> set_loop s' kvs d = set_loop s kvs d.
Proof.
  intros E1 E2. revert d. induction kvs as [|[k w] kvs IH]; intros d; [reflexivity|]. cbn [set_loop].
  assert (check_weight s' w = check_weight s w) as -> by (unfold check_weight, weight_sizes; rewrite E1, E2; reflexivity).
  destruct (check_weight s w); [apply IH|reflexivity].
Qed.

(** ** What the operations keep *)
Definition frame (s s' : reg) : Prop := r_kind s' = r_kind s /\ mesh_ops s' = mesh_ops s /\ mesh_active s' = mesh_active s /\
  ref s' = ref s /\ ref_in_smooth s' = ref_in_smooth s /\ radian s' = radian s.
Lemma frame_refl s : frame s s. Proof. repeat split. Qed.
Lemma frame_trans a b c : frame a b -> frame b c -> frame a c.
Proof. intros (H1&H2&H3&H4&H5&H6) (K1&K2&K3&K4&K5&K6). repeat split; congruence. Qed.
Lemma frame_ops s s' : frame s s' -> ops s' = ops s.
Proof. intros (_ & H2 & H3 & _). unfold ops. congruence. Qed.
Lemma get_W_frame s : frame s (snd (get_W s)) /\ weights (snd (get_W s)) = weights s /\ cG (snd (get_W s)) = cG s.
Proof. unfold get_W. destruct (cW s); [repeat split|]. destruct (compute_W s); repeat split. Qed.
Lemma get_G_frame s : frame s (snd (get_G s)) /\ weights (snd (get_G s)) = weights s /\ cW (snd (get_G s)) = cW s.
Proof. unfold get_G. destruct (cG s); repeat split. Qed.
Lemma f_m_frame s M m : frame s (snd (f_m s M m)) /\ weights (snd (f_m s M m)) = weights s /\ cW (snd (f_m s M m)) = cW s.
Proof.
  unfold f_m. pose proof (get_G_frame s) as H. destruct (r_kind s); [repeat split| |]; destruct (get_G s) as [g s']; cbn [snd] in H;
    destruct (Nat.eqb (length (diff s M m)) (nC g)); try exact H; destruct (radian s); exact H.
Qed.
Lemma call_frame s M m : frame s (snd (call s M m)) /\ weights (snd (call s M m)) = weights s.
Proof.
  unfold call. pose proof (get_W_frame s) as (F1 & W1 & _). destruct (get_W s) as [[w|e] s1]; cbn [snd] in *; [|auto].
  pose proof (f_m_frame s1 M m) as (F2 & W2 & _). destruct (f_m s1 M m) as [[f|e] s2]; cbn [snd] in *.
  - destruct (Nat.eqb (length w) (length f)); cbn [snd]; (split; [eapply frame_trans; eassumption|congruence]).
  - split; [eapply frame_trans; eassumption|congruence].
Qed.
Lemma deriv_frame s M m : frame s (snd (deriv s M m)) /\ weights (snd (deriv s M m)) = weights s.
Proof.
  unfold deriv. pose proof (get_W_frame s) as (F1 & W1 & _). destruct (get_W s) as [[w|e] s1]; cbn [snd] in *; [|auto].
  pose proof (f_m_frame s1 M m) as (F2 & W2 & _). destruct (f_m s1 M m) as [[f|e] s2]; cbn [snd] in *.
  - assert (F3 : frame s s2) by (eapply frame_trans; eassumption).
    destruct (Nat.eqb (length w) (length f)); cbn [snd]; [|split; [assumption|congruence]].
    pose proof (get_G_frame s2) as (F4 & W4 & _).
    destruct (r_kind s); [cbn; split; [assumption|congruence]| |]; destruct (get_G s2) as [g s3]; cbn [snd] in *; (split; [eapply frame_trans; eassumption|congruence]).
  - split; [eapply frame_trans; eassumption|congruence].
Qed.
Lemma deriv2_frame s M m v : frame s (snd (deriv2 s M m v)) /\ weights (snd (deriv2 s M m v)) = weights s.
Proof.
  unfold deriv2. set (X := match r_kind s with Small => (ops s, s) | _ => get_G s end).
  assert (frame s (snd X) /\ weights (snd X) = weights s) as [F1 W1].
  { unfold X. pose proof (get_G_frame s) as (F & W & _). destruct (r_kind s); [cbn; split; [apply frame_refl|reflexivity]|auto|auto]. }
  destruct X as [g s1]. cbn [snd] in *. pose proof (get_W_frame s1) as (F2 & W2 & _). destruct (get_W s1) as [[w|e] s2]; cbn [snd] in *.
  - destruct (Nat.eqb (length w) _); cbn [snd]; (split; [eapply frame_trans; eassumption|congruence]).
  - split; [eapply frame_trans; eassumption|congruence].
Qed.
Lemma set_weights_spec s kvs : frame s (fst (set_weights s kvs)) /\ weights (fst (set_weights s kvs)) = fst (set_loop s kvs (weights s)) /\ cG (fst (set_weights s kvs)) = cG s.
Proof. unfold set_weights. destruct (set_loop s kvs (weights s)) as [d [e|]]; repeat split. Qed.
Lemma remove_spec s k j : frame s (fst (remove_weights s k)) /\ cG (fst (remove_weights s k)) = cG s /\
  dict_get (weights (fst (remove_weights s k))) j = if Nat.eqb j k then None else dict_get (weights s) j.
Proof.
  unfold remove_weights. destruct (dict_get (weights s) k) eqn:E; cbn [fst].
  - repeat split. apply get_pop.
  - repeat split. destruct (Nat.eqb j k) eqn:X; [apply Nat.eqb_eq in X as ->; assumption|reflexivity].
Qed.

(** ** The registry *)
Lemma entries_frame s s' r kvs r' : frame s s' -> entries s r kvs r' -> entries s' r kvs r'.
Proof.
  intros F E. assert (L : forall v, legal_size s' v <-> legal_size s v).
  { intros v. unfold legal_size. rewrite (frame_ops s s' F). destruct F as (-> & _). reflexivity. }
  induction E; [constructor|constructor 2; [apply L; assumption|assumption]|constructor 3; intros K; apply L in K; contradiction|constructor 4].
Qed.
Lemma registry_frame s s' r l r' : frame s s' -> registry s r l r' -> registry s' r l r'.
Proof.
  intros F E. induction E; [constructor|econstructor 2; [eapply entries_frame; eassumption|assumption]|constructor 3; assumption|constructor 4; assumption|constructor 5; assumption|constructor 6; assumption].
Qed.
Lemma c41_registry l : forall s r r', (forall k, dict_get (weights s) k = r k) -> registry s r l r' -> forall k, dict_get (weights (rrun s l)) k = r' k.
Proof.
  induction l as [|o l IH]; intros s r r' H R; [inversion R; subst; exact H|].
  unfold rrun. cbn [fold_left]. fold (rrun (rstep s o) l).
  inversion R; subst; cbn [rstep]; (eapply IH; [|eapply registry_frame; [|eassumption]]).
  - intros k. destruct (set_weights_spec s kvs) as (_ & -> & _). eapply set_loop_entries; eassumption.
  - apply set_weights_spec.
  - intros j. cbn beta. rewrite <- H. apply remove_spec.
  - apply (remove_spec s k 0).
  - intros k. destruct (call_frame s M m) as [_ ->]. apply H.
  - apply call_frame.
  - intros k. destruct (deriv_frame s M m) as [_ ->]. apply H.
  - apply deriv_frame.
  - intros k. destruct (deriv2_frame s M m v) as [_ ->]. apply H.
  - apply deriv2_frame.
Qed.

(** ** The caches *)
Definition Inv (s : reg) : Prop := (forall w, cW s = Some w -> compute_W s = Ok w) /\ (forall g, cG s = Some g -> g = ops s).
Lemma compute_W_frame s s' : frame s s' -> weights s' = weights s -> compute_W s' = compute_W s.
Proof. intros F W. unfold compute_W. rewrite W, (frame_ops _ _ F). destruct F as (-> & _). reflexivity. Qed.
Lemma get_W_inv s : Inv s -> Inv (snd (get_W s)) /\ fst (get_W s) = compute_W s.
Proof.
  intros H. pose proof H as [H1 H2]. unfold get_W. destruct (cW s) as [w|] eqn:E; cbn [fst snd]; [split; [exact H|symmetry; auto]|].
  destruct (compute_W s) as [w|e] eqn:C; cbn [fst snd]; [|split; [exact H|reflexivity]].
  split; [|reflexivity]. split; cbn; [|exact H2]. intros w' [= <-]. exact C.
Qed.
Lemma get_G_inv s : Inv s -> Inv (snd (get_G s)) /\ fst (get_G s) = ops s.
Proof.
  intros H. pose proof H as [H1 H2]. unfold get_G. destruct (cG s) as [g|] eqn:E; cbn [fst snd]; [split; [exact H|auto]|].
  split; [|reflexivity]. split; cbn; [exact H1|]. intros g [= <-]. reflexivity.
Qed.
Definition f_pure (s : reg) (M : rmap) (m : vec) : result vec :=
  let d := diff s M m in
  match r_kind s with
  | Small => Ok d
  | k => if Nat.eqb (length d) (nC (ops s)) then
           match k, radian s with
           | Smooth2, true => Err AttributeError
           | Smooth2, false => Ok (mtv (nC (ops s)) (grad (ops s)) (mv (grad (ops s)) d))
           | _, true => Ok (angle_kernel (grad (ops s)) d)
           | _, false => Ok (mv (grad (ops s)) d)
           end
         else Err ValueError
  end.
Lemma f_m_inv s M m : Inv s -> Inv (snd (f_m s M m)) /\ fst (f_m s M m) = f_pure s M m.
Proof.
  intros H. unfold f_m, f_pure. destruct (get_G_inv s H) as [HI E].
  destruct (r_kind s); [auto| |]; destruct (get_G s) as [g s']; cbn [fst snd] in *; subst g;
    (destruct (Nat.eqb (length (diff s M m)) (nC (ops s))); [destruct (radian s); auto|auto]).
Qed.
Lemma f_pure_frame s s' M m : frame s s' -> f_pure s' M m = f_pure s M m.
Proof.
  intros F. pose proof (frame_ops _ _ F) as E. destruct F as (K & _ & _ & R & RS & RD). unfold f_pure, diff. rewrite K, R, RS, RD, E. reflexivity.
Qed.
Definition call_pure (s : reg) (M : rmap) (m : vec) : result R :=
  do w <- compute_W s; do f <- f_pure s M m; if Nat.eqb (length w) (length f) then Ok (dot (vmul w f) (vmul w f)) else Err ValueError.
Lemma call_inv s M m : Inv s -> Inv (snd (call s M m)) /\ fst (call s M m) = call_pure s M m.
Proof.
  intros H. unfold call, call_pure. destruct (get_W_inv s H) as [H1 E1]. pose proof (get_W_frame s) as (F1 & _).
  destruct (get_W s) as [w s1]; cbn [fst snd] in *. rewrite <- E1. destruct w as [w|e]; cbn [bind]; [|auto].
  destruct (f_m_inv s1 M m H1) as [H2 E2]. rewrite (f_pure_frame s s1) in E2 by assumption. destruct (f_m s1 M m) as [f s2]; cbn [fst snd] in *.
  rewrite <- E2. destruct f as [f|e]; cbn [bind]; [|auto]. destruct (Nat.eqb (length w) (length f)); auto.
Qed.
Definition deriv_pure (s : reg) (M : rmap) (m : vec) : result vec :=
  do w <- compute_W s; do f <- f_pure s M m;
  if Nat.eqb (length w) (length f) then Ok (vscale 2 (fd_mtv (r_kind s) (ops s) M m (vmul w (vmul w f)))) else Err ValueError.
Lemma deriv_inv s M m : Inv s -> Inv (snd (deriv s M m)) /\ fst (deriv s M m) = deriv_pure s M m.
Proof.
  intros H. unfold deriv, deriv_pure. destruct (get_W_inv s H) as [H1 E1]. pose proof (get_W_frame s) as (F1 & _).
  destruct (get_W s) as [w s1]; cbn [fst snd] in *. rewrite <- E1. destruct w as [w|e]; cbn [bind]; [|auto].
  destruct (f_m_inv s1 M m H1) as [H2 E2]. rewrite (f_pure_frame s s1) in E2 by assumption. pose proof (f_m_frame s1 M m) as (F2 & _).
  destruct (f_m s1 M m) as [f s2]; cbn [fst snd] in *.
  rewrite <- E2. destruct f as [f|e]; cbn [bind]; [|auto]. destruct (Nat.eqb (length w) (length f)); [|auto].
  assert (EO : ops s2 = ops s) by (rewrite (frame_ops _ _ F2); apply frame_ops; assumption).
  destruct (get_G_inv s2 H2) as [H3 E3].
  destruct (r_kind s); [cbn; split; [assumption|reflexivity]| |]; destruct (get_G s2) as [g s3]; cbn [fst snd] in *; subst g; rewrite EO; auto.
Qed.
Definition deriv2_pure (s : reg) (M : rmap) (m v : vec) : result vec :=
  do w <- compute_W s;
  if Nat.eqb (length w) (length (fd_mv (r_kind s) (ops s) M m v))
  then Ok (vscale 2 (fd_mtv (r_kind s) (ops s) M m (vmul w (vmul w (fd_mv (r_kind s) (ops s) M m v))))) else Err ValueError.
Lemma deriv2_inv s M m v : Inv s -> Inv (snd (deriv2 s M m v)) /\ fst (deriv2 s M m v) = deriv2_pure s M m v.
Proof.
  intros H. unfold deriv2, deriv2_pure. set (X := match r_kind s with Small => (ops s, s) | _ => get_G s end).
  assert (Inv (snd X) /\ fst X = ops s /\ frame s (snd X) /\ weights (snd X) = weights s) as (H1 & E1 & F1 & W1).
  { unfold X. pose proof (get_G_frame s) as (F & W & _). destruct (get_G_inv s H) as [A B]. destruct (r_kind s); [cbn; repeat split; auto; apply H|auto|auto]. }
  destruct X as [g s1]. cbn [fst snd] in *. subst g. destruct (get_W_inv s1 H1) as [H2 E2]. rewrite (compute_W_frame s s1) in E2 by assumption.
  destruct (get_W s1) as [w s2]; cbn [fst snd] in *. rewrite <- E2. destruct w as [w|e]; cbn [bind]; [|auto].
  destruct (Nat.eqb (length w) _); auto.
Qed.
Lemma set_loop_all s : forall kvs d, Forall (fun kv => match snd kv with WArr v => legal_size s v | WBad => False end) kvs -> snd (set_loop s kvs d) = None.
Proof.
  induction kvs as [|[k w] kvs IH]; intros d H; [reflexivity|]. inversion H; subst. cbn [set_loop snd] in *. destruct w as [v|]; [|contradiction].
  cbn [check_weight]. match goal with K : legal_size s v |- _ => apply legal_iff in K; rewrite K end. apply IH. assumption.
Qed.
Lemma set_inv s kvs : Inv s -> whole s kvs -> Inv (fst (set_weights s kvs)).
Proof.
  intros [H1 H2] Hw. unfold set_weights.
  assert (snd (set_loop s kvs (weights s)) = None \/ fst (set_loop s kvs (weights s)) = weights s) as D.
  { destruct Hw as [L|HF]; [|left; apply set_loop_all; assumption].
    destruct kvs as [|[k w] [|]]; cbn in L; try lia; [left; reflexivity|]. cbn [set_loop]. destruct (check_weight s w); [left; reflexivity|right; reflexivity]. }
  destruct (set_loop s kvs (weights s)) as [d [e|]]; cbn [fst snd] in *.
  - destruct D as [D|D]; [discriminate|]. subst d. destruct s; split; [exact H1|exact H2].
  - split; cbn; [discriminate|exact H2].
Qed.
Lemma remove_inv s k : Inv s -> Inv (fst (remove_weights s k)).
Proof.
  intros [H1 H2]. unfold remove_weights. destruct (dict_get (weights s) k); cbn [fst]; [|split; assumption]. split; cbn; [discriminate|exact H2].
Qed.
Lemma set_active_inv s a : Inv s -> cG s = None -> Inv (fst (set_active s a)) /\ cG (fst (set_active s a)) = None.
Proof.
  intros H G. unfold set_active, mesh_set_active.
  assert (forall s1, Inv s1 \/ a <> None -> cG s1 = None -> let r := match a with
      | None => (s1, None)
      | Some _ => let s2 := with_weights s1 [] None in
          if existsb (fun kv => Nat.eqb 0 (fst kv)) (weights s1) then set_weights s2 [(O, WArr (vol (ops s2)))] else (s2, None)
      end in Inv (fst r) /\ cG (fst r) = None) as K.
  { intros s1 [HI|N] G1; cbv zeta; destruct a as [a|]; try congruence; auto;
    (assert (Inv (with_weights s1 [] None)) as HI2 by (split; cbn; [discriminate|intros g E; congruence]);
     destruct (existsb _ (weights s1)); [|auto]; split; [apply set_inv; [exact HI2|left; cbn; lia]|destruct (set_weights_spec (with_weights s1 [] None) [(O, WArr (vol (ops (with_weights s1 [] None))))]) as (_ & _ & ->); exact G1]). }
  destruct (mesh_active s) as [b|] eqn:E.
  - destruct (eq_active (Some b) a); [apply K; auto|auto].
  - apply K; [|exact G]. destruct a; [right; discriminate|left]. destruct s. cbn in *. subst. exact H.
Qed.
Lemma careful_inv l : forall ev s, Inv s -> (ev = false -> cG s = None) -> careful ev s l -> Inv (rrun s l).
Proof.
  induction l as [|o l IH]; intros ev s H G C; [exact H|]. unfold rrun. cbn [fold_left]. fold (rrun (rstep s o) l).
  destruct o; cbn [careful] in C.
  - destruct C as [C1 C2]. apply (IH ev); [apply set_inv; assumption| |exact C2]. intros E. cbn [rstep]. destruct (set_weights_spec s kvs) as (_ & _ & ->). auto.
  - apply (IH ev); [apply remove_inv; assumption| |exact C]. intros E. cbn [rstep]. destruct (remove_spec s k 0) as (_ & -> & _). auto.
  - apply (IH true); [apply call_inv; assumption|discriminate|exact C].
  - apply (IH true); [apply deriv_inv; assumption|discriminate|exact C].
  - apply (IH true); [apply deriv2_inv; assumption|discriminate|exact C].
  - destruct C as [-> C]. apply (IH false); [apply set_active_inv; auto|intros _; apply set_active_inv; auto|exact C].
  - contradiction.
Qed.
Lemma new_inv k mo a r ris rad : Inv (fst (reg_new k mo a r ris rad)) /\ cG (fst (reg_new k mo a r ris rad)) = None.
Proof.
  unfold reg_new. set (s := mkReg k mo a [] None None r ris rad). assert (Inv s) by (split; cbn; discriminate).
  split; [apply set_inv; [assumption|left; cbn; lia]|]. destruct (set_weights_spec s [(O, WArr (vol (mo a)))]) as (_ & _ & ->). reflexivity.
Qed.

(** ** The value *)
Lemma fold_vmul n : forall l w, length w = n -> Forall (fun v => length v = n) l -> length (fold_left vmul l w) = n /\
  forall i, (i < n)%nat -> nth i (fold_left vmul l w) 0 = nth i w 0 * product_at l i.
Proof.
  induction l as [|v l IH]; intros w L HF; cbn [fold_left product_at fold_right]; [split; [assumption|intros; ring]|].
  inversion HF; subst. destruct (IH (vmul w v)) as [A B]; [apply vmul_length; congruence|assumption|]. split; [assumption|].
  intros i Hi. rewrite B, nth_vmul by (try assumption; congruence). unfold product_at. cbn. ring.
Qed.
Lemma prod_of_ok n l : l <> [] -> Forall (fun v => length v = n) l -> exists p, prod_of l = Ok p /\ length p = n /\ forall i, (i < n)%nat -> nth i p 0 = product_at l i.
Proof.
  intros Hne HF. destruct l as [|w l]; [contradiction|]. inversion HF as [|? ? L HF']; subst. cbn [prod_of].
  assert (all_len (length w) l = true) as ->.
  { unfold all_len. apply forallb_forall. intros v Hv. rewrite Forall_forall in HF'. apply Nat.eqb_eq. auto. }
  destruct (fold_vmul (length w) l w eq_refl HF') as [A B]. exists (fold_left vmul l w). repeat split; auto.
Qed.
Lemma effective_eq s : match r_kind s with Smooth1 => prod_of (map (on_faces (ops s)) (map snd (weights s))) | _ => prod_of (map snd (weights s)) end = prod_of (effective s).
Proof. unfold effective, on_faces. destruct (r_kind s); reflexivity. Qed.
Lemma compute_W_ok s n : weights s <> [] -> Forall (fun v => length v = n) (effective s) ->
  (forall i, (i < n)%nat -> 0 <= product_at (effective s) i) ->
  exists w, compute_W s = Ok w /\ length w = n /\ forall i, (i < n)%nat -> nth i w 0 * nth i w 0 = product_at (effective s) i.
Proof.
  intros Hne HF HP. unfold compute_W. cbv zeta. rewrite effective_eq.
  assert (effective s <> []) as Hne' by (unfold effective; destruct (weights s); [contradiction|destruct (r_kind s); discriminate]).
  destruct (prod_of_ok n _ Hne' HF) as (p & -> & Lp & Hp). cbn [bind].
  assert (existsb (fun x => if Rlt_dec x 0 then true else false) p = false) as ->.
  { destruct (existsb _ p) eqn:E; [|reflexivity]. apply existsb_exists in E as (x & Hx & Ex). apply (In_nth _ _ 0) in Hx as (i & Hi & <-).
    rewrite Lp in Hi. pose proof (HP i Hi) as K. rewrite <- Hp in K by assumption. destruct (Rlt_dec (nth i p 0) 0); [lra|discriminate]. }
  exists (map sqrt p). split; [reflexivity|]. split; [rewrite map_length; assumption|]. intros i Hi.
  rewrite (map_nth_lt sqrt) by lia. rewrite sqrt_sqrt by (rewrite Hp by assumption; auto). auto.
Qed.
Lemma dot_sum a b : length a = length b -> dot a b = vsum (map (fun i => nth i a 0 * nth i b 0) (seq 0 (length a))).
Proof.
  revert b; induction a as [|x a IH]; intros [|y b] L; cbn in L; try lia; [reflexivity|].
  cbn [dot length seq map vsum nth]. rewrite IH by lia. f_equal. rewrite <- seq_shift, map_map. reflexivity.
Qed.
Lemma vsum_map_ext {A} (f g : A -> R) l : (forall x, In x l -> f x = g x) -> vsum (map f l) = vsum (map g l).
Proof. intros H. f_equal. apply map_ext_in. assumption. Qed.
Lemma weighted_sq s w f n : length w = n -> length f = n -> (forall i, (i < n)%nat -> nth i w 0 * nth i w 0 = product_at (effective s) i) ->
  dot (vmul w f) (vmul w f) = measure (effective s) f.
Proof.
  intros Lw Lf H. rewrite dot_sum by reflexivity. unfold measure. rewrite vmul_length by congruence. rewrite Lw, Lf. apply vsum_map_ext.
  intros i Hi. apply in_seq in Hi. rewrite nth_vmul by (try lia; congruence). rewrite <- H by lia. ring.
Qed.
Definition k_len (k : kind) (o : rops) (d : vec) : wf_ops o -> length d = nC o -> length (kernel k o d) = residual_size k o.
Proof.
  intros (_ & [Lg HG] & _) L. destruct k; cbn; [assumption|rewrite mv_length; assumption|].
  apply (mtv_length (nF o)). split; assumption.
Qed.
Lemma f_pure_ok s M m : radian s = false -> length (diff s M m) = nC (ops s) -> f_pure s M m = Ok (kernel (r_kind s) (ops s) (diff s M m)).
Proof. intros R L. unfold f_pure. rewrite R, L, Nat.eqb_refl. destruct (r_kind s); reflexivity. Qed.
Lemma call_pure_ok s M m : wf_ops (ops s) -> radian s = false -> weights s <> [] ->
  Forall (fun v => length v = residual_size (r_kind s) (ops s)) (effective s) ->
  (forall i, (i < residual_size (r_kind s) (ops s))%nat -> 0 <= product_at (effective s) i) ->
  length (diff s M m) = nC (ops s) ->
  call_pure s M m = Ok (measure (effective s) (kernel (r_kind s) (ops s) (diff s M m))).
Proof.
  intros WF R Hne HF HP L. unfold call_pure. destruct (compute_W_ok s _ Hne HF HP) as (w & -> & Lw & Hw). cbn [bind].
  rewrite f_pure_ok by assumption. cbn [bind]. pose proof (k_len (r_kind s) (ops s) _ WF L) as Lk. rewrite Lw, Lk, Nat.eqb_refl.
  f_equal. eapply weighted_sq; eassumption.
Qed.
(** sizes of registered weights *)
Lemma dict_set_forall (P : nat * vec -> Prop) d k v : Forall P d -> P (k, v) -> Forall P (dict_set d k v).
Proof.
  intros H Hv. induction H as [|[k' v'] d Hp H IH]; cbn; [repeat constructor; assumption|]. destruct (Nat.eqb k k'); constructor; assumption.
Qed.
Lemma set_loop_forall s : forall kvs d, Forall (fun kv => legal_size s (snd kv)) d -> Forall (fun kv => legal_size s (snd kv)) (fst (set_loop s kvs d)).
Proof.
  induction kvs as [|[k w] kvs IH]; intros d H; [exact H|]. cbn [set_loop]. destruct (check_weight s w) as [v|e] eqn:E; [|exact H].
  apply IH. apply dict_set_forall; [assumption|]. cbn. destruct w as [v'|]; [|discriminate]. cbn in E. destruct (existsb _ _) eqn:X; [|discriminate].
  injection E as <-. apply legal_iff. assumption.
Qed.
Definition sized (s : reg) : Prop := Forall (fun kv => legal_size s (snd kv)) (weights s).
Lemma sized_frame s s' : frame s s' -> weights s' = weights s -> sized s -> sized s'.
Proof.
  intros F W H. unfold sized. rewrite W. eapply Forall_impl; [|exact H]. intros kv. unfold legal_size. rewrite (frame_ops _ _ F). destruct F as (-> & _). auto.
Qed.
Lemma set_sized s kvs : sized s -> sized (fst (set_weights s kvs)).
Proof.
  intros H. destruct (set_weights_spec s kvs) as (F & W & _). unfold sized. rewrite W.
  eapply Forall_impl; [|apply (set_loop_forall s kvs _ H)]. intros kv. unfold legal_size. rewrite (frame_ops _ _ F). destruct F as (-> & _). auto.
Qed.
Lemma set_active_sized s a : sized s -> sized (fst (set_active s a)).
Proof.
  intros H. unfold set_active, mesh_set_active.
  assert (K : forall s1, sized s1 \/ a <> None -> sized (fst (match a with
      | None => (s1, None)
      | Some _ => let s2 := with_weights s1 [] None in
          if existsb (fun kv => Nat.eqb 0 (fst kv)) (weights s1) then set_weights s2 [(O, WArr (vol (ops s2)))] else (s2, None)
      end))).
  { intros s1 [HI|N]; destruct a as [a|]; try congruence; cbv zeta; try exact HI;
    (destruct (existsb _ (weights s1)); [apply set_sized; constructor|constructor]). }
  destruct (mesh_active s) as [b|] eqn:E.
  - destruct (eq_active (Some b) a); [apply K; auto|exact H].
  - apply K. destruct a; [right; discriminate|left]. destruct s. cbn in *. subst. exact H.
Qed.
Lemma careful_sized l : forall ev s, sized s -> careful ev s l -> sized (rrun s l).
Proof.
  induction l as [|o l IH]; intros ev s H C; [exact H|]. unfold rrun. cbn [fold_left]. fold (rrun (rstep s o) l).
  destruct o; cbn [careful] in C.
  - destruct C as [_ C]. apply (IH ev); [apply set_sized; assumption|exact C].
  - apply (IH ev); [|exact C]. cbn [rstep]. unfold remove_weights. destruct (dict_get (weights s) k); [|exact H]. cbn [fst].
    unfold sized in *. cbn. apply Forall_forall. intros kv Hkv. apply filter_In in Hkv as [Hkv _]. rewrite Forall_forall in H. exact (H kv Hkv).
  - apply (IH true); [|exact C]. destruct (call_frame s M m) as [F W]. eapply sized_frame; eassumption.
  - apply (IH true); [|exact C]. destruct (deriv_frame s M m) as [F W]. eapply sized_frame; eassumption.
  - apply (IH true); [|exact C]. destruct (deriv2_frame s M m v) as [F W]. eapply sized_frame; eassumption.
  - destruct C as [_ C]. apply (IH false); [apply set_active_sized; assumption|exact C].
  - contradiction.
Qed.
Lemma run_shape l : forall s, r_kind (rrun s l) = r_kind s /\ mesh_ops (rrun s l) = mesh_ops s /\ radian (rrun s l) = radian s.
Proof.
  induction l as [|o l IH]; intros s; [auto|]. unfold rrun. cbn [fold_left]. fold (rrun (rstep s o) l). destruct (IH (rstep s o)) as (-> & -> & ->).
  assert (FF : forall a, r_kind (fst (set_active s a)) = r_kind s /\ mesh_ops (fst (set_active s a)) = mesh_ops s /\ radian (fst (set_active s a)) = radian s).
  { intros a. unfold set_active, mesh_set_active.
    assert (K : forall s1, r_kind s1 = r_kind s -> mesh_ops s1 = mesh_ops s -> radian s1 = radian s -> let r := fst (match a with
      | None => (s1, None)
      | Some _ => let s2 := with_weights s1 [] None in
          if existsb (fun kv => Nat.eqb 0 (fst kv)) (weights s1) then set_weights s2 [(O, WArr (vol (ops s2)))] else (s2, None)
      end) in r_kind r = r_kind s /\ mesh_ops r = mesh_ops s /\ radian r = radian s).
    { intros s1 K1 K2 K3. destruct a; cbv zeta; [|auto]. destruct (existsb _ (weights s1)); [|auto].
      destruct (set_weights_spec (with_weights s1 [] None) [(O, WArr (vol (ops (with_weights s1 [] None))))]) as ((A1 & A2 & _ & _ & _ & A6) & _).
      rewrite A1, A2, A6. auto. }
    destruct (mesh_active s); [|apply K; reflexivity]. destruct (eq_active _ a); [apply K; reflexivity|auto]. }
  destruct o; cbn [rstep].
  - destruct (set_weights_spec s kvs) as ((A1 & A2 & _ & _ & _ & A6) & _). auto.
  - destruct (remove_spec s k 0) as ((A1 & A2 & _ & _ & _ & A6) & _). auto.
  - destruct (call_frame s M m) as ((A1 & A2 & _ & _ & _ & A6) & _). auto.
  - destruct (deriv_frame s M m) as ((A1 & A2 & _ & _ & _ & A6) & _). auto.
  - destruct (deriv2_frame s M m v) as ((A1 & A2 & _ & _ & _ & A6) & _). auto.
  - apply FF.
  - unfold mesh_set_active. destruct (mesh_active s); [destruct (eq_active _ a); auto|auto].
Qed.
Lemma sized_effective s : wf_ops (ops s) -> sized s -> (r_kind s = Smooth2 -> Forall (fun kv => length (snd kv) = nC (ops s)) (weights s)) ->
  Forall (fun v => length v = residual_size (r_kind s) (ops s)) (effective s).
Proof.
  intros (La & _) H H2. unfold sized, legal_size, effective, residual_size in *. destruct (r_kind s).
  - apply Forall_map. exact H.
  - rewrite Forall_map, Forall_map. eapply Forall_impl; [|exact H]. cbn. intros [k v] K. cbn in *.
    destruct (Nat.eqb (length v) (nC (ops s))) eqn:E; [rewrite mv_length; assumption|]. apply Nat.eqb_neq in E. destruct K; congruence.
  - apply Forall_map. apply H2. reflexivity.
Qed.
Lemma new_sized k mo a r ris rad : sized (fst (reg_new k mo a r ris rad)).
Proof. unfold reg_new. apply set_sized. constructor. Qed.
Lemma new_shape k mo a r ris rad : r_kind (fst (reg_new k mo a r ris rad)) = k /\ mesh_ops (fst (reg_new k mo a r ris rad)) = mo /\ radian (fst (reg_new k mo a r ris rad)) = rad.
Proof.
  unfold reg_new. destruct (set_weights_spec (mkReg k mo a [] None None r ris rad) [(O, WArr (vol (mo a)))]) as ((A1 & A2 & _ & _ & _ & A6) & _). auto.
Qed.
Lemma reachable_ok s : reachable s -> Inv s /\ wf_ops (ops s) /\ sized s.
Proof.
  intros (k & mo & a & r & ris & rad & l & WF & C & ->). destruct (new_inv k mo a r ris rad) as [HI HG].
  destruct (run_shape l (fst (reg_new k mo a r ris rad))) as (K1 & K2 & K3). destruct (new_shape k mo a r ris rad) as (N1 & N2 & N3).
  split; [apply (careful_inv l false); auto|]. split; [unfold ops; rewrite K2, N2; apply WF|].
  apply (careful_sized l false); [apply new_sized|exact C].
Qed.
Lemma usable_ok s : reachable s -> usable s -> Inv s /\ wf_ops (ops s) /\
  exists w, compute_W s = Ok w /\ length w = residual_size (r_kind s) (ops s) /\
    forall i, (i < residual_size (r_kind s) (ops s))%nat -> nth i w 0 * nth i w 0 = product_at (effective s) i.
Proof.
  intros HR (Hne & H2 & HP). destruct (reachable_ok s HR) as (HI & WF & HS). split; [assumption|]. split; [assumption|].
  apply compute_W_ok; [assumption|apply sized_effective; assumption|assumption].
Qed.
Lemma c41_value s M m : reachable s -> usable s -> radian s = false -> length (diff s M m) = nC (ops s) ->
  fst (call s M m) = Ok (measure (effective s) (kernel (r_kind s) (ops s) (diff s M m))).
Proof.
  intros HR HU Rd L. destruct (reachable_ok s HR) as (HI & WF & HS). destruct HU as (Hne & H2 & HP).
  destruct (call_inv s M m HI) as [_ ->]. apply call_pure_ok; try assumption. apply sized_effective; assumption.
Qed.
