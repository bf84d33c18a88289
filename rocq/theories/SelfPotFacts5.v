From Coq Require Import Reals Lra Lia.
From Verif Require Import Py Vec VecDeriv Joint PfFacts3 PfFacts4 MetaFacts SelfPot SpecSelfPot.
From Verif Require ProbeFacts.
Local Open Scope R_scope.

Lemma combine_map_r {A B} (w : A -> B) l : combine l (map w l) = map (fun x => (x, w x)) l.
Proof. induction l as [|x l IH]; cbn; [reflexivity|]. rewrite IH. reflexivity. Qed.
Lemma vmul_map {A} (f g : A -> R) l : vmul (map f l) (map g l) = map (fun x => f x * g x) l.
Proof. induction l as [|x l IH]; cbn; [reflexivity|]. fold (vmul (map f l) (map g l)). rewrite IH. reflexivity. Qed.
Lemma is_cell_pick o c x : is_cell o c * x = match o with Some k => if Nat.eqb k c then x else 0 | None => 0 end.
Proof. destruct o as [k|]; cbn; [destruct (Nat.eqb k c)|]; ring. Qed.
Lemma sum_is_cell n o (g : nat -> R) : vsum (map (fun c => g c * is_cell o c) (seq 0 n)) = match o with Some k => if Nat.ltb k n then g k else 0 | None => 0 end.
Proof.
  destruct o as [k|].
  - destruct (Nat.ltb_spec k n) as [H|H].
    + rewrite (ProbeFacts.vsum_single (fun c => g c * is_cell (Some k) c) (seq 0 n) k).
      * cbn. rewrite Nat.eqb_refl. ring.
      * apply seq_NoDup.
      * apply in_seq. lia.
      * intros j _ N. cbn. destruct (Nat.eqb_spec k j); [congruence|ring].
    + apply ProbeFacts.vsum_zero. intros j Hj. apply in_seq in Hj. cbn. destruct (Nat.eqb_spec k j); [lia|ring].
  - apply ProbeFacts.vsum_zero. intros j _. cbn. ring.
Qed.
Lemma vsum_scale {A} (k : R) (f : A -> R) l : vsum (map (fun x => k * f x) l) = k * vsum (map f l).
Proof. induction l as [|x l IH]; cbn; [ring|]. rewrite IH. ring. Qed.

Section M.
  Context (M : fvmesh) (OK : mesh_ok M).
  Let n := nC M.
  Lemma vol_pos c : (c < n)%nat -> 0 < vol M c.
  Proof. intros H. destruct OK as [F _]. rewrite Forall_forall in F. apply F. apply nth_In. exact H. Qed.
  Lemma face_ok f : In f (v_faces M) -> 0 < f_area f /\ (f_dir f < v_dim M)%nat /\ in_mesh M (f_lo f) /\ in_mesh M (f_hi f) /\ f_lo f <> f_hi f.
  Proof. intros H. destruct OK as [_ F]. rewrite Forall_forall in F. apply F. exact H. Qed.
  Lemma outflow_eq w c : outflow M w c = vsum (map (fun f => f_area f * (is_cell (f_lo f) c - is_cell (f_hi f) c) * w f) (v_faces M)).
  Proof. unfold outflow. apply vsum_ext_in. intros f _. rewrite <- !is_cell_pick. ring. Qed.
  Lemma div_nth w c : (c < n)%nat -> vol M c * nth c (div M (map w (v_faces M))) 0 = outflow M w c.
  Proof.
    intros H. unfold div. fold n. rewrite combine_map_r. erewrite map_ext by (intros; rewrite map_map; reflexivity).
    rewrite (nth_indep _ 0 ((fun c => vsum (map (fun x => f_area (fst (x, w x)) * (is_cell (f_lo (fst (x, w x))) c - is_cell (f_hi (fst (x, w x))) c) * snd (x, w x)) (v_faces M)) / vol M c) 0%nat)) by (rewrite map_length, seq_length; exact H).
    rewrite (map_nth (fun c => vsum (map (fun x => f_area (fst (x, w x)) * (is_cell (f_lo (fst (x, w x))) c - is_cell (f_hi (fst (x, w x))) c) * snd (x, w x)) (v_faces M)) / vol M c)).
    rewrite seq_nth by exact H. cbn [Nat.add fst snd]. rewrite outflow_eq. pose proof (vol_pos c H). field. lra.
  Qed.
  Lemma outflow_ext w w' c : (forall f, In f (v_faces M) -> w f = w' f) -> outflow M w c = outflow M w' c.
  Proof. intros H. rewrite !outflow_eq. apply vsum_ext_in. intros f Hf. rewrite H by exact Hf. reflexivity. Qed.
  (** summation by parts *)
  Lemma by_parts w g : vsum (map (fun c => g c * outflow M w c) (seq 0 n)) = vsum (map (fun f => f_area f * w f * (match f_lo f with Some a => g a | None => 0 end - match f_hi f with Some a => g a | None => 0 end)) (v_faces M)).
  Proof.
    erewrite vsum_ext_in; [|intros c _; rewrite outflow_eq, <- vsum_scale; reflexivity].
    rewrite (vsum_swap (fun c f => g c * (f_area f * (is_cell (f_lo f) c - is_cell (f_hi f) c) * w f))). apply vsum_ext_in. intros f Hf.
    erewrite vsum_ext_in; [|intros c _; instantiate (1 := fun c => (f_area f * w f) * (g c * is_cell (f_lo f) c) + (- (f_area f * w f)) * (g c * is_cell (f_hi f) c)); cbv beta; ring].
    rewrite vsum_map_add, !vsum_scale, !sum_is_cell. destruct (face_ok f Hf) as (_ & _ & L & H & _).
    destruct (f_lo f) as [a|], (f_hi f) as [b|]; cbn in L, H; repeat match goal with |- context [Nat.ltb ?x ?y] => destruct (Nat.ltb_spec x y); [|unfold n in *; lia] end; ring.
  Qed.
  Lemma total w : vsum (map (outflow M w) (seq 0 n)) = vsum (map (fun f => outward f * (f_area f * w f)) (v_faces M)).
  Proof.
    erewrite vsum_ext_in; [|intros c _; instantiate (1 := fun c => 1 * outflow M w c); cbv beta; ring]. rewrite (by_parts w (fun _ => 1)). apply vsum_ext_in. intros f _. unfold outward. destruct (f_lo f), (f_hi f); ring.
  Qed.
  Lemma vopp_nth x c : nth c (vopp x) 0 = - nth c x 0.
  Proof. revert c. induction x as [|a x IH]; intros [|c]; cbn; try ring. apply IH. Qed.
  (** the current density of all cells *)
  Lemma through_eq j f : (match f_lo f, f_hi f with Some a, Some b => / 2 * comp M j f a + / 2 * comp M j f b | Some a, None | None, Some a => comp M j f a | None, None => 0 end) = through (component M j) f.
  Proof. unfold through, component, comp. destruct (f_lo f), (f_hi f); try reflexivity. field. Qed.
  Lemma c88_current c j : (c < n)%nat -> vol M c * nth c (current_map M None j) 0 = - outflow M (through (component M j)) c.
  Proof.
    intros H. cbn [current_map]. rewrite vopp_nth. unfold cell_to_face. rewrite (map_ext _ _ (through_eq j)). rewrite <- (div_nth _ c H). ring.
  Qed.
  Lemma c88_total j : vsum (map (fun c => vol M c * nth c (current_map M None j) 0) (seq 0 n)) = - vsum (map (fun f => outward f * (f_area f * through (component M j) f)) (v_faces M)).
  Proof.
    erewrite vsum_ext_in; [|intros c Hc; apply in_seq in Hc; rewrite c88_current by lia; instantiate (1 := fun c => -1 * outflow M (through (component M j)) c); cbv beta; ring].
    rewrite vsum_scale, total. ring.
  Qed.
  (** active cells *)
  Lemma spread_nth act : forall j i, nth i (spread act j) 0 = if nth i act false then nth (rank act i) j 0 else 0.
  Proof.
    induction act as [|b act IH]; intros j i; [destruct i; reflexivity|]. destruct b; cbn [spread].
    - destruct j as [|x j]; (destruct i as [|i]; cbn [nth]; [reflexivity|]); rewrite IH; unfold rank; cbn [firstn filter length nth]; [|reflexivity]. destruct (nth i act false); [|reflexivity]. destruct (length (filter (fun b => b) (firstn i act))); reflexivity.
    - destruct i as [|i]; [reflexivity|]. cbn [nth]. rewrite IH. reflexivity.
  Qed.
  Lemma comps_nth a d k c : (c < length a)%nat -> (k < d)%nat -> nth (k * length a + c) (concat (repeat a d)) false = nth c a false /\ rank (concat (repeat a d)) (k * length a + c) = (k * length (filter (fun b => b) a) + rank a c)%nat.
  Proof.
    intros Hc. revert k. induction d as [|d IH]; intros k Hk; [lia|]. cbn [repeat concat]. destruct k as [|k].
    - cbn [Nat.mul Nat.add]. split; [apply app_nth1; exact Hc|]. unfold rank. rewrite firstn_app. replace (c - length a)%nat with 0%nat by lia. rewrite app_nil_r. reflexivity.
    - destruct (IH k ltac:(lia)) as [E1 E2]. replace (S k * length a + c)%nat with (length a + (k * length a + c))%nat by lia. split; [rewrite app_nth2_plus; exact E1|].
      unfold rank in *. rewrite firstn_app. replace (length a + (k * length a + c) - length a)%nat with (k * length a + c)%nat by lia. rewrite firstn_all2 by lia. rewrite filter_app, app_length, E2. lia.
  Qed.
  Context (act : list bool) (LA : length act = n).
  Lemma comp_active j f c : (f_dir f < v_dim M)%nat -> (c < n)%nat -> comp M (spread (comps M act) j) f c = active_component act j (f_dir f) c.
  Proof.
    intros Hd Hc. unfold comp, comps, active_component. rewrite spread_nth. fold n. rewrite <- LA. destruct (comps_nth act (v_dim M) (f_dir f) c) as [-> ->]; [lia|exact Hd|]. reflexivity.
  Qed.
  Let ind : vec := map (fun b => if b : bool then 1 else 0) act.
  Lemma ind_nth c : nth c ind 0 = if nth c act false then 1 else 0.
  Proof. unfold ind. exact (map_nth (fun b : bool => if b then 1 else 0) act false c). Qed.
  Definition open_face (f : face) : R := if Req_EM_T (f_area f * (side M ind (f_lo f) - side M ind (f_hi f))) 0 then 1 else 0.
  Definition carried (j : vec) (f : face) : R := open_face f * through (active_component act j) f.
  Lemma current_act_eq j : current_map M (Some act) j = vopp (div M (map (carried j) (v_faces M))).
  Proof.
    cbn [current_map]. do 2 f_equal. unfold closed, divT, cell_to_face. fold ind. rewrite !map_map, vmul_map. apply map_ext_in. intros f Hf. destruct (face_ok f Hf) as (_ & D & L & H & _). unfold carried, open_face. f_equal.
    - destruct (Req_EM_T _ 0); reflexivity.
    - unfold through. destruct (f_lo f) as [a|], (f_hi f) as [b|]; cbn in L, H; rewrite ?comp_active by assumption; try reflexivity. field.
  Qed.
  Lemma side_pos o : in_mesh M o -> is_active act o = true -> side M ind o > 0.
  Proof. intros L A. destruct o as [c|]; [|discriminate]. cbn in *. rewrite ind_nth, A. pose proof (vol_pos c L). apply Rdiv_lt_0_compat; lra. Qed.
  Lemma side_zero o : is_active act o = false -> side M ind o = 0.
  Proof. intros A. destruct o as [c|]; [|reflexivity]. cbn in *. rewrite ind_nth, A. unfold Rdiv. ring. Qed.
  Lemma not_active j k c : nth c act false = false -> active_component act j k c = 0.
  Proof. intros E. unfold active_component. rewrite E. reflexivity. Qed.
  (** a face that does not join two active cells carries nothing *)
  Lemma carried_zero j f : In f (v_faces M) -> is_active act (f_lo f) && is_active act (f_hi f) = false -> carried j f = 0.
  Proof.
    intros Hf E. destruct (face_ok f Hf) as (Ha & _ & L & H & _). unfold carried, open_face. destruct (is_active act (f_lo f)) eqn:EL, (is_active act (f_hi f)) eqn:EH; try discriminate E.
    - pose proof (side_pos _ L EL). rewrite (side_zero _ EH). destruct (Req_EM_T _ 0) as [Z|]; [|ring]. apply Rmult_integral in Z. lra.
    - pose proof (side_pos _ H EH). rewrite (side_zero _ EL). destruct (Req_EM_T _ 0) as [Z|]; [|ring]. apply Rmult_integral in Z. lra.
    - assert (Z : through (active_component act j) f = 0). { unfold through. destruct (f_lo f) as [a|], (f_hi f) as [b|]; cbn in EL, EH; rewrite ?not_active by assumption; lra. } rewrite Z. ring.
  Qed.
  Lemma flow_act c j : (c < n)%nat -> vol M c * nth c (current_map M (Some act) j) 0 = - outflow M (carried j) c.
  Proof. intros H. rewrite current_act_eq, vopp_nth. rewrite <- (div_nth _ c H). ring. Qed.
  Lemma c88_conserved j : vsum (map (fun c => vol M c * nth c (current_map M (Some act) j) 0) (seq 0 n)) = 0.
  Proof.
    erewrite vsum_ext_in; [|intros c Hc; apply in_seq in Hc; rewrite flow_act by lia; instantiate (1 := fun c => -1 * outflow M (carried j) c); cbv beta; ring].
    rewrite vsum_scale, total, (ProbeFacts.vsum_zero); [ring|]. intros f Hf. unfold outward. destruct (f_lo f) eqn:E1, (f_hi f) eqn:E2; try ring; rewrite carried_zero by (try exact Hf; rewrite E1, E2; cbn; rewrite ?andb_false_r; reflexivity); ring.
  Qed.
  Lemma c88_inactive j c : (c < n)%nat -> nth c act false = false -> nth c (current_map M (Some act) j) 0 = 0.
  Proof.
    intros H A. pose proof (flow_act c j H) as E. rewrite outflow_eq in E. rewrite ProbeFacts.vsum_zero in E.
    - pose proof (vol_pos c H). assert (Z : vol M c * nth c (current_map M (Some act) j) 0 = 0) by lra. apply Rmult_integral in Z. lra.
    - intros f Hf. destruct (is_active act (f_lo f) && is_active act (f_hi f)) eqn:EA; [|rewrite carried_zero by assumption; ring]. apply andb_true_iff in EA. destruct EA as [E1 E2].
      assert (Z : forall o, is_active act o = true -> is_cell o c = 0). { intros [k|] Ek; [|reflexivity]. cbn in *. destruct (Nat.eqb_spec k c); [congruence|reflexivity]. } rewrite !Z by assumption. ring.
  Qed.
  Lemma c88_uniform j c : (c < n)%nat -> (forall a b, (a < n)%nat -> (b < n)%nat -> vol M a = vol M b) -> vol M c * nth c (current_map M (Some act) j) 0 = - outflow M (inside act j) c.
  Proof.
    intros Hc U. rewrite flow_act by exact Hc. f_equal. apply outflow_ext. intros f Hf. unfold inside. destruct (is_active act (f_lo f) && is_active act (f_hi f)) eqn:EA; [|apply carried_zero; assumption].
    apply andb_true_iff in EA. destruct EA as [E1 E2]. destruct (face_ok f Hf) as (Ha & _ & L & H & _). unfold carried, open_face. destruct (f_lo f) as [a|] eqn:F1; [|discriminate]. destruct (f_hi f) as [b|] eqn:F2; [|discriminate].
    cbn in E1, E2, L, H. cbn [side]. rewrite !ind_nth, E1, E2. rewrite (U a b L H). destruct (Req_EM_T _ 0) as [|N]; [ring|]. exfalso. apply N. ring.
  Qed.
End M.
Section H.
  Context (M : fvmesh) (OK : mesh_ok M) (L h : vec) (LL : length L = nC M) (PL : Forall (fun x => 0 < x) L) (LH : length h = nC M).
  Let n := nC M.
  Lemma L_pos c : (c < n)%nat -> 0 < nth c L 0.
  Proof. intros H. rewrite Forall_forall in PL. apply PL. apply nth_In. unfold n in H. lia. Qed.
  Lemma vmul_nth_in (a b : vec) c : (c < length a)%nat -> (c < length b)%nat -> nth c (vmul a b) 0 = nth c a 0 * nth c b 0.
  Proof. revert b c. induction a as [|x a IH]; intros [|y b] [|c] H1 H2; cbn in *; try lia; [reflexivity|]. apply IH; lia. Qed.
  Lemma side_vh o : in_mesh M o -> side M (vmul (v_vol M) h) o = at_cell h o.
  Proof. intros I. destruct o as [c|]; [|reflexivity]. cbn in *. rewrite vmul_nth_in by (unfold nC in *; lia). fold (vol M c). pose proof (vol_pos M OK c I). field. lra. Qed.
  Lemma half_eq f o : 0 < f_area f -> in_mesh M o -> half M L o = f_area f * half_resistance M L f o.
  Proof. intros A I. destruct o as [c|]; cbn in *; [|ring]. pose proof (L_pos c I). field. lra. Qed.
  Lemma res_nonneg f o : 0 < f_area f -> in_mesh M o -> 0 <= half_resistance M L f o /\ (o <> None -> 0 < half_resistance M L f o).
  Proof.
    intros A I. destruct o as [c|]; cbn in *; [|split; [lra|congruence]]. pose proof (L_pos c I). pose proof (vol_pos M OK c I).
    assert (0 < vol M c / f_area f / 2 / nth c L 0). { apply Rdiv_lt_0_compat; [|assumption]. apply Rdiv_lt_0_compat; [|lra]. apply Rdiv_lt_0_compat; assumption. } split; [lra|auto].
  Qed.
  Lemma res_pos f : In f (v_faces M) -> 0 < half_resistance M L f (f_lo f) + half_resistance M L f (f_hi f).
  Proof.
    intros Hf. destruct (face_ok M OK f Hf) as (A & _ & I1 & I2 & N). destruct (res_nonneg f _ A I1) as [P1 Q1]. destruct (res_nonneg f _ A I2) as [P2 Q2].
    destruct (f_lo f); [specialize (Q1 ltac:(discriminate)); lra|]. destruct (f_hi f); [specialize (Q2 ltac:(discriminate)); lra|]. congruence.
  Qed.
  Lemma head_eq : head_map M L h = div M (map (driven M L h) (v_faces M)).
  Proof.
    unfold head_map. f_equal. unfold mf_inv, divT. rewrite vmul_map. apply map_ext_in. intros f Hf. destruct (face_ok M OK f Hf) as (A & _ & I1 & I2 & _). pose proof (res_pos f Hf) as P.
    rewrite !side_vh by assumption. rewrite (half_eq f _ A I1), (half_eq f _ A I2). unfold driven. rewrite <- Rmult_plus_distr_l. set (r := half_resistance M L f (f_lo f) + half_resistance M L f (f_hi f)) in *. clearbody r. field. split; lra.
  Qed.
  Lemma c88_head c : (c < n)%nat -> vol M c * nth c (head_map M L h) 0 = outflow M (driven M L h) c.
  Proof. intros H. rewrite head_eq. apply div_nth; assumption. Qed.
  Lemma c88_head_sign : 0 <= vsum (map (fun c => nth c h 0 * (vol M c * nth c (head_map M L h) 0)) (seq 0 n)).
  Proof.
    erewrite vsum_ext_in; [|intros c Hc; apply in_seq in Hc; rewrite c88_head by lia; reflexivity]. rewrite (by_parts M OK _ (fun c => nth c h 0)).
    apply vsum_nonneg. intros x Hx. apply in_map_iff in Hx. destruct Hx as (f & <- & Hf). destruct (face_ok M OK f Hf) as (A & _). pose proof (res_pos f Hf) as P.
    fold (at_cell h (f_lo f)) (at_cell h (f_hi f)). unfold driven. set (dh := at_cell h (f_lo f) - at_cell h (f_hi f)). set (r := half_resistance M L f (f_lo f) + half_resistance M L f (f_hi f)) in *.
    replace (f_area f * (dh / r) * dh) with (f_area f * (dh * dh) * / r) by (unfold Rdiv; ring). apply Rmult_le_pos; [apply Rmult_le_pos; [lra|nra]|]. left. apply Rinv_0_lt_compat. exact P.
  Qed.
End H.
Lemma row2_ok a b : 0 < a -> 0 < b -> mesh_ok (row2 a b).
Proof.
  intros A B. split; [repeat constructor; assumption|]. unfold row2, v_faces. repeat (constructor; [split; [cbn; lra|split; [cbn; lia|split; [first [exact Logic.I|apply Nat.ltb_lt; reflexivity]|split; [first [exact Logic.I|apply Nat.ltb_lt; reflexivity]|discriminate]]]]|]). constructor.
Qed.
Lemma row3_ok : mesh_ok row3.
Proof.
  split; [repeat constructor; lra|]. unfold row3, v_faces. repeat (constructor; [split; [cbn; lra|split; [cbn; lia|split; [first [exact Logic.I|apply Nat.ltb_lt; reflexivity]|split; [first [exact Logic.I|apply Nat.ltb_lt; reflexivity]|discriminate]]]]|]). constructor.
Qed.
Lemma c88_unequal a b j : 0 < a -> 0 < b -> a <> b -> length j = 2%nat ->
  current_map (row2 a b) (Some [true; true]) j = [0; 0] /\ outflow (row2 a b) (inside [true; true] j) 0 = (nth 0 j 0 + nth 1 j 0) / 2.
Proof.
  intros A B N Lj. destruct j as [|x [|y [|]]]; try discriminate Lj. split.
  - rewrite (current_act_eq (row2 a b) (row2_ok a b A B) [true; true] eq_refl).
    assert (Z : forall f, In f (v_faces (row2 a b)) -> carried (row2 a b) [true; true] [x; y] f = 0).
    { intros f Hf. destruct (is_active [true; true] (f_lo f) && is_active [true; true] (f_hi f)) eqn:EA; [|apply carried_zero; [apply row2_ok; assumption|assumption|assumption]].
      cbn in Hf. destruct Hf as [<-|[<-|[<-|[]]]]; try discriminate EA. unfold carried, open_face. cbn [f_area f_lo f_hi side nth vol row2 v_vol map].
      destruct (Req_EM_T _ 0) as [Z|]; [|ring]. exfalso. apply N. unfold Rdiv in Z. rewrite !Rmult_1_l in Z. assert (Z2 : / a = / b) by lra. rewrite <- (Rinv_inv a), Z2, Rinv_inv; reflexivity. }
    rewrite (map_ext_in _ (fun _ => 0) _ Z). unfold div, nC. cbn -[Rplus Rmult Rdiv Ropp Rminus IZR]. f_equal; [|f_equal]; unfold Rdiv; ring.
  - unfold outflow, inside, through, active_component, rank. cbn -[Rplus Rmult Rdiv Ropp Rminus IZR]. unfold Rdiv. ring.
Qed.
Lemma c88_head_wrong : head_map row3 [1; 1; 1] [0; 1; 0] = [-1; 2; -1] /\ map (fun c => - outflow row3 (driven row3 [1; 1; 1] [0; 1; 0]) c) [0; 1; 2]%nat = [1; -2; 1].
Proof.
  rewrite (head_eq row3 row3_ok) by (try reflexivity; repeat constructor; lra). unfold div, outflow, driven, half_resistance, at_cell, vol, nC. split.
  - cbn -[Rplus Rmult Rdiv Ropp Rminus IZR]. f_equal; [field|f_equal; [field|f_equal; field]].
  - cbn -[Rplus Rmult Rdiv Ropp Rminus IZR]. f_equal; [field|f_equal; [field|f_equal; field]].
Qed.
