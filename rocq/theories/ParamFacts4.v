(** Documented formulas, the history of the layer map, and the spline map. *)
From Coq Require Import Lia Lra.
From Verif Require Import Py Vec VecDeriv Param SpecParam ParamFacts ParamFacts2 ParamFacts3.
Local Open Scope R_scope.

Lemma atan_mono x y : x <= y -> atan x <= atan y.
Proof. intros H. destruct (Req_dec x y); [subst; lra|]. apply Rlt_le, atan_increasing. lra. Qed.

(** The code exceeds the documented indicator by (1-A)(1-B). *)
Lemma layer_excess s z m : 0 <= s -> 0 <= nth 3 m 0 ->
  exists e, 0 <= e <= 1 / 4 /\ layer_cell s z m = layer_documented s z m + (nth 1 m 0 - nth 0 m 0) * e.
Proof.
  intros Hs Ht. unfold layer_cell, layer_cont, layer_documented, atanLayer, at_.
  set (c := nth 2 m 0). set (t := nth 3 m 0) in *.
  set (A := atanfct (z - (c - t / 2)) s). rewrite (atanfct_opp (z - (c + t / 2)) s). set (B := atanfct (z - (c + t / 2)) s).
  assert (RA : 0 < A < 1) by apply atanfct_range. assert (RB : 0 < B < 1) by apply atanfct_range.
  assert (AB : B <= A).
  { unfold A, B, atanfct. assert (atan (s * (z - (c + t / 2))) <= atan (s * (z - (c - t / 2)))).
    { apply atan_mono. apply Rmult_le_compat_l; lra. }
    assert (0 < / PI) by (apply Rinv_0_lt_compat, PI_RGT_0). unfold Rdiv at 1 4.
    assert (atan (s * (z - (c + t / 2))) * / PI <= atan (s * (z - (c - t / 2))) * / PI) by (apply Rmult_le_compat_r; lra). lra. }
  exists ((1 - A) * B). split; [split|].
  - apply Rmult_le_pos; lra.
  - assert ((1 - A) * B <= (1 - B) * B) by (apply Rmult_le_compat_r; lra).
    assert (0 <= (B - 1 / 2) * (B - 1 / 2)) by apply Rle_0_sqr. lra.
  - assert (EA : atan (s * (z - c + t / 2)) = (A - 1 / 2) * PI).
    { unfold A, atanfct. replace (z - (c - t / 2)) with (z - c + t / 2) by ring. field. apply PI_nz. }
    assert (EB : atan (s * (z - c - t / 2)) = (B - 1 / 2) * PI).
    { unfold B, atanfct. replace (z - (c + t / 2)) with (z - c - t / 2) by ring. field. apply PI_nz. }
    rewrite EA, EB. field. apply PI_nz.
Qed.

Lemma layer_not_documented : layer_cell 1 0 [0; 1; 0; 0] <> layer_documented 1 0 [0; 1; 0; 0].
Proof.
  unfold layer_cell, layer_cont, layer_documented, atanLayer, atanfct, at_. cbn [nth].
  replace (1 * (0 - (0 - 0 / 2))) with 0 by field. replace (-1 * (0 - (0 + 0 / 2))) with 0 by field.
  replace (1 * (0 - 0 + 0 / 2)) with 0 by field. replace (1 * (0 - 0 - 0 / 2)) with 0 by field.
  replace (- (1) * (0 - (0 + 0 / 2))) with 0 by field.
  rewrite atan_0. intros E. unfold Rdiv in E. rewrite !Rmult_0_l in E. lra.
Qed.

Lemma circle_sides a X Y m : 0 < a -> nth 0 m 0 <> nth 1 m 0 ->
  let d := sqrt ((X - nth 2 m 0) ^ 2 + (Y - nth 3 m 0) ^ 2) in let v := circle_cell false a X Y m in
  (d < nth 4 m 0 -> Rabs (v - nth 0 m 0) < Rabs (v - nth 1 m 0)) /\
  (nth 4 m 0 < d -> Rabs (v - nth 1 m 0) < Rabs (v - nth 0 m 0)).
Proof.
  intros Ha N d v. unfold v, circle_cell, circle_dist, at_. cbn [phys]. fold d.
  set (p := nth 0 m 0) in *. set (q := nth 1 m 0) in *. set (r := nth 4 m 0).
  change (atan (a * (d - r)) / PI + 1 / 2) with (atanfct (d - r) a).
  pose proof (atanfct_range (d - r) a) as RA.
  assert (IP : 0 < / PI) by (apply Rinv_0_lt_compat, PI_RGT_0).
  assert (Q : 0 < Rabs (q - p)) by (apply Rabs_pos_lt; lra).
  set (A := atanfct (d - r) a) in *.
  replace (p + (q - p) * A - p) with (A * (q - p)) by ring.
  replace (p + (q - p) * A - q) with (- ((1 - A) * (q - p))) by ring. rewrite Rabs_Ropp, !Rabs_mult.
  rewrite (Rabs_right A), (Rabs_right (1 - A)) by lra.
  split; intros H.
  - assert (A < 1 / 2).
    { unfold A, atanfct. assert (atan (a * (d - r)) < 0).
      { rewrite <- atan_0. apply atan_increasing. assert (0 < a * (r - d)) by (apply Rmult_lt_0_compat; lra). lra. }
      assert (atan (a * (d - r)) * / PI < 0 * / PI) by (apply Rmult_lt_compat_r; lra). unfold Rdiv at 1. lra. }
    apply Rmult_lt_compat_r; lra.
  - assert (1 / 2 < A).
    { unfold A, atanfct. assert (0 < atan (a * (d - r))).
      { rewrite <- atan_0. apply atan_increasing. apply Rmult_lt_0_compat; lra. }
      assert (0 * / PI < atan (a * (d - r)) * / PI) by (apply Rmult_lt_compat_r; lra). unfold Rdiv at 2. lra. }
    apply Rmult_lt_compat_r; lra.
Qed.

(** History of the layer map. *)
Lemma mask_spec {A} b (l : list A) : mask b l = map snd (filter fst (combine b l)).
Proof. revert l. induction b as [|[] b IH]; intros [|a l]; cbn; try reflexivity; [f_equal; apply IH|apply IH]. Qed.

Lemma column_spec k act centers : column k act centers = map (fun r => nth k r 0) (active_rows act centers).
Proof. unfold column, active_rows. destruct act as [b|]; [rewrite mask_spec|]; reflexivity. Qed.

Definition elev_cache (o : pobj) : option vec := if Nat.eqb (o_dim o) 2 then o_y o else o_z o.

Lemma get_elev_spec o : o_dim o = 2%nat \/ o_dim o = 3%nat ->
  exists o', get_elev o = Ok (o', match elev_cache o with Some v => v | None => column (o_dim o - 1) (o_active o) (o_centers o) end) /\
    o_dim o' = o_dim o /\ o_centers o' = o_centers o /\ o_slope o' = o_slope o /\ o_active o' = o_active o /\
    elev_cache o' = Some (match elev_cache o with Some v => v | None => column (o_dim o - 1) (o_active o) (o_centers o) end).
Proof.
  intros H. unfold get_elev, get_y, get_z, elev_cache. destruct H as [H|H]; rewrite H; cbn -[column].
  - destruct (o_y o) eqn:E; eexists; (split; [reflexivity|]); cbn -[column]; rewrite ?H; cbn -[column]; auto.
  - destruct (o_z o) eqn:E; eexists; (split; [reflexivity|]); cbn -[column]; rewrite ?H; cbn -[column]; auto.
Qed.

Lemma get_x_spec o : o_dim (fst (get_x o)) = o_dim o /\ o_centers (fst (get_x o)) = o_centers o /\
  o_slope (fst (get_x o)) = o_slope o /\ o_active (fst (get_x o)) = o_active o /\ elev_cache (fst (get_x o)) = elev_cache o.
Proof. unfold get_x. destruct (o_x o); cbn; auto 6. Qed.

(** What an evaluation leaves behind. *)
Lemma pstep_eval o op : o_dim o = 2%nat \/ o_dim o = 3%nat -> is_set op = false ->
  let o' := pstep o op in
  o_dim o' = o_dim o /\ o_centers o' = o_centers o /\ o_slope o' = o_slope o /\ o_active o' = o_active o /\
  elev_cache o' = Some (match elev_cache o with Some v => v | None => column (o_dim o - 1) (o_active o) (o_centers o) end).
Proof.
  intros H Ho. destruct op as [a|m|m]; [discriminate Ho| |]; cbn [pstep].
  - unfold layer_transform. destruct (get_elev_spec o H) as [o' [E [D [C [S [A K]]]]]]. rewrite E. cbn [bind fst]. auto 6.
  - unfold layer_deriv. destruct (get_x_spec o) as [D1 [C1 [S1 [A1 K1]]]]. destruct (get_x o) as [o1 x]. cbn [fst] in *.
    destruct (get_elev_spec o1 ltac:(rewrite D1; exact H)) as [o' [E [D [C [S [A K]]]]]]. rewrite E. cbn [fst].
    rewrite K1, D1, C1, A1 in *. rewrite D, C, S, A, S1. auto 6.
Qed.

Lemma history o l : o_dim o = 2%nat \/ o_dim o = 3%nat ->
  let o' := fold_left pstep l o in
  o_dim o' = o_dim o /\ o_centers o' = o_centers o /\ o_slope o' = o_slope o /\
  match elev_cache o' with Some v => v | None => column (o_dim o' - 1) (o_active o') (o_centers o') end =
  match elev_cache o with Some v => v | None => column (o_dim o - 1) (first_active (o_active o) l) (o_centers o) end.
Proof.
  revert o. induction l as [|op l IH]; intros o H; cbn [fold_left]; [cbn; auto|].
  destruct (is_set op) eqn:Es.
  - destruct op as [a|m|m]; try discriminate Es. cbn [pstep first_active].
    destruct (IH (set_active o a) H) as [D [C [S K]]]. cbn [o_dim o_centers o_slope set_active] in D, C, S.
    cbv zeta. rewrite D, C, S in *. repeat split; try reflexivity.
    rewrite K. reflexivity.
  - pose proof (pstep_eval o op H Es) as [D [C [S [A K]]]].
    destruct (IH (pstep o op) ltac:(rewrite D; exact H)) as [D' [C' [S' K']]]. cbv zeta.
    rewrite D', C', S', D, C, S in *. repeat split; try reflexivity. rewrite K', K.
    destruct op; try discriminate Es; reflexivity.
Qed.

Lemma layer_history dim centers s act l m : dim = 2%nat \/ dim = 3%nat ->
  exists o', layer_transform (fold_left pstep l (new_pobj dim centers s act)) m =
    Ok (o', layer_on s dim (first_active act l) centers m).
Proof.
  intros H. destruct (history (new_pobj dim centers s act) l H) as [D [C [S K]]]. cbv zeta in *.
  set (o := fold_left pstep l (new_pobj dim centers s act)) in *.
  cbn [new_pobj o_dim o_centers o_slope] in D, C, S.
  destruct (get_elev_spec o ltac:(rewrite D; exact H)) as [o' [E [D' [C' [S' _]]]]].
  exists o'. unfold layer_transform. rewrite E. cbn [bind]. f_equal. f_equal.
  rewrite K. replace (elev_cache (new_pobj dim centers s act)) with (@None vec) by (unfold elev_cache; cbn; destruct (Nat.eqb dim 2); reflexivity).
  cbn [new_pobj o_dim o_centers o_active]. rewrite S', S, column_spec, map_map. unfold layer_on. reflexivity.
Qed.

Lemma first_active_sets l1 l2 act : forallb is_set l1 = true -> forallb (fun op => negb (is_set op)) l2 = true ->
  first_active act (l1 ++ l2) = o_active (fold_left pstep l1 (new_pobj 2 [] 0 act)).
Proof.
  intros H1 H2. unfold new_pobj. generalize (@nil vec) as cs, 0 as s. intros cs s.
  revert act. induction l1 as [|op l1 IH]; intros act; cbn [app].
  - cbn [fold_left o_active]. destruct l2 as [|[] l2]; cbn in *; try reflexivity. discriminate H2.
  - cbn in H1. destruct op; try discriminate H1. cbn [first_active fold_left pstep]. apply IH, H1.
Qed.

(** The derivative has one row for each active cell when nothing changed. *)
Lemma layer_deriv_fresh dim centers s act m : dim = 2%nat \/ dim = 3%nat ->
  snd (layer_deriv (new_pobj dim centers s act) m) =
    Ok (map (fun r => layer_row s (nth (dim - 1) r 0) m) (active_rows act centers)).
Proof.
  intros H. unfold layer_deriv. cbn [get_x new_pobj o_x o_active o_centers o_dim o_slope o_y o_z].
  unfold get_elev. destruct H as [-> | ->]; cbn [o_dim get_y get_z o_y o_z o_active o_centers o_slope snd o_x];
  rewrite !column_spec, !map_length, Nat.eqb_refl; cbn [orb]; rewrite map_map; reflexivity.
Qed.

Lemma layer_1d centers s act m l : layer_transform (fold_left pstep l (new_pobj 1 centers s act)) m = Err GenericException.
Proof.
  assert (D : forall l o, o_dim o = 1%nat -> o_dim (fold_left pstep l o) = 1%nat).
  { clear. induction l as [|op l IH]; intros o H; [exact H|]. cbn [fold_left]. apply IH.
    destruct op; cbn [pstep]; [exact H| |].
    - unfold layer_transform, get_elev. rewrite H. exact H.
    - unfold layer_deriv. destruct (get_x_spec o) as [D _]. destruct (get_x o) as [o1 x]. cbn [fst] in *.
      unfold get_elev. rewrite D, H. cbn. congruence. }
  unfold layer_transform, get_elev. rewrite D by reflexivity. reflexivity.
Qed.
