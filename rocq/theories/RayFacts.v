From Verif Require Import Py Vec PropsM LinSim Ray SpecRay.
Local Open Scope R_scope.

Ltac rmm := unfold Rmin, Rmax in *; repeat match goal with
  | |- context[Rle_dec ?a ?b] => destruct (Rle_dec a b)
  | H : context[Rle_dec ?a ?b] |- _ => destruct (Rle_dec a b) end.
(** Lower and upper distance at which one coordinate is within [c0, c1]; an empty pair for
    a coordinate that never is. *)
Definition alo (M o d c0 c1 : R) : R :=
  if Req_EM_T d 0 then (if Rle_dec c0 o then if Rle_dec o c1 then 0 else M + 1 else M + 1) else Rmin ((c0 - o) / d) ((c1 - o) / d).
Definition ahi (M o d c0 c1 : R) : R :=
  if Req_EM_T d 0 then M else Rmax ((c0 - o) / d) ((c1 - o) / d).

Lemma axis_in M o d c0 c1 t : c0 <= c1 -> 0 <= t <= M ->
  (c0 <= o + t * d <= c1 <-> alo M o d c0 c1 <= t <= ahi M o d c0 c1).
Proof.
  intros Hc Ht. unfold alo, ahi. destruct (Req_EM_T d 0) as [->|Hd].
  - rewrite Rmult_0_r, Rplus_0_r. destruct (Rle_dec c0 o), (Rle_dec o c1); split; intros; lra.
  - assert (E0 : c0 = o + ((c0 - o) / d) * d) by (field; auto).
    assert (E1 : c1 = o + ((c1 - o) / d) * d) by (field; auto).
    set (a := (c0 - o) / d) in *. set (b := (c1 - o) / d) in *. clearbody a b.
    destruct (Rlt_dec 0 d) as [P|N].
    + assert (a <= b) by (apply (Rmult_le_reg_r d); lra).
      rewrite Rmin_left, Rmax_right by assumption. split; intros [H1 H2]; split.
      * apply (Rmult_le_reg_r d); lra.
      * apply (Rmult_le_reg_r d); lra.
      * rewrite E0. apply Rplus_le_compat_l, Rmult_le_compat_r; lra.
      * rewrite E1. apply Rplus_le_compat_l, Rmult_le_compat_r; lra.
    + assert (0 < - d) by lra. assert (b <= a) by (apply (Rmult_le_reg_r (- d)); lra).
      rewrite Rmin_right, Rmax_left by assumption. split; intros [H1 H2]; split.
      * apply (Rmult_le_reg_r (- d)); lra.
      * apply (Rmult_le_reg_r (- d)); lra.
      * assert (t * (- d) <= a * (- d)) by (apply Rmult_le_compat_r; lra). lra.
      * assert (b * (- d) <= t * (- d)) by (apply Rmult_le_compat_r; lra). lra.
Qed.

(** The middle two of two sorted pairs. *)
Lemma sort4 a0 a1 b0 b1 : exists s1 s2 e f,
  esort ([Fin a0; Fin a1] ++ [Fin b0; Fin b1]) = [e; Fin s1; Fin s2; f] /\
  s1 <= s2 /\
  ((Rmax (Rmin a0 a1) (Rmin b0 b1) <= Rmin (Rmax a0 a1) (Rmax b0 b1) /\ s1 = Rmax (Rmin a0 a1) (Rmin b0 b1) /\ s2 = Rmin (Rmax a0 a1) (Rmax b0 b1)) \/
   Rmin (Rmax a0 a1) (Rmax b0 b1) < Rmax (Rmin a0 a1) (Rmin b0 b1)).
Proof.
  cbn [esort app einsert ele].
  repeat (match goal with |- context[Rle_dec ?a ?b] => destruct (Rle_dec a b) end; cbn [einsert ele]);
  do 4 eexists; (split; [reflexivity|]); (split; [lra|]); rmm; lra.
Qed.
Lemma sort2l a0 a1 : exists s1 s2, esort ([NInf; PInf] ++ [Fin a0; Fin a1]) = [NInf; Fin s1; Fin s2; PInf] /\ s1 = Rmin a0 a1 /\ s2 = Rmax a0 a1.
Proof.
  cbn [esort app einsert ele].
  repeat (match goal with |- context[Rle_dec ?a ?b] => destruct (Rle_dec a b) end; cbn [einsert ele]);
  do 2 eexists; (split; [reflexivity|]); rmm; lra.
Qed.
Lemma sort2r a0 a1 : exists s1 s2, esort ([Fin a0; Fin a1] ++ [NInf; PInf]) = [NInf; Fin s1; Fin s2; PInf] /\ s1 = Rmin a0 a1 /\ s2 = Rmax a0 a1.
Proof.
  cbn [esort app einsert ele].
  repeat (match goal with |- context[Rle_dec ?a ?b] => destruct (Rle_dec a b) end; cbn [einsert ele]);
  do 2 eexists; (split; [reflexivity|]); rmm; lra.
Qed.

Definition clp (M r : R) : R := eclip M (Fin r).
Lemma clp_range M r : 0 < M -> 0 <= clp M r <= M.
Proof. intros; unfold clp, eclip. destruct (Rlt_dec r 0); cbv zeta; destruct (Rlt_dec M _); lra. Qed.
Lemma clp_mono M r s : 0 < M -> r <= s -> clp M r <= clp M s.
Proof. intros; unfold clp, eclip. destruct (Rlt_dec r 0), (Rlt_dec s 0); cbv zeta; repeat destruct (Rlt_dec M _); lra. Qed.
Lemma clp_max M r : 0 < M -> r <= M -> clp M r = Rmax 0 r.
Proof. intros; unfold clp, eclip. destruct (Rlt_dec r 0); cbv zeta; destruct (Rlt_dec M _); rmm; lra. Qed.
Lemma clp_min M r : 0 < M -> 0 <= r -> clp M r = Rmin M r.
Proof. intros; unfold clp, eclip. destruct (Rlt_dec r 0); cbv zeta; destruct (Rlt_dec M _); rmm; lra. Qed.

(** The result in closed form. *)
Definition cut (lo hi : R) : option R := if Rle_dec lo hi then Some (hi - lo) else None.
Lemma unit_dir Dx Dy M : M = sqrt (Dx * Dx + Dy * Dy) -> M <> 0 -> 0 < M /\ (Dx / M) * (Dx / M) + (Dy / M) * (Dy / M) = 1.
Proof.
  intros E H. assert (0 <= Dx * Dx + Dy * Dy) by nra.
  assert (S : M * M = Dx * Dx + Dy * Dy) by (rewrite E; apply sqrt_sqrt; assumption).
  split; [pose proof (sqrt_pos (Dx * Dx + Dy * Dy)); lra|].
  transitivity ((Dx * Dx + Dy * Dy) / (M * M)); [field; assumption|]. rewrite <- S. field; assumption.
Qed.
Lemma span_len ox oy dx dy a b : dx * dx + dy * dy = 1 -> a <= b ->
  sqrt (((ox + a * dx) - (ox + b * dx)) * ((ox + a * dx) - (ox + b * dx)) + ((oy + a * dy) - (oy + b * dy)) * ((oy + a * dy) - (oy + b * dy))) = b - a.
Proof.
  intros H Hab. rewrite <- (sqrt_Rsqr (b - a)) by lra. f_equal. unfold Rsqr.
  transitivity ((b - a) * (b - a) * (dx * dx + dy * dy)); [ring|rewrite H; ring].
Qed.
Lemma guard_some x0 px x1 y0 py y1 (v : R) : x0 <= px <= x1 -> y0 <= py <= y1 ->
  (if Rle_dec x0 px then if Rle_dec px x1 then if Rle_dec y0 py then if Rle_dec py y1 then Some v else None else None else None else None) = Some v.
Proof. intros. repeat destruct (Rle_dec _ _); try reflexivity; lra. Qed.
Lemma guard_none x0 px x1 y0 py y1 (v : R) : ~ (x0 <= px <= x1 /\ y0 <= py <= y1) ->
  (if Rle_dec x0 px then if Rle_dec px x1 then if Rle_dec y0 py then if Rle_dec py y1 then Some v else None else None else None else None) = None.
Proof. intros. repeat destruct (Rle_dec _ _); try reflexivity; exfalso; apply H; lra. Qed.

Lemma alphas_zero o d c0 c1 : d = 0 -> alphas o d c0 c1 = [NInf; PInf].
Proof. intros ->. unfold alphas. rewrite Rabs_R0. destruct (Rlt_dec 0 0); [lra|reflexivity]. Qed.
Lemma alphas_nz o d c0 c1 : d <> 0 -> alphas o d c0 c1 = [Fin ((c0 - o) / d); Fin ((c1 - o) / d)].
Proof. intros. unfold alphas. pose proof (Rabs_pos_lt d H). destruct (Rlt_dec 0 (Rabs d)); [reflexivity|lra]. Qed.

Lemma lic_closed O D x0 x1 y0 y1 M : M = sqrt (fst D * fst D + snd D * snd D) -> M <> 0 -> x0 <= x1 -> y0 <= y1 ->
  length_in_cell O D x0 x1 y0 y1 =
  cut (Rmax 0 (Rmax (alo M (fst O) (fst D / M) x0 x1) (alo M (snd O) (snd D / M) y0 y1)))
      (Rmin M (Rmin (ahi M (fst O) (fst D / M) x0 x1) (ahi M (snd O) (snd D / M) y0 y1))).
Proof.
  intros E HM Hx Hy. destruct (unit_dir _ _ _ E HM) as [PM U].
  unfold length_in_cell. rewrite <- E. destruct (Req_EM_T M 0) as [Z|_]; [contradiction|].
  cbv zeta. set (dx := fst D / M) in *. set (dy := snd D / M) in *. set (ox := fst O). set (oy := snd O). clearbody dx dy ox oy.
  assert (K : exists a b, eclip M (nth 1 (esort (alphas ox dx x0 x1 ++ alphas oy dy y0 y1)) PInf) = a /\
             eclip M (nth 2 (esort (alphas ox dx x0 x1 ++ alphas oy dy y0 y1)) PInf) = b /\ 0 <= a <= b /\ b <= M /\
             let lo := Rmax 0 (Rmax (alo M ox dx x0 x1) (alo M oy dy y0 y1)) in
             let hi := Rmin M (Rmin (ahi M ox dx x0 x1) (ahi M oy dy y0 y1)) in
             (lo <= hi -> a = lo /\ b = hi)).
  { destruct (Req_dec dx 0) as [Zx|Nx], (Req_dec dy 0) as [Zy|Ny].
    - exfalso. rewrite Zx, Zy in U. lra.
    - rewrite (alphas_zero _ dx), (alphas_nz _ dy) by assumption.
      destruct (sort2l ((y0 - oy) / dy) ((y1 - oy) / dy)) as (s1 & s2 & -> & E1 & E2).
      cbn [nth]. fold (clp M s1) (clp M s2). do 2 eexists; split; [reflexivity|]; split; [reflexivity|].
      assert (s1 <= s2) by (subst; rmm; lra).
      pose proof (clp_range M s1 PM). pose proof (clp_range M s2 PM). pose proof (clp_mono M s1 s2 PM H).
      split; [lra|]; split; [lra|]. cbv zeta. intros L.
      unfold alo, ahi in *. destruct (Req_EM_T dx 0); [|contradiction]. destruct (Req_EM_T dy 0); [contradiction|].
      rewrite <- E1, <- E2 in *.
      destruct (Rle_dec x0 ox), (Rle_dec ox x1).
      + assert (s1 <= M /\ 0 <= s2) by (rmm; lra). rewrite clp_max, clp_min by lra. rmm; lra.
      + exfalso; rmm; lra.
      + exfalso; rmm; lra.
      + exfalso; rmm; lra.
    - rewrite (alphas_zero _ dy), (alphas_nz _ dx) by assumption.
      destruct (sort2r ((x0 - ox) / dx) ((x1 - ox) / dx)) as (s1 & s2 & -> & E1 & E2).
      cbn [nth]. fold (clp M s1) (clp M s2). do 2 eexists; split; [reflexivity|]; split; [reflexivity|].
      assert (s1 <= s2) by (subst; rmm; lra).
      pose proof (clp_range M s1 PM). pose proof (clp_range M s2 PM). pose proof (clp_mono M s1 s2 PM H).
      split; [lra|]; split; [lra|]. cbv zeta. intros L.
      unfold alo, ahi in *. destruct (Req_EM_T dy 0); [|contradiction]. destruct (Req_EM_T dx 0); [contradiction|].
      rewrite <- E1, <- E2 in *.
      destruct (Rle_dec y0 oy), (Rle_dec oy y1).
      + assert (s1 <= M /\ 0 <= s2) by (rmm; lra). rewrite clp_max, clp_min by lra. rmm; lra.
      + exfalso; rmm; lra.
      + exfalso; rmm; lra.
      + exfalso; rmm; lra.
    - rewrite (alphas_nz _ dx), (alphas_nz _ dy) by assumption.
      destruct (sort4 ((x0 - ox) / dx) ((x1 - ox) / dx) ((y0 - oy) / dy) ((y1 - oy) / dy)) as (s1 & s2 & e & f & -> & S12 & S).
      cbn [nth]. fold (clp M s1) (clp M s2). do 2 eexists; split; [reflexivity|]; split; [reflexivity|].
      pose proof (clp_range M s1 PM). pose proof (clp_range M s2 PM). pose proof (clp_mono M s1 s2 PM S12).
      split; [lra|]; split; [lra|]. cbv zeta. intros L.
      unfold alo, ahi in *. destruct (Req_EM_T dy 0); [contradiction|]. destruct (Req_EM_T dx 0); [contradiction|].
      set (xa := Rmin ((x0 - ox) / dx) ((x1 - ox) / dx)) in *. set (xb := Rmax ((x0 - ox) / dx) ((x1 - ox) / dx)) in *.
      set (ya := Rmin ((y0 - oy) / dy) ((y1 - oy) / dy)) in *. set (yb := Rmax ((y0 - oy) / dy) ((y1 - oy) / dy)) in *.
      clearbody xa xb ya yb.
      pose proof (Rmax_l 0 (Rmax xa ya)). pose proof (Rmax_r 0 (Rmax xa ya)).
      pose proof (Rmin_l M (Rmin xb yb)). pose proof (Rmin_r M (Rmin xb yb)).
      destruct S as [(Sle & -> & ->)|S]; [|exfalso; lra].
      rewrite clp_max, clp_min by lra. split; reflexivity. }
  destruct K as (a & b & -> & -> & Hab & HbM & K). cbv zeta in K.
  set (mid := (a + b) / 2). assert (Hmid : 0 <= mid <= M) by (unfold mid; lra).
  pose proof (axis_in M ox dx x0 x1 mid Hx Hmid) as AX. pose proof (axis_in M oy dy y0 y1 mid Hy Hmid) as AY.
  set (lox := alo M ox dx x0 x1) in *. set (loy := alo M oy dy y0 y1) in *.
  set (hix := ahi M ox dx x0 x1) in *. set (hiy := ahi M oy dy y0 y1) in *. clearbody lox loy hix hiy.
  unfold cut. destruct (Rle_dec (Rmax 0 (Rmax lox loy)) (Rmin M (Rmin hix hiy))) as [L|L].
  - destruct (K L) as [Ea Eb].
    assert (lox <= a /\ loy <= a /\ b <= hix /\ b <= hiy) as (B1 & B2 & B3 & B4) by (rewrite Ea, Eb; clear; rmm; lra).
    rewrite guard_some.
    + rewrite span_len by (try assumption; lra). rewrite Ea, Eb. reflexivity.
    + apply AX. unfold mid. lra.
    + apply AY. unfold mid. lra.
  - apply guard_none. intros [I1 I2]. apply L. apply AX in I1. apply AY in I2.
    apply (Rle_trans _ mid); [repeat apply Rmax_lub; lra|repeat apply Rmin_glb; lra].
Qed.

Definition dvec (P Q : R * R) : R * R := (fst Q - fst P, snd Q - snd P).
Lemma dvec_len P Q : sqrt (fst (dvec P Q) * fst (dvec P Q) + snd (dvec P Q) * snd (dvec P Q)) = dist2 P Q.
Proof. reflexivity. Qed.
Lemma lic_spec P Q x0 x1 y0 y1 : 0 < dist2 P Q -> x0 <= x1 -> y0 <= y1 ->
  match length_in_cell P (dvec P Q) x0 x1 y0 y1 with
  | Some L => exists lo hi, stretch P Q x0 x1 y0 y1 lo hi /\ L = hi - lo
  | None => misses P Q x0 x1 y0 y1
  end.
Proof.
  intros HM Hx Hy. rewrite (lic_closed _ _ _ _ _ _ (dist2 P Q)) by (try reflexivity; lra).
  set (lo := Rmax _ _). set (hi := Rmin _ _).
  assert (K : forall t, 0 <= t <= dist2 P Q -> in_rect x0 x1 y0 y1 (point_at P Q t) -> lo <= t <= hi).
  { intros t Ht [I1 I2]. cbn [fst snd point_at] in I1, I2.
    apply (axis_in _ _ _ _ _ t Hx Ht) in I1. apply (axis_in _ _ _ _ _ t Hy Ht) in I2.
    unfold lo, hi, dvec. cbn [fst snd]. split; [repeat apply Rmax_lub; lra|repeat apply Rmin_glb; lra]. }
  assert (K2 : forall t, lo <= t <= hi -> 0 <= t <= dist2 P Q /\ in_rect x0 x1 y0 y1 (point_at P Q t)).
  { intros t [H1 H2]. unfold lo, hi, dvec in H1, H2. cbn [fst snd] in H1, H2.
    assert (R1 : 0 <= t) by (eapply Rle_trans; [apply Rmax_l|exact H1]).
    assert (R2 : t <= dist2 P Q) by (eapply Rle_trans; [exact H2|apply Rmin_l]).
    assert (A1 := Rle_trans _ _ _ (Rmax_r _ _) H1). assert (A2 := Rle_trans _ _ _ H2 (Rmin_r _ _)).
    split; [lra|]. split; cbn [fst snd point_at]; apply (axis_in (dist2 P Q)); try assumption; try lra; split.
    - eapply Rle_trans; [apply Rmax_l|exact A1].
    - eapply Rle_trans; [exact A2|apply Rmin_l].
    - eapply Rle_trans; [apply Rmax_r|exact A1].
    - eapply Rle_trans; [exact A2|apply Rmin_r]. }
  unfold cut. destruct (Rle_dec lo hi) as [L|L].
  - exists lo, hi. split; [|reflexivity]. split; [assumption|]. intros t; split; [intros [A B]; auto|auto].
  - intros t Ht I. apply L. specialize (K t Ht I). lra.
Qed.
