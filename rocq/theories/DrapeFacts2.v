(** Points shifted to the discrete topography. *)
From Verif Require Import Py Vec Abmn Drape SpecDrape LinSimFacts DrapeFacts.
From Coq Require Import Lia Lra.
Local Open Scope R_scope.

Lemma face_repeat w n : forall x0 k, (k <= n)%nat -> face x0 (repeat w n) k = x0 + w * INR k.
Proof.
  induction n as [|n IH]; intros x0 k L.
  - replace k with 0%nat by lia. rewrite face_0. cbn. lra.
  - destruct k; [rewrite face_0; cbn; lra|]. cbn [repeat]. rewrite face_cons, IH by lia. rewrite S_INR. lra.
Qed.
Lemma near1 w n x0 i j x : 0 < w -> between x0 (repeat w n) i x -> (j < n)%nat -> j <> i -> (nth i (centres x0 (repeat w n)) 0 - x) * (nth i (centres x0 (repeat w n)) 0 - x) < (nth j (centres x0 (repeat w n)) 0 - x) * (nth j (centres x0 (repeat w n)) 0 - x).
Proof.
  intros W (I & B) J N. rewrite repeat_length in I. rewrite !centre_face by (rewrite repeat_length; lia). rewrite !face_repeat in * by lia. rewrite !S_INR in *.
  set (a := INR i) in *. set (c := INR j) in *.
  assert (D : a + 1 <= c \/ c + 1 <= a).
  { unfold a, c. rewrite <- !S_INR. destruct (Nat.lt_ge_cases i j); [left|right]; apply le_INR; lia. }
  set (p := (x0 + w * a + (x0 + w * (a + 1))) / 2). set (q := (x0 + w * c + (x0 + w * (c + 1))) / 2).
  assert (P : p - w / 2 < x < p + w / 2) by (unfold p; lra).
  assert (Q : p + w <= q \/ q + w <= p) by (unfold p, q; destruct D as [D|D]; [left|right]; nra).
  clearbody p q. destruct Q as [Q|Q]; nra.
Qed.
Lemma own1 w n x0 i j x : 0 < w -> between x0 (repeat w n) i x -> (j < n)%nat -> (nth i (centres x0 (repeat w n)) 0 - x) * (nth i (centres x0 (repeat w n)) 0 - x) <= (nth j (centres x0 (repeat w n)) 0 - x) * (nth j (centres x0 (repeat w n)) 0 - x).
Proof. intros W B J. destruct (Nat.eq_dec j i) as [->|N]; [lra|]. left. now apply near1. Qed.
Lemma grid_length (cx cy : vec) : List.length (flat_map (fun y => map (fun x => [x; y]) cx) cy) = (List.length cx * List.length cy)%nat.
Proof. induction cy as [|y cy IH]; cbn [flat_map List.length]; [lia|]. rewrite app_length, map_length, IH. lia. Qed.
Lemma grid_nth (cx : vec) ix : (ix < List.length cx)%nat -> forall cy iy, (iy < List.length cy)%nat -> nth (ix + List.length cx * iy) (flat_map (fun y => map (fun x => [x; y]) cx) cy) [] = [nth ix cx 0; nth iy cy 0].
Proof.
  intros X. induction cy as [|y cy IH]; intros iy L; [cbn in L; lia|]. cbn [flat_map]. destruct iy as [|iy].
  - rewrite Nat.mul_0_r, Nat.add_0_r, app_nth1 by (now rewrite map_length). rewrite (gmap_nth (fun x => [x; y]) cx ix [] 0) by exact X. reflexivity.
  - rewrite app_nth2 by (rewrite map_length; nia). rewrite map_length. replace (ix + List.length cx * S iy - List.length cx)%nat with (ix + List.length cx * iy)%nat by nia. rewrite IH by (cbn in L; lia). reflexivity.
Qed.
Lemma horizontal_2d m : m_hy m = None -> List.length (horizontal m) = List.length (m_hx m) /\ forall i, (i < List.length (m_hx m))%nat -> nth i (horizontal m) [] = [nth i (centres (m_x0 m) (m_hx m)) 0].
Proof. intros E. unfold horizontal. rewrite E. rewrite map_length, centres_length. split; [reflexivity|]. intros i I. now rewrite (gmap_nth (fun x => [x]) (centres (m_x0 m) (m_hx m)) i [] 0) by (now rewrite centres_length). Qed.
Lemma horizontal_3d m hy : m_hy m = Some hy -> List.length (horizontal m) = (List.length (m_hx m) * List.length hy)%nat /\
  forall ix iy, (ix < List.length (m_hx m))%nat -> (iy < List.length hy)%nat -> nth (ix + List.length (m_hx m) * iy) (horizontal m) [] = [nth ix (centres (m_x0 m) (m_hx m)) 0; nth iy (centres (m_y0 m) hy) 0].
Proof.
  intros E. unfold horizontal. rewrite E. split; [rewrite grid_length, !centres_length; reflexivity|]. intros ix iy X Y.
  rewrite <- (centres_length (m_hx m) (m_x0 m)) at 1. apply grid_nth; rewrite centres_length; assumption.
Qed.
Lemma split_index nx ny j : (j < nx * ny)%nat -> exists jx jy, (jx < nx)%nat /\ (jy < ny)%nat /\ j = (jx + nx * jy)%nat.
Proof. intros H. assert (nx <> 0)%nat by (intros ->; lia). exists (j mod nx)%nat, (j / nx)%nat. split; [now apply Nat.mod_upper_bound|split; [apply Nat.div_lt_upper_bound; lia|]]. pose proof (Nat.div_mod j nx H0). lia. Qed.
Lemma dist2_1 a b : dist2 [a] [b] = (a - b) * (a - b).
Proof. unfold dist2. cbn. lra. Qed.
Lemma dist2_2 a b c d : dist2 [a; b] [c; d] = (a - c) * (a - c) + (b - d) * (b - d).
Proof. unfold dist2. cbn. lra. Qed.
Lemma own_in m p i : own_column m p i -> (i < List.length (horizontal m))%nat.
Proof.
  unfold own_column. destruct (m_hy m) as [hy|] eqn:E.
  - intros (x & y & ix & iy & _ & -> & (X & _) & (Y & _)). destruct (horizontal_3d m hy E) as (-> & _). nia.
  - intros (x & _ & (X & _)). destruct (horizontal_2d m E) as (-> & _). exact X.
Qed.
(** In a mesh with even cells the nearest column is the one that contains the point. *)
Lemma nearest_is_own m p i : even m -> (2 <= List.length (horizontal m))%nat -> own_column m p i -> closest (horizontal m) p = Ok i.
Proof.
  intros (wx & nx & WX & HX & HY) G O. apply closest_unique; [now left|exact (own_in m p i O)|]. intros j J N.
  unfold own_column in O. destruct (m_hy m) as [hy|] eqn:E.
  - destruct HY as (wy & ny & WY & ->). destruct O as (x & y & ix & iy & -> & -> & BX & BY). destruct (horizontal_3d m _ E) as (HL & HN). rewrite HL in J.
    destruct (split_index _ _ _ J) as (jx & jy & JX & JY & ->). pose proof (proj1 BX) as IX. pose proof (proj1 BY) as IY. rewrite !HN by assumption. rewrite !dist2_2.
    rewrite HX in *. rewrite repeat_length in *.
    destruct (Nat.eq_dec jx ix) as [->|NX].
    + assert (NY : jy <> iy) by (intros ->; now apply N). pose proof (near1 wy ny (m_y0 m) iy jy y WY BY JY NY). lra.
    + pose proof (near1 wx nx (m_x0 m) ix jx x WX BX JX NX). pose proof (own1 wy ny (m_y0 m) iy jy y WY BY JY). lra.
  - destruct O as (x & -> & BX). destruct (horizontal_2d m E) as (HL & HN). rewrite HL in J. pose proof (proj1 BX) as IX. rewrite !HN by assumption. rewrite !dist2_1. rewrite HX in *. rewrite repeat_length in J. now apply near1.
Qed.
Lemma cell_between h : thick h -> forall x0 k x, between x0 h k x -> cell_of x0 h x = k.
Proof.
  intros T. induction h as [|w h IH]; intros x0 k x (K & B); [cbn in K; lia|]. cbn [cell_of]. pose proof (Forall_inv T) as W. cbn beta in W. destruct h as [|w' h].
  - cbn in K. lia.
  - destruct k as [|k]; rewrite ?face_cons in B.
    + rewrite !face_0 in B. destruct (Rle_dec (x0 + w) x); [lra|reflexivity].
    + assert (M : x0 + w <= face (x0 + w) (w' :: h) k).
      { destruct k; [rewrite face_0; lra|]. left. pose proof (face_mono _ (Forall_inv_tail T) (x0 + w) 0%nat (S k) ltac:(cbn in K |- *; lia)) as Q. rewrite face_0 in Q. exact Q. }
      destruct (Rle_dec (x0 + w) x); [|lra]. f_equal. apply (IH (Forall_inv_tail T)). split; [cbn in K |- *; lia|rewrite face_cons; exact B].
Qed.
Lemma thick_repeat w n : 0 < w -> thick (repeat w n).
Proof. intros W. apply Forall_forall. intros x I. apply repeat_spec in I. now subst. Qed.
Lemma own_centre m p i z : even m -> own_column m p i -> cell_centre m (p ++ z) = nth i (horizontal m) [].
Proof.
  intros (wx & nx & WX & HX & HY) O. unfold own_column in O. unfold cell_centre. pose proof (thick_repeat wx nx WX) as TX. rewrite <- HX in TX. destruct (m_hy m) as [hy|] eqn:E.
  - destruct HY as (wy & ny & WY & ->). destruct O as (x & y & ix & iy & -> & -> & BX & BY). destruct (horizontal_3d m _ E) as (_ & HN). rewrite HN by (apply BX || apply BY). cbn [app nth].
    rewrite (cell_between _ TX _ _ _ BX), (cell_between _ (thick_repeat wy ny WY) _ _ _ BY). reflexivity.
  - destruct O as (x & -> & BX). destruct (horizontal_2d m E) as (_ & HN). rewrite HN by (apply BX). cbn [app nth]. rewrite (cell_between _ TX _ _ _ BX). reflexivity.
Qed.
(** Shifting. *)
Lemma raise_zero p : raise_last p 0 = p.
Proof. induction p as [|x p IH]; [reflexivity|]. destruct p; cbn in *; [now rewrite Rplus_0_r|now rewrite IH]. Qed.
Lemma raise_app p z d : raise_last (p ++ [z]) d = p ++ [z + d].
Proof. induction p as [|x p IH]; [reflexivity|]. cbn [app]. destruct (p ++ [z]) eqn:E; [destruct p; discriminate|]. change (raise_last (x :: r :: l) d) with (x :: raise_last (r :: l) d). now rewrite IH. Qed.
Lemma shift_length m act cut horiz hs cols pts out : shift_points m act cut horiz hs cols pts = Ok out -> List.length out = List.length pts.
Proof.
  unfold shift_points. destruct (match hs with One _ => false | Each l => _ end) eqn:E; [discriminate|]. destruct (get_topography m act cut); [|discriminate]. cbn [bind]. destruct (_ && _)%bool; [discriminate|].
  destruct (mapM _ pts) as [o|] eqn:M; [|discriminate]. cbn [bind]. intros [= <-]. pose proof (mapM_ok_length _ _ _ M) as L. destruct hs; rewrite ?map_length; [exact L|].
  rewrite combine_length. destruct (Nat.eqb_spec (List.length pts) (List.length l)); [lia|discriminate].
Qed.
Lemma shift_rows m act cut horiz hs cols pts out : shift_points m act cut horiz hs cols pts = Ok out -> exists Ts, get_topography m act cut = Ok Ts /\
  forall j, (j < List.length pts)%nat -> exists q, shift1 m Ts horiz (cols =? mdim m)%nat (nth j pts []) = Ok q /\ nth j out [] = raise_last q (height_of hs j).
Proof.
  unfold shift_points. destruct (match hs with One _ => false | Each l => _ end) eqn:E; [discriminate|]. destruct (get_topography m act cut) as [Ts|]; [|discriminate]. cbn [bind]. destruct (_ && _)%bool; [discriminate|].
  destruct (mapM _ pts) as [o|] eqn:M; [|discriminate]. cbn [bind]. intros [= <-]. exists Ts. split; [reflexivity|]. intros j J. pose proof (mapM_ok_length _ _ _ M) as L.
  destruct (mapM_ok_nth _ _ _ _ _ M (nth_error_nth' pts [] J)) as (q & Q1 & Q2). apply nth_error_nth with (d := []) in Q1. exists q. split; [exact Q2|]. destruct hs as [z|l]; cbn [height_of].
  - rewrite (gmap_nth (fun p => raise_last p z) o j [] []) by lia. now rewrite Q1.
  - destruct (Nat.eqb_spec (List.length pts) (List.length l)); [|discriminate]. rewrite (gmap_nth _ (combine o l) j [] ([], 0)) by (rewrite combine_length; lia). rewrite combine_nth by lia. cbn [fst snd]. now rewrite Q1.
Qed.
(** On the surface of its own column, whatever the cutoff. *)
Lemma on_surface m b horiz hs pts out j i : thick (m_hz m) -> even m -> (2 <= List.length (horizontal m))%nat ->
  shift_points m (ABool b) Top horiz hs (mdim m - 1) pts = Ok out -> (j < List.length pts)%nat -> own_column m (nth j pts []) i ->
  exists z, surface_of m b i z /\ nth j out [] = (if horiz then nth i (horizontal m) [] else nth j pts []) ++ [z + height_of hs j].
Proof.
  intros T EV G H J O. destruct (shift_rows _ _ _ _ _ _ _ _ H) as (Ts & GT & R). destruct (R j J) as (q & Q & ->).
  destruct (topography_rows m b Top T Ts GT) as (TL & TF & TS). replace (mdim m - 1 =? mdim m)%nat with false in Q by (symmetry; apply Nat.eqb_neq; unfold mdim; destruct (m_hy m); lia).
  unfold shift1 in Q. rewrite TF, (nearest_is_own m _ i EV G O) in Q. cbn [bind] in Q. injection Q as <-. pose proof (own_in _ _ _ O) as IL. exists (snd (nth i Ts ([], 0))). split; [now apply TS|].
  assert (F : fst (nth i Ts ([], 0)) = nth i (horizontal m) []) by (rewrite <- TF; now rewrite (gmap_nth fst Ts i [] ([], 0)) by lia).
  rewrite F. destruct horiz; apply raise_app.
Qed.
Lemma on_surface_elev m b horiz hs pts out j i h z0 : thick (m_hz m) -> even m -> (2 <= List.length (horizontal m))%nat ->
  shift_points m (ABool b) Top horiz hs (mdim m) pts = Ok out -> (j < List.length pts)%nat -> nth j pts [] = h ++ [z0] -> own_column m h i ->
  exists z, surface_of m b i z /\ nth j out [] = (if horiz then nth i (horizontal m) [] else h) ++ [z + height_of hs j].
Proof.
  intros T EV G H J PJ O. destruct (shift_rows _ _ _ _ _ _ _ _ H) as (Ts & GT & R). destruct (R j J) as (q & Q & ->).
  destruct (topography_rows m b Top T Ts GT) as (TL & TF & TS). rewrite Nat.eqb_refl in Q.
  unfold shift1 in Q. rewrite PJ, removelast_last, TF, (nearest_is_own m _ i EV G O) in Q. cbn [bind] in Q. injection Q as <-. pose proof (own_in _ _ _ O) as IL. exists (snd (nth i Ts ([], 0))). split; [now apply TS|].
  rewrite (own_centre m h i [z0] EV O). destruct horiz; apply raise_app.
Qed.
