(** Facts about pseudo-locations. *)
From Verif Require Import Py Vec LinSimFacts XyzIOFacts Geom SpecGeom GeomFacts GeomFacts2 GeomFacts3.
From Coq Require Import String.
Local Open Scope R_scope.

Lemma vmid_centre x y : vmid x y = centre x (Some y).
Proof. reflexivity. Qed.
Lemma vadd_zero_r : forall v, vadd v (vzero (len v)) = v.
Proof. induction v as [|a v IH]; [reflexivity|]. unfold vadd, vzero, vconst in *. cbn. rewrite IH. f_equal. ring. Qed.
Lemma vscale_one v : vscale (/ 1) v = v.
Proof. unfold vscale. rewrite <- (map_id v) at 2. apply map_ext. intro a. field. Qed.
Lemma mid_pole s a : g_src s = SPole a -> src_mid s = a.
Proof. intro H. unfold src_mid, src_locs. rewrite H. cbn [List.length hd vmean_sum INR]. now rewrite vadd_zero_r, vscale_one. Qed.
Lemma mid_dipole s a b : g_src s = SDipole a b -> len b = len a -> src_mid s = centre a (Some b).
Proof. intros H L. unfold src_mid, src_locs. rewrite H. cbn [List.length hd vmean_sum]. rewrite <- L, vadd_zero_r. cbn [centre]. f_equal. Qed.
Definition view (e : spread) : vec * vec := (vmid (centre (ea e) (eb e)) (centre (em e) (en e)), vsub (centre (em e) (en e)) (centre (ea e) (eb e))).
Lemma rx_mids_spreads a b r : rx_mids r = map (fun e => centre (em e) (en e)) (receiver_spreads a b r).
Proof.
  unfold rx_mids, receiver_spreads. destruct (g_rx r) as [ms|ms ns]; rewrite map_map; cbn [em en centre]; [symmetry; apply map_id|].
  revert ns. induction ms as [|m ms IH]; intros [|n ns]; cbn; auto. now rewrite IH.
Qed.
Lemma receiver_ab a b r e : In e (receiver_spreads a b r) -> ea e = a /\ eb e = b.
Proof. unfold receiver_spreads. destruct (g_rx r); intro H; apply in_map_iff in H; destruct H as (x & <- & _); auto. Qed.
Lemma pair_view z d s r : Forall (flat z d) (pair_spreads s r) -> match g_src s with SMulti _ => False | _ => True end ->
  map (fun y => (vmid (src_mid s) y, vsub y (src_mid s))) (rx_mids r) = map view (pair_spreads s r).
Proof.
  unfold pair_spreads. intros F M. destruct (g_src s) as [a|a b|ls] eqn:Es; [| |contradiction].
  - rewrite (rx_mids_spreads a None), map_map. apply map_ext_in. intros e He. destruct (receiver_ab _ _ _ _ He) as (Ea & Eb). unfold view. rewrite Ea, Eb, (mid_pole s a Es). reflexivity.
  - rewrite (rx_mids_spreads a (Some b)), map_map. apply map_ext_in. intros e He. destruct (receiver_ab _ _ _ _ He) as (Ea & Eb). unfold view. rewrite Ea, Eb.
    pose proof (proj1 (Forall_forall _ _) F e He) as (H1 & H2 & _). rewrite Eb in H2. cbn in H2. rewrite Ea in H1. rewrite (mid_dipole s a b Es); [reflexivity|]. destruct H1, H2. congruence.
Qed.
Lemma spreads_view z d sv : Forall (flat z d) (survey_spreads sv) -> single_sources sv -> spreads sv = map view (survey_spreads sv).
Proof.
  unfold spreads. rewrite spreads_pairs. intros F S. assert (Hp : forall p, In p (g_pairs sv) -> match g_src (fst p) with SMulti _ => False | _ => True end).
  { intros (s & r) H. apply in_g_pairs in H. exact (proj1 (Forall_forall _ _) S s (proj1 H)). }
  clear S. induction (g_pairs sv) as [|(s & r) l IH]; [reflexivity|]. cbn [flat_map fst snd] in *. rewrite map_app. apply Forall_app in F. destruct F as (F1 & F2).
  rewrite (pair_view z d s r F1 (Hp (s, r) (or_introl eq_refl))). f_equal. apply IH; [exact F2|]. intros; apply Hp; now right.
Qed.

(** ** One datum *)
Lemma removelast_zip f : forall x y, len x = len y -> removelast (zipw f x y) = zipw f (removelast x) (removelast y).
Proof.
  induction x as [|a x IH]; intros [|b y] L; try discriminate; [reflexivity|]. cbn in L. injection L as L. destruct x as [|a' x], y as [|b' y]; try discriminate; [reflexivity|].
  specialize (IH (b' :: y) L). cbn [zipw] in *. change (removelast (f a b :: f a' b' :: zipw f x y)) with (f a b :: removelast (f a' b' :: zipw f x y)). rewrite IH. reflexivity.
Qed.
Lemma last_zip f : forall x y, len x = len y -> x <> [] -> last (zipw f x y) 0 = f (last x 0) (last y 0).
Proof.
  induction x as [|a x IH]; intros [|b y] L N; try discriminate; [contradiction|]. cbn in L. injection L as L. destruct x as [|a' x], y as [|b' y]; try discriminate; [reflexivity|].
  specialize (IH (b' :: y) L). cbn [zipw] in *. change (last (f a b :: f a' b' :: zipw f x y) 0) with (last (f a' b' :: zipw f x y) 0). rewrite IH by discriminate. reflexivity.
Qed.
Lemma last_map c : forall x, x <> [] -> last (vscale c x) 0 = c * last x 0.
Proof. unfold vscale. induction x as [|a x IH]; intro N; [contradiction|]. destruct x as [|b x]; [reflexivity|]. change (last (map (Rmult c) (b :: x)) 0 = c * last (b :: x) 0). apply IH. discriminate. Qed.
Lemma centre_ok z d x y : (1 <= d)%nat -> len x = d -> last x 0 = z -> opt_all (fun v => len v = d /\ last v 0 = z) y -> len (centre x y) = d /\ last (centre x y) 0 = z.
Proof.
  intros Hd Lx Zx Hy. destruct y as [y|]; cbn in *; [|auto]. destruct Hy as (Ly & Zy). split; [rewrite vscale_length, vadd_length; congruence|].
  assert (x <> []) by (intro C; subst x; cbn in Lx; lia). assert (vadd x y <> []) by (intro C; apply (f_equal (@List.length R)) in C; rewrite vadd_length in C by congruence; cbn in C; lia).
  rewrite last_map by assumption. unfold vadd. rewrite last_zip by (congruence || assumption). rewrite Zx, Zy. field.
Qed.
Lemma dot_last : forall v, v <> [] -> dot v v = dot (removelast v) (removelast v) + last v 0 * last v 0.
Proof.
  induction v as [|a v IH]; intro N; [contradiction|]. destruct v as [|b v]; [cbn; ring|]. change (dot (a :: b :: v) (a :: b :: v)) with (a * a + dot (b :: v) (b :: v)). rewrite IH by discriminate.
  change (removelast (a :: b :: v)) with (a :: removelast (b :: v)). change (last (a :: b :: v) 0) with (last (b :: v) 0). cbn [dot]. ring.
Qed.
Lemma locate_below d : forall mid t, len mid = d -> mid <> [] -> locate mid (map Fin (repeat 0 (d - 1) ++ [t])) = map Fin (removelast mid ++ [last mid 0 - t]).
Proof.
  induction d as [|d IH]; intros mid t L N; destruct mid as [|x mid]; try discriminate; [contradiction|]. cbn in L. injection L as L.
  destruct mid as [|y mid].
  - cbn in L. subst d. cbn. unfold nsub. cbn. do 2 f_equal; ring.
  - destruct d as [|d]; [discriminate|]. replace (S (S d) - 1)%nat with (S (S d - 1)) by lia. change (locate (x :: y :: mid) (map Fin (repeat 0 (S (S d - 1)) ++ [t]))) with (nsub (Fin x) (Fin 0) :: locate (y :: mid) (map Fin (repeat 0 (S d - 1) ++ [t]))).
    rewrite (IH (y :: mid) t L) by discriminate. change (removelast (x :: y :: mid)) with (x :: removelast (y :: mid)). change (last (x :: y :: mid) 0) with (last (y :: mid) 0). cbn [map app]. f_equal. unfold nsub. cbn. f_equal. ring.
Qed.
Lemma depth_flat tol ds : 0 < tol -> (2 <= len ds)%nat -> last ds 0 = 0 -> tol <= horizontal ds -> forall ab, pseudo_depth tol ds ab = map Fin (repeat 0 (len ds - 1) ++ [horizontal ds / 2]).
Proof.
  intros Ht L Z H ab. unfold pseudo_depth, wenner. destruct (Rlt_dec (horizontal ds) tol) as [?|?]; [lra|]. rewrite Z.
  assert (Hn : norm2 ds / 2 <> 0). { unfold norm2. rewrite dot_last by (intro C; subst; cbn in L; lia). rewrite Z, Rmult_0_l, Rplus_0_r. fold (norm2 (removelast ds)). fold (horizontal ds). lra. }
  assert (Hs : forall k, ndiv (0 / 2 * nth k ds 0) (Fin (norm2 ds / 2)) = Fin 0).
  { intro k. unfold ndiv. destruct (Req_EM_T (norm2 ds / 2) 0); [contradiction|]. f_equal. unfold Rdiv. ring. }
  rewrite !Hs. destruct (len ds) as [|[|[|k]]]; [lia|lia|reflexivity|]. replace (S (S (S k)) - 1)%nat with (S (S k)) by lia. replace (S (S (S k)) - 3)%nat with k by lia. cbn [repeat app map]. do 2 f_equal.
  rewrite map_app. cbn [map]. f_equal. clear. induction k; cbn; congruence.
Qed.
Lemma depth_wenner tol ds x : horizontal ds < tol -> 0 <= x -> pseudo_depth tol ds (Fin x) = map Fin (repeat 0 (len ds - 1) ++ [x / 2]).
Proof.
  intros H Hx. unfold pseudo_depth, wenner. destruct (Rlt_dec (horizontal ds) tol); [|lra]. rewrite map_app. cbn [map]. f_equal.
  - generalize (len ds - 1)%nat. induction n; cbn; congruence.
  - cbn. do 2 f_equal. rewrite Rabs_right by lra. unfold Rdiv. ring.
Qed.
Section Datum.
Variables (tol z : R) (d : nat) (e : spread).
Hypotheses (Ht : 0 < tol) (Hd : (2 <= d)%nat) (F : flat z d e).
Lemma centres : (len (centre (ea e) (eb e)) = d /\ last (centre (ea e) (eb e)) 0 = z) /\ (len (centre (em e) (en e)) = d /\ last (centre (em e) (en e)) 0 = z).
Proof. destruct F as ((L1 & Z1) & F2 & (L3 & Z3) & F4). split; apply centre_ok; auto; lia. Qed.
Lemma ds_facts : len (snd (view e)) = d /\ last (snd (view e)) 0 = 0 /\ horizontal (snd (view e)) = offset e.
Proof.
  destruct centres as ((La & Za) & (Lm & Zm)). unfold view. cbn [snd]. repeat split.
  - rewrite vsub_length; congruence.
  - unfold vsub. rewrite last_zip; [lra|congruence|]. intro C. rewrite C in Lm. cbn in Lm. lia.
  - unfold horizontal, offset, vsub. rewrite removelast_zip by congruence. fold (vsub (removelast (centre (em e) (en e))) (removelast (centre (ea e) (eb e)))). rewrite norm_distance. apply distance_sym.
Qed.
Lemma mid_facts : len (fst (view e)) = d /\ last (fst (view e)) 0 = z.
Proof. destruct centres as ((La & Za) & (Lm & Zm)). unfold view. cbn [fst]. rewrite vmid_centre. apply centre_ok; auto; [lia|]. split; assumption. Qed.
Lemma located depth t : depth = map Fin (repeat 0 (d - 1) ++ [t]) -> locate (fst (view e)) depth = below e (z - t).
Proof.
  intros ->. destruct mid_facts as (L & Z). rewrite (locate_below d) by (auto; intro C; rewrite C in L; cbn in L; lia). rewrite Z. unfold below, view. cbn [fst]. now rewrite vmid_centre.
Qed.
Lemma placed_non_wenner ab : tol <= offset e -> locate (fst (view e)) (pseudo_depth tol (snd (view e)) ab) = below e (z - offset e / 2).
Proof. intro H. destruct ds_facts as (L & Z & Ho). apply located. rewrite depth_flat by (auto; rewrite ?L, ?Ho; auto). now rewrite L, Ho. Qed.
Lemma placed_wenner b : offset e < tol -> eb e = Some b -> locate (fst (view e)) (pseudo_depth tol (snd (view e)) (psep (qa (quad_of e)) (qb (quad_of e)))) = below e (z - distance (ea e) b / 2).
Proof.
  intros H Eb. destruct ds_facts as (L & Z & Ho). apply located. unfold quad_of. cbn [qa qb]. rewrite Eb. cbn [place_b psep]. rewrite norm_distance, depth_wenner; [now rewrite L|rewrite Ho; exact H|apply distance_pos].
Qed.
Lemma wenner_iff : wenner tol (snd (view e)) = true <-> offset e < tol.
Proof. destruct ds_facts as (_ & _ & Ho). unfold wenner. rewrite Ho. destruct (Rlt_dec (offset e) tol); split; intro; auto; try discriminate; contradiction. Qed.
End Datum.
Lemma zipn_map {A B C D} (f : B -> C -> D) (g : A -> B) (h : A -> C) l : zipn f (map g l) (map h l) = map (fun x => f (g x) (h x)) l.
Proof. induction l as [|x l IH]; [reflexivity|]. cbn. now rewrite IH. Qed.
Lemma F2_map_in {A B} (P : A -> B -> Prop) f : forall l, (forall x, In x l -> P x (f x)) -> Forall2 P l (map f l).
Proof. induction l as [|x l IH]; intro H; [constructor|]. cbn. constructor; [apply H; now left|]. apply IH. intros; apply H; now right. Qed.
Lemma pseudo_flat tol z d sv l : 0 < tol -> (2 <= d)%nat -> Forall (flat z d) (survey_spreads sv) -> single_sources sv -> pseudo_locations tol sv = Ok l ->
  Forall2 (placed tol z) (survey_spreads sv) l.
Proof.
  intros Ht Hd F S H. unfold pseudo_locations in H. rewrite (spreads_view z d sv F S) in H. remember (map view (survey_spreads sv)) as sp eqn:Esp. destruct sp as [|p sp]; [discriminate|]. rewrite Esp in H. clear Esp.
  destruct (existsb _ _) eqn:Ex.
  - destruct (rows_of sv) as [rows|] eqn:Er; [|discriminate]. cbn [bind] in H. rewrite (rows_concat _ _ Er), zipn_map in H. injection H as <-. apply F2_map_in. intros e He. pose proof (proj1 (Forall_forall _ _) F e He) as Fe. split.
    + intro Ho. now apply (placed_non_wenner tol z d).
    + intros Ho b Hb. now apply (placed_wenner tol z d).
  - rewrite map_map in H. injection H as <-. apply F2_map_in. intros e He. pose proof (proj1 (Forall_forall _ _) F e He) as Fe. split.
    + intro Ho. now apply (placed_non_wenner tol z d).
    + intros Ho b Hb. exfalso. assert (existsb (fun p0 => wenner tol (snd p0)) (map view (survey_spreads sv)) = true); [|congruence]. apply existsb_exists. exists (view e). split; [now apply in_map|]. now apply (wenner_iff tol z d).
Qed.
(** A pole between the electrodes of a dipole. *)
Lemma pole_wenner : exists sv x, single_sources sv /\ Forall (flat 0 2) (survey_spreads sv) /\ pseudo_locations (/ 10) sv = Ok [[x; MInf]].
Proof.
  exists (datum [0; 0] None [-1; 0] (Some [1; 0])). eexists. split; [repeat constructor|]. split; [repeat constructor|].
  unfold pseudo_locations, spreads, datum, g_pairs. cbn [flat_map map app fst snd g_rxs rx_mids g_rx zipn]. rewrite (mid_pole _ [0; 0]) by reflexivity.
  assert (Hw : forall v, v = vsub (vmid [-1; 0] [1; 0]) [0; 0] -> wenner (/ 10) v = true).
  { intros v ->. unfold wenner. destruct (Rlt_dec _ _) as [|C]; [reflexivity|]. exfalso. apply C. unfold horizontal, norm2, vmid, vscale, vsub, vadd. cbn. match goal with |- sqrt ?x < _ => replace x with 0 by field end. rewrite sqrt_0. lra. }
  cbn [existsb snd]. rewrite (Hw _ eq_refl). cbn [orb]. unfold rows_of, src_quads, src_places. cbn [mapM g_src g_rxs bind fst snd even_rows g_ms g_rx forallb List.length Nat.eqb andb rx_quads zipq map List.concat app].
  cbn [zipn qa qb]. unfold pseudo_depth. rewrite (Hw _ eq_refl). cbn [psep]. unfold vmid, vscale, vsub, vadd, locate. cbn. unfold nsub. cbn. destruct (Rlt_dec 0 (/ 2)); [|lra]. cbn. reflexivity.
Qed.
(** A slope of four in three. *)
Lemma slope : exists sv x y, single_sources sv /\ survey_spreads sv = [{| ea := [0; 0]; eb := None; em := [3; 4]; en := None |}] /\ pseudo_locations (/ 10) sv = Ok [[Fin x; Fin y]] /\ (x - 3 / 2) * 3 + (y - 4 / 2) * 4 <> 0.
Proof.
  exists (datum [0; 0] None [3; 4] None). exists (3 / 2 - 12 / 5), (2 - 3 / 2). split; [repeat constructor|]. split; [reflexivity|]. split; [|lra].
  unfold pseudo_locations, spreads, datum, g_pairs. cbn [flat_map map app fst snd g_rxs rx_mids g_rx]. rewrite (mid_pole _ [0; 0]) by reflexivity.
  assert (Eh : horizontal (vsub [3; 4] [0; 0]) = 3) by (unfold horizontal, norm2, vsub; cbn; replace ((3 - 0) * (3 - 0) + 0) with (3 * 3) by ring; apply sqrt_square; lra).
  assert (En : norm2 (vsub [3; 4] [0; 0]) = 5) by (unfold norm2, vsub; cbn; replace ((3 - 0) * (3 - 0) + ((4 - 0) * (4 - 0) + 0)) with (5 * 5) by ring; apply sqrt_square; lra).
  assert (Hw : wenner (/ 10) (vsub [3; 4] [0; 0]) = false) by (unfold wenner; rewrite Eh; destruct (Rlt_dec 3 (/ 10)); [lra|reflexivity]).
  cbn [existsb snd]. rewrite Hw. cbn [orb fst snd]. unfold pseudo_depth. rewrite Hw, Eh, En. unfold vmid, vscale, vsub, vadd, locate. cbn [zipw map List.length last nth zipn].
  unfold ndiv. destruct (Req_EM_T (5 / 2) 0); [lra|]. unfold nsub. cbn. do 2 f_equal. f_equal; [f_equal; field|]. f_equal. f_equal. field.
Qed.
