From Verif Require Import Py Vec VecDeriv PropsM LinSim SpecLinSim LinSimFacts Ray SpecRay RayFacts RayFacts2.
Local Open Scope R_scope.

(** ** Reciprocity *)
Lemma dist2_sym P Q : dist2 P Q = dist2 Q P.
Proof. unfold dist2. f_equal. ring. Qed.
Lemma point_sym P Q t : 0 < dist2 P Q -> point_at Q P t = point_at P Q (dist2 P Q - t).
Proof.
  intros H. unfold point_at. rewrite <- (dist2_sym P Q). set (M := dist2 P Q) in *. clearbody M.
  apply injective_projections; cbn [fst snd]; field; lra.
Qed.
Lemma stretch_sym P Q x0 x1 y0 y1 lo hi : 0 < dist2 P Q -> stretch P Q x0 x1 y0 y1 lo hi ->
  stretch Q P x0 x1 y0 y1 (dist2 P Q - hi) (dist2 P Q - lo).
Proof.
  intros HM [L H]. split; [lra|]. intros t. rewrite <- (dist2_sym P Q), point_sym by assumption.
  specialize (H (dist2 P Q - t)). split.
  - intros [Ht I]. assert (lo <= dist2 P Q - t <= hi) by (apply H; split; [lra|assumption]). lra.
  - intros Ht. destruct (proj2 H) as [A B]; [lra|]. split; [lra|assumption].
Qed.
Lemma lic_sym P Q x0 x1 y0 y1 : 0 < dist2 P Q -> x0 <= x1 -> y0 <= y1 ->
  length_in_cell P (dvec P Q) x0 x1 y0 y1 = length_in_cell Q (dvec Q P) x0 x1 y0 y1.
Proof.
  intros HM Hx Hy. assert (HM' : 0 < dist2 Q P) by (rewrite <- dist2_sym; assumption).
  pose proof (lic_spec P Q _ _ _ _ HM Hx Hy) as S1. pose proof (lic_spec Q P _ _ _ _ HM' Hx Hy) as S2.
  destruct (length_in_cell P _ _ _ _ _), (length_in_cell Q _ _ _ _ _); try reflexivity.
  - destruct S1 as (lo & hi & S1 & ->). destruct S2 as (lo' & hi' & S2 & ->).
    apply stretch_sym in S1; [|assumption]. destruct (stretch_unique _ _ _ _ _ _ _ _ _ _ S1 S2). f_equal; lra.
  - exfalso. destruct S1 as (lo & hi & S1 & _). apply stretch_sym in S1; [|assumption]. destruct S1 as [L S1].
    destruct (proj2 (S1 (dist2 P Q - hi)) (conj (Rle_refl _) L)) as [A B]. exact (S2 _ A B).
  - exfalso. destruct S2 as (lo & hi & S2 & _). apply stretch_sym in S2; [|assumption]. destruct S2 as [L S2].
    destruct (proj2 (S2 (dist2 Q P - hi)) (conj (Rle_refl _) L)) as [A B]. exact (S1 _ A B).
Qed.
Lemma flat_map_ext' {A B} (f g : A -> list B) l : (forall x, In x l -> f x = g x) -> flat_map f l = flat_map g l.
Proof. induction l as [|a l IH]; cbn; intros H; [reflexivity|]. rewrite H by auto. rewrite IH by auto. reflexivity. Qed.
Lemma c60_reciprocity m P Q : good_mesh m -> 0 < dist2 P Q -> line_integral m P Q = line_integral m Q P.
Proof.
  intros G HM. unfold line_integral. replace (hits m Q P) with (hits m P Q); [reflexivity|].
  unfold hits. apply flat_map_ext'. intros i Hi. apply in_seq in Hi. apply flat_map_ext'. intros j Hj. apply in_seq in Hj.
  unfold cell_length. fold (dvec P Q) (dvec Q P). rewrite lic_sym; [reflexivity|assumption| |]; rewrite Nat.add_1_r; left; [apply mesh_x|apply mesh_y]; assumption || lia.
Qed.

(** ** When the loop succeeds *)
Lemma find_cell l : forall x, (2 <= length l)%nat -> nth 0 l 0 <= x <= nth (length l - 1) l 0 -> exists i, (i < length l - 1)%nat /\ nth i l 0 <= x <= nth (S i) l 0.
Proof.
  intros x. assert (G : forall k, (k < length l)%nat -> (1 <= k)%nat -> nth 0 l 0 <= x <= nth k l 0 -> exists i, (i < k)%nat /\ nth i l 0 <= x <= nth (S i) l 0).
  { induction k as [|k IH]; intros Hk H1 Hx; [lia|]. destruct (Rle_dec (nth k l 0) x) as [L|L]; [exists k; split; [lia|lra]|].
    destruct k as [|k]; [lra|]. destruct IH as (i & Hi & HI); [lia|lia|lra|]. exists i; split; [lia|assumption]. }
  intros Hl Hx. apply (G (length l - 1)%nat); [lia|lia|assumption].
Qed.
Lemma meets_ok m P Q : good_mesh m -> meets m (P, Q) -> exists h, line_integral m P Q = Ok h.
Proof.
  intros G [HM (t & Ht & [I1 I2])]. cbn [fst snd] in HM, Ht. destruct G as (Gx & Gy & Lx & Ly).
  destruct (find_cell (nodes_x m) (fst (point_at P Q t)) Lx I1) as (i & Hi & Ci).
  destruct (find_cell (nodes_y m) (snd (point_at P Q t)) Ly I2) as (j & Hj & Cj).
  assert (exists v, cell_length m P Q i j = Some v) as [v Hv].
  { unfold cell_length. rewrite !Nat.add_1_r. fold (dvec P Q).
    pose proof (lic_spec P Q (nth i (nodes_x m) 0) (nth (S i) (nodes_x m) 0) (nth j (nodes_y m) 0) (nth (S j) (nodes_y m) 0) HM ltac:(lra) ltac:(lra)) as S.
    destruct (length_in_cell _ _ _ _ _ _) as [v|]; [eauto|]. exfalso. apply (S t Ht). split; assumption. }
  assert (H : In ((i, j), v) (hits m P Q)) by (apply hits_in; auto).
  unfold line_integral. destruct (hits m P Q); [destruct H|eauto].
Qed.
Lemma not_meets m P Q : good_mesh m -> ~ meets m (P, Q) -> line_integral m P Q = Err TypeError.
Proof.
  intros G N. unfold line_integral. destruct (hits m P Q) as [|[[i j] v] l] eqn:E; [reflexivity|exfalso; apply N].
  assert (H : In ((i, j), v) (hits m P Q)) by (rewrite E; left; reflexivity). apply hits_in in H. destruct H as (Hi & Hj & H).
  unfold cell_length in H. rewrite !Nat.add_1_r in H. fold (dvec P Q) in H.
  assert (HM : 0 < dist2 P Q).
  { unfold length_in_cell in H. rewrite dvec_len in H. destruct (Req_EM_T (dist2 P Q) 0); [discriminate|].
    assert (0 <= dist2 P Q) by apply sqrt_pos. lra. }
  split; [exact HM|].
  pose proof (lic_spec P Q _ _ _ _ HM (Rlt_le _ _ (mesh_x m i G Hi)) (Rlt_le _ _ (mesh_y m j G Hj))) as SS. rewrite H in SS.
  destruct SS as (lo & hi & [L SS] & _). destruct (proj2 (SS lo) (conj (Rle_refl _) L)) as [A [B C]]. exists lo. split; [exact A|].
  destruct G as (Gx & Gy & Lx & Ly). unfold ncx, ncy in *.
  assert (X : forall l k, increasing l -> (k < length l)%nat -> nth 0 l 0 <= nth k l 0 <= nth (length l - 1) l 0).
  { intros l0 k I Hk. split.
    - destruct k; [lra|left; apply increasing_nth; [assumption|lia]].
    - destruct (Nat.eq_dec k (length l0 - 1)) as [->|]; [lra|left; apply increasing_nth; [assumption|lia]]. }
  pose proof (X (nodes_x m) i Gx ltac:(lia)). pose proof (X (nodes_x m) (S i) Gx ltac:(lia)).
  pose proof (X (nodes_y m) j Gy ltac:(lia)). pose proof (X (nodes_y m) (S j) Gy ltac:(lia)).
  split; unfold first_node, last_node; cbn [fst snd] in *; lra.
Qed.
Lemma c60_raises m P Q : good_mesh m -> (line_integral m P Q = Err TypeError <-> ~ meets m (P, Q)).
Proof.
  intros G. split; [|apply not_meets; assumption]. intros E N. destruct (meets_ok m P Q G N) as [h H]. congruence.
Qed.
Lemma fill_ok m rays : good_mesh m -> Forall (meets m) rays -> exists A, fill m rays = (A, None) /\ is_ray_matrix m rays A.
Proof.
  intros G H. induction H as [|[P Q] rays HR H IH].
  - exists []. split; [reflexivity|]. split; [reflexivity|]. intros k Hk; cbn in Hk; lia.
  - destruct IH as (A & E & [L IH]). cbn [fill]. destruct (meets_ok m P Q G HR) as [h Hh]. rewrite Hh, E.
    exists (row_of (ncells m) h :: A). split; [reflexivity|]. split; [cbn; lia|]. intros [|k] Hk; cbn [nth fst snd].
    + apply line_is_row; [assumption|apply HR|assumption].
    + apply IH. cbn in Hk; lia.
Qed.
Lemma matrix_is_mat m rays A : is_ray_matrix m rays A -> is_mat (length rays) (ncells m) A.
Proof.
  intros [L H]. split; [assumption|]. apply Forall_forall. intros r Hr. destruct (In_nth _ _ [] Hr) as (k & Hk & <-). apply (H k). lia.
Qed.
Lemma matrix_unique m rays A B : good_mesh m -> Forall (meets m) rays -> is_ray_matrix m rays A -> is_ray_matrix m rays B -> A = B.
Proof.
  intros G F HA HB. apply (nth_ext _ _ [] []); [destruct HA, HB; congruence|]. intros k Hk. destruct HA as [LA HA], HB as [LB HB].
  rewrite LA in Hk. specialize (HA k Hk). specialize (HB k Hk).
  assert (HM : 0 < dist2 (fst (nth k rays ((0,0),(0,0)))) (snd (nth k rays ((0,0),(0,0))))).
  { rewrite Forall_forall in F. apply (F (nth k rays ((0,0),(0,0)))). apply nth_In; assumption. }
  apply vec_ext; [rewrite (proj1 HA), (proj1 HB); reflexivity|]. intros q Hq. rewrite (proj1 HA) in Hq. unfold ncells in Hq.
  assert (ncx m <> 0)%nat by nia. rewrite (Nat.div_mod q (ncx m) H). replace (ncx m * (q / ncx m) + q mod ncx m)%nat with (q mod ncx m + (q / ncx m) * ncx m)%nat by lia.
  assert (q mod ncx m < ncx m)%nat by (apply Nat.mod_upper_bound; assumption).
  assert (q / ncx m < ncy m)%nat by (apply Nat.div_lt_upper_bound; [assumption|lia]).
  rewrite (row_len _ _ _ _ _ _ G HM HA), (row_len _ _ _ _ _ _ G HM HB) by assumption. reflexivity.
Qed.

(** ** Histories *)
Definition inv (m : mesh2) (rays : list ((R * R) * (R * R))) (s : raysim) : Prop :=
  r_mesh s = m /\ r_rays s = rays /\ match r_A s with None => True | Some A => is_ray_matrix m rays A end.
Lemma get_A_ok m rays s : good_mesh m -> Forall (meets m) rays -> inv m rays s ->
  exists A, snd (get_A s) = Ok A /\ is_ray_matrix m rays A /\ inv m rays (fst (get_A s)) /\ r_map (fst (get_A s)) = r_map s.
Proof.
  intros G F (I1 & I2 & I3). unfold get_A. destruct (r_A s) as [A|] eqn:E.
  - exists A. cbn [fst snd]. split; [reflexivity|]. split; [exact I3|]. split; [|reflexivity]. split; [assumption|]. split; [assumption|]. rewrite E. exact I3.
  - rewrite I1, I2. destruct (fill_ok m rays G F) as (A & -> & HA). exists A. cbn [fst snd]. split; [reflexivity|]. split; [exact HA|]. split; [|reflexivity]. split; [reflexivity|]. split; [reflexivity|]. exact HA.
Qed.
Lemma rstep_inv m rays s o : good_mesh m -> Forall (meets m) rays -> keeps o -> inv m rays s -> inv m rays (rstep s o).
Proof.
  intros G F K I. destruct (get_A_ok m rays s G F I) as (A & _ & _ & J & _).
  destruct o; try contradiction K; cbn [rstep]; unfold rfields, rjvec, rjtvec; destruct (get_A s) as [s1 r]; cbn [fst] in *; try exact J.
  destruct I as (I1 & I2 & I3). repeat split; assumption.
Qed.
Lemma rrun_inv m rays l : good_mesh m -> Forall (meets m) rays -> forall s, Forall keeps l -> inv m rays s -> inv m rays (rrun s l).
Proof.
  intros G F. induction l as [|o l IH]; intros s K I; [exact I|]. cbn. apply IH; [apply (Forall_inv_tail K)|].
  apply rstep_inv; try assumption. apply (Forall_inv K).
Qed.
Lemma mdot_ok k n M v : is_mat k n M -> length v = n -> mdot M v = Ok (mv M v).
Proof.
  intros [_ H] L. unfold mdot. replace (forallb _ M) with true; [reflexivity|]. symmetry. apply forallb_forall.
  intros r Hr. rewrite Forall_forall in H. rewrite (H r Hr), L. apply Nat.eqb_refl.
Qed.
Lemma mtdot_ok k n M w : length M = k -> length w = k -> mtdot n M w = Ok (mtv n M w).
Proof. intros H L. unfold mtdot. rewrite H, L, Nat.eqb_refl. reflexivity. Qed.
Lemma c60_data m rays f0 l n x : good_mesh m -> Forall (meets m) rays -> Forall keeps l ->
  let s := rrun (rinit m rays f0) l in map_ok n (ncells m) (r_map s) -> length x = n ->
  exists A, is_ray_matrix m rays A /\ snd (rfields s x) = Ok (mv A (pm_val (r_map s) x)).
Proof.
  intros G F K s MO L. assert (I : inv m rays s) by (apply rrun_inv; try assumption; repeat split).
  destruct (get_A_ok m rays s G F I) as (A & E & HA & _). exists A. split; [exact HA|].
  unfold rfields. destruct (get_A s) as [s1 r]. cbn [snd] in *. subst r. cbn [bind].
  apply (mdot_ok (length rays) (ncells m)); [apply matrix_is_mat; assumption|]. apply (proj2 MO x L).
Qed.
Lemma c60_derivative m rays f0 l n x : good_mesh m -> Forall (meets m) rays -> Forall keeps l ->
  let s := rrun (rinit m rays f0) l in map_ok n (ncells m) (r_map s) -> length x = n ->
  exists F J, (forall y, length y = n -> snd (rfields s y) = Ok (F y)) /\ (forall v, length v = n -> snd (rjvec s x v) = Ok (J v)) /\
    has_jacobian n (length rays) F x J.
Proof.
  intros G F K s MO L. assert (I : inv m rays s) by (apply rrun_inv; try assumption; repeat split).
  destruct (get_A_ok m rays s G F I) as (A & E & HA & _). pose proof (matrix_is_mat _ _ _ HA) as HM.
  exists (fun y => mv A (pm_val (r_map s) y)), (fun v => mv A (mv (pm_deriv (r_map s) x) v)). split; [|split].
  - intros y Ly. unfold rfields. destruct (get_A s) as [s1 r]. cbn [snd] in *. subst r. cbn [bind].
    apply (mdot_ok (length rays) (ncells m)); [assumption|]. apply (proj2 MO y Ly).
  - intros v Lv. unfold rjvec. destruct (get_A s) as [s1 r]. cbn [snd] in *. subst r. cbn [bind].
    destruct (proj2 MO x L) as (_ & HD & _). rewrite (mdot_ok (ncells m) n) by assumption. cbn [bind].
    apply (mdot_ok (length rays) (ncells m)); [assumption|]. rewrite mv_length. apply HD.
  - intros h Lh. apply (vderiv_mv (length rays) (ncells m)); [assumption|]. apply (proj2 MO x L). assumption.
Qed.
Lemma c60_adjoint m rays f0 l n x v w : good_mesh m -> Forall (meets m) rays -> Forall keeps l ->
  let s := rrun (rinit m rays f0) l in map_ok n (ncells m) (r_map s) -> length x = n -> length v = n -> length w = length rays ->
  exists a b, snd (rjvec s x v) = Ok a /\ snd (rjtvec n (ncells m) s x w) = Ok b /\ length a = length rays /\ length b = n /\ dot a w = dot v b.
Proof.
  intros G F K s MO L Lv Lw. assert (I : inv m rays s) by (apply rrun_inv; try assumption; repeat split).
  destruct (get_A_ok m rays s G F I) as (A & E & HA & _). pose proof (matrix_is_mat _ _ _ HA) as HM.
  destruct (proj2 MO x L) as (_ & HD & _).
  assert (LD : length (mv (pm_deriv (r_map s) x) v) = ncells m) by (rewrite mv_length; apply HD).
  assert (LA : length (mtv (ncells m) A w) = ncells m) by (apply (mtv_length (length rays)); assumption).
  exists (mv A (mv (pm_deriv (r_map s) x) v)), (mtv n (pm_deriv (r_map s) x) (mtv (ncells m) A w)).
  split; [|split; [|split; [|split]]].
  - unfold rjvec. destruct (get_A s) as [s1 r]. cbn [snd] in *. subst r. cbn [bind].
    rewrite (mdot_ok (ncells m) n) by assumption. cbn [bind]. apply (mdot_ok (length rays) (ncells m)); assumption.
  - unfold rjtvec. destruct (get_A s) as [s1 r]. cbn [snd] in *. subst r. cbn [bind].
    rewrite (mtdot_ok (length rays)) by (try assumption; apply HM). cbn [bind]. apply (mtdot_ok (ncells m)); [apply HD|assumption].
  - rewrite mv_length. apply HM.
  - apply (mtv_length (ncells m)); assumption.
  - rewrite dot_comm, (mv_mtv_adjoint (length rays) (ncells m)) by assumption. rewrite (mv_mtv_adjoint (ncells m) n) by assumption. apply dot_comm.
Qed.
