(** Active cells, tensor meshes, refinement. *)
From Verif Require Import Pf SpecPf PfFacts PfFacts2 PfFacts3 PfFacts4.
Local Open Scope R_scope.

(** *** Active cells. *)
Lemma uinsert_in x y l : In y (uinsert x l) <-> y = x \/ In y l.
Proof.
  induction l as [|z l IH]; cbn [uinsert]; [cbn; intuition congruence|].
  destruct (x <? z)%nat eqn:E1; [cbn [In]; intuition congruence|].
  destruct (x =? z)%nat eqn:E2; [apply Nat.eqb_eq in E2; subst z; cbn [In]; intuition congruence|].
  cbn [In]. rewrite IH. intuition congruence.
Qed.
Lemma unique_in y l : In y (unique l) <-> In y l.
Proof. induction l as [|x l IH]; cbn [unique fold_right In]; [tauto|]. fold (unique l). rewrite uinsert_in, IH. intuition congruence. Qed.
Lemma position_nth x l : In x l -> nth (position x l) l 0%nat = x /\ (position x l < length l)%nat.
Proof.
  induction l as [|y l IH]; cbn; [tauto|]. intros H.
  destruct (x =? y)%nat eqn:E; [apply Nat.eqb_eq in E; subst; split; [reflexivity|lia]|].
  apply Nat.eqb_neq in E. destruct H as [H|H]; [subst; contradiction|]. destruct (IH H). split; [assumption|lia].
Qed.
Lemma masked_map {A B} (f : A -> B) : forall m l, masked m (map f l) = map f (masked m l).
Proof. induction m as [|b m IH]; intros [|x l]; cbn; auto. destruct b; cbn; rewrite IH; reflexivity. Qed.
Lemma masked_in {A} (x : A) : forall m l, In x (masked m l) -> In x l.
Proof. induction m as [|b m IH]; intros [|y l]; cbn; try tauto; destruct b; cbn; firstorder. Qed.
Lemma masked_all {A} : forall m (l : list A), length m = length l -> length (filter (fun b : bool => b) m) = length l -> masked m l = l.
Proof.
  induction m as [|b m IH]; intros [|x l] L F; cbn in *; try lia; auto.
  assert (length (filter (fun b : bool => b) m) <= length m)%nat by (clear; induction m as [|b m IH]; cbn; [lia|destruct b; cbn; lia]).
  destruct b; cbn in F; [|lia]. f_equal. apply IH; lia.
Qed.
Section Active.
  Context (nodes : list pt) (cells : list (list nat)) (m : list bool).
  Context (Hgood : good_mesh (nodes, cells)).
  Let u := unique (concat (masked m cells)).
  Let pos := map (fun i => position i u).
  Lemma act_corner cell j : In cell (masked m cells) -> (j < 8)%nat ->
    corner (g_active nodes cells m) (pos cell) j = corner (nodes, cells) cell j /\ (nth j (pos cell) 0 < length (fst (g_active nodes cells m)))%nat.
  Proof.
    intros Hc Hj. unfold good_mesh in Hgood. rewrite Forall_forall in Hgood.
    destruct (Hgood cell (masked_in _ _ _ Hc)) as [L8 F].
    unfold corner, g_active; cbn [fst snd]. fold u. fold pos.
    assert (Hin : In (nth j cell 0%nat) u).
    { unfold u. apply unique_in. apply in_concat. exists cell. split; [exact Hc|]. apply nth_In. lia. }
    destruct (position_nth _ _ Hin) as [E Lt].
    unfold pos. rewrite (nth_map_in (fun i => position i u) cell j 0%nat) by lia.
    rewrite map_length. split; [|exact Lt].
    rewrite (nth_map_in (fun i => nth i nodes (mkpt 0 0 0)) u _ 0%nat) by exact Lt. rewrite E. reflexivity.
  Qed.
  Lemma act_value f loc cell : In cell (masked m cells) ->
    cell_value f (g_active nodes cells m) loc (pos cell) = cell_value f (nodes, cells) loc cell.
  Proof.
    intros Hc. unfold cell_value. cbv zeta.
    rewrite !(fun j H => proj1 (act_corner cell j Hc H)) by lia. reflexivity.
  Qed.
  Lemma act_good : good_mesh (g_active nodes cells m).
  Proof.
    unfold good_mesh. apply Forall_forall. intros c Hc.
    assert (Hc' : exists cell, pos cell = c /\ In cell (masked m cells)) by (apply in_map_iff; exact Hc).
    destruct Hc' as (cell & <- & Hin).
    pose proof Hgood as G. unfold good_mesh in G. rewrite Forall_forall in G. destruct (G cell (masked_in _ _ _ Hin)) as [L8 _].
    split; [unfold pos; rewrite map_length; exact L8|].
    apply Forall_forall. intros i Hi. apply (In_nth _ _ 0%nat) in Hi. destruct Hi as (j & Hj & <-).
    unfold pos in Hj. rewrite map_length in Hj. apply act_corner; [exact Hin|]. cbn [snd] in L8. lia.
  Qed.
  Lemma act_map (h : pmesh -> list nat -> R) :
    (forall cell, In cell (masked m cells) -> h (g_active nodes cells m) (pos cell) = h (nodes, cells) cell) ->
    map (h (g_active nodes cells m)) (snd (g_active nodes cells m)) = masked m (map (h (nodes, cells)) cells).
  Proof.
    intros H. rewrite masked_map. change (snd (g_active nodes cells m)) with (map pos (masked m cells)). rewrite map_map.
    apply map_ext_in. exact H.
  Qed.
  Lemma act_gravity K Gn c loc : gravity_response K Gn (g_active nodes cells m) c loc = masked m (gravity_response K Gn (nodes, cells) c loc).
  Proof.
    unfold gravity_response. apply (act_map (fun mesh cell => Gn * gravity_units c * cell_value (gravity_function K c) mesh loc cell)).
    intros cell Hc. rewrite act_value by exact Hc. reflexivity.
  Qed.
  Lemma act_magnetic K d a c loc : magnetic_vector_response K d a (g_active nodes cells m) c loc
    = masked (m ++ m ++ m) (magnetic_vector_response K d a (nodes, cells) c loc) \/ length m <> length cells.
  Proof.
    destruct (Nat.eq_dec (length m) (length cells)) as [L|N]; [left|right; exact N].
    unfold magnetic_vector_response. cbn [flat_map]. rewrite !app_nil_r.
    assert (G : forall ax, map (fun cell => a / (4 * PI) * cell_value (magnetic_function K d c ax) (g_active nodes cells m) loc cell) (snd (g_active nodes cells m))
       = masked m (map (fun cell => a / (4 * PI) * cell_value (magnetic_function K d c ax) (nodes, cells) loc cell) (snd (nodes, cells)))).
    { intros ax. apply (act_map (fun mesh cell => a / (4 * PI) * cell_value (magnetic_function K d c ax) mesh loc cell)).
      intros cell Hc. rewrite act_value by exact Hc. reflexivity. }
    rewrite !G.
    assert (A : forall (m1 m2 : list bool) (l1 l2 : vec), length m1 = length l1 -> masked (m1 ++ m2) (l1 ++ l2) = masked m1 l1 ++ masked m2 l2).
    { induction m1 as [|b m1 IH]; intros m2 [|x l1] l2 L1; cbn in *; try lia; auto. destruct b; cbn; rewrite IH by lia; reflexivity. }
    rewrite !A by (rewrite map_length; exact L). reflexivity.
  Qed.
  Lemma act_choclo : length m = length cells ->
    c_active nodes cells m = g_active nodes cells m \/ (c_active nodes cells m = (nodes, cells) /\ forall B (l : list B), length l = length cells -> masked m l = l).
  Proof.
    intros L. unfold c_active. destruct (Nat.eqb_spec (length (filter (fun b => b) m)) (length cells)) as [E|N]; [right|left; reflexivity].
    split; [reflexivity|]. intros B l Hl. apply masked_all; congruence.
  Qed.
End Active.

(** *** Tensor meshes. *)
Lemma nth_flat_const {A B} (g : A -> list B) n d d0 : forall (l : list A) i r, (forall x, In x l -> length (g x) = n) -> (i < n)%nat -> (r < length l)%nat ->
  nth (i + n * r) (flat_map g l) d = nth i (g (nth r l d0)) d.
Proof.
  induction l as [|x l IH]; intros i r H Hi Hr; cbn in Hr; [lia|].
  cbn [flat_map]. assert (L : length (g x) = n) by (apply H; left; reflexivity).
  destruct r as [|r].
  - rewrite Nat.mul_0_r, Nat.add_0_r. rewrite app_nth1 by lia. reflexivity.
  - rewrite app_nth2 by (rewrite L; nia). rewrite L. replace (i + n * S r - n)%nat with (i + n * r)%nat by nia.
    cbn [nth]. apply IH; [intros; apply H; right; assumption|exact Hi|lia].
Qed.
Lemma flat_map_const_length {A B} (g : A -> list B) n (l : list A) : (forall x, In x l -> length (g x) = n) -> length (flat_map g l) = (n * length l)%nat.
Proof.
  induction l as [|x l IH]; intros H; cbn; [lia|]. rewrite app_length, H by (left; reflexivity). rewrite IH by (intros; apply H; right; assumption). nia.
Qed.
Lemma tnodes_nth xs ys zs i j k : (i < length xs)%nat -> (j < length ys)%nat -> (k < length zs)%nat ->
  nth (i + length xs * (j + length ys * k)) (tnodes xs ys zs) (mkpt 0 0 0) = mkpt (nth i xs 0) (nth j ys 0) (nth k zs 0).
Proof.
  intros Hi Hj Hk. unfold tnodes.
  assert (Hin : forall z, length (flat_map (fun y => map (fun x => mkpt x y z) xs) ys) = (length xs * length ys)%nat).
  { intros z. apply flat_map_const_length. intros. apply map_length. }
  replace (i + length xs * (j + length ys * k))%nat with ((i + length xs * j) + (length xs * length ys) * k)%nat by nia.
  rewrite (nth_flat_const _ (length xs * length ys) (mkpt 0 0 0) 0) by (try (intros; apply Hin); try lia; nia).
  rewrite (nth_flat_const _ (length xs) (mkpt 0 0 0) 0) by (try (intros; apply map_length); lia).
  rewrite (nth_map_in _ _ _ 0) by lia. reflexivity.
Qed.
Lemma tnodes_length xs ys zs : length (tnodes xs ys zs) = (length xs * length ys * length zs)%nat.
Proof.
  unfold tnodes. apply flat_map_const_length. intros z _. apply flat_map_const_length. intros; apply map_length.
Qed.
Lemma tcell_value F xs ys zs loc i j k : (i + 1 < length xs)%nat -> (j + 1 < length ys)%nat -> (k + 1 < length zs)%nat ->
  cell_value F (tmesh xs ys zs) loc (tcell (length xs) (length ys) i j k)
  = - prism F (nth i xs 0 - px loc) (nth (i + 1) xs 0 - px loc) (nth j ys 0 - py loc) (nth (j + 1) ys 0 - py loc) (nth k zs 0 - pz loc) (nth (k + 1) zs 0 - pz loc).
Proof.
  intros Hi Hj Hk. unfold cell_value, corner, tmesh, tcell; cbn [fst snd nth]. cbv zeta.
  rewrite !tnodes_nth by lia. cbn [px py pz]. unfold prism. ring.
Qed.
Lemma tcells_good xs ys zs : good_mesh (tmesh xs ys zs).
Proof.
  unfold good_mesh, tmesh; cbn [fst snd]. apply Forall_forall. intros c Hc. unfold tcells in Hc.
  apply in_flat_map in Hc. destruct Hc as (k & Hk & Hc). apply in_flat_map in Hc. destruct Hc as (j & Hj & Hc).
  apply in_map_iff in Hc. destruct Hc as (i & <- & Hi). apply in_seq in Hi, Hj, Hk.
  split; [reflexivity|]. rewrite tnodes_length.
  assert (B : forall a b c, (a < length xs)%nat -> (b < length ys)%nat -> (c < length zs)%nat -> (a + length xs * (b + length ys * c) < length xs * length ys * length zs)%nat).
  { intros a b c Ha Hb Hc. assert (b + length ys * c < length ys * length zs)%nat by nia. nia. }
  unfold tcell. repeat (apply Forall_cons; [apply B; lia|]). apply Forall_nil.
Qed.

(** Sums over intervals. *)
Lemma oi_cons {B} (S : R -> R -> B -> R) a b nodes v vals : over_intervals S (a :: b :: nodes) (v :: vals) = S a b v + over_intervals S (b :: nodes) vals.
Proof. reflexivity. Qed.
Lemma oi_ext_in {B} (S T : R -> R -> B -> R) : forall nodes vals, (forall a b v, In v vals -> S a b v = T a b v) -> over_intervals S nodes vals = over_intervals T nodes vals.
Proof.
  induction nodes as [|a nodes IH]; intros vals H; [reflexivity|].
  destruct nodes as [|b nodes]; [reflexivity|]. destruct vals as [|v vals]; [reflexivity|].
  rewrite !oi_cons. rewrite H by (left; reflexivity). f_equal. apply IH. intros; apply H; right; assumption.
Qed.
Lemma oi_seq {B} (S : R -> R -> B -> R) : forall nodes vals r0 full, skipn r0 full = nodes -> length vals = (length nodes - 1)%nat ->
  over_intervals S nodes vals = vsum (map (fun kv => S (nth (fst kv) full 0) (nth (fst kv + 1) full 0) (snd kv)) (combine (seq r0 (length nodes - 1)) vals)).
Proof.
  assert (SK : forall r0 (full : vec) a rest, skipn r0 full = a :: rest -> nth r0 full 0 = a /\ skipn (Datatypes.S r0) full = rest).
  { induction r0 as [|r0 IH]; intros [|x full] a rest E; cbn in *; try discriminate.
    - injection E as -> ->. auto.
    - destruct (IH _ _ _ E) as [E1 E2]. split; [exact E1|exact E2]. }
  induction nodes as [|a nodes IH]; intros vals r0 full E L; [reflexivity|].
  destruct nodes as [|b nodes]; [reflexivity|]. destruct vals as [|v vals]; [cbn in L; lia|].
  destruct (SK _ _ _ _ E) as [E1 E2]. destruct (SK _ _ _ _ E2) as [E3 _].
  rewrite oi_cons. cbn [length Nat.sub seq combine map vsum fst snd].
  rewrite E1. replace (r0 + 1)%nat with (Datatypes.S r0) by lia. rewrite E3. f_equal.
  rewrite (IH vals (Datatypes.S r0) full E2) by (cbn in L |- *; lia). cbn [length]. rewrite Nat.sub_succ, Nat.sub_0_r. reflexivity.
Qed.
Lemma oi_seq0 {B} (S : R -> R -> B -> R) nodes vals : length vals = (length nodes - 1)%nat ->
  over_intervals S nodes vals = vsum (map (fun kv => S (nth (fst kv) nodes 0) (nth (fst kv + 1) nodes 0) (snd kv)) (combine (seq 0 (length nodes - 1)) vals)).
Proof. apply oi_seq. reflexivity. Qed.
Lemma oi_scale {B} c (S : R -> R -> B -> R) : forall nodes vals, over_intervals (fun a b v => c * S a b v) nodes vals = c * over_intervals S nodes vals.
Proof.
  induction nodes as [|a nodes IH]; intros vals; [cbn; ring|]. destruct nodes as [|b nodes]; [cbn; ring|].
  destruct vals as [|v vals]; [cbn; ring|]. rewrite !oi_cons. rewrite IH. ring.
Qed.
Lemma oi_add {B} (S T : R -> R -> B -> R) : forall nodes vals, over_intervals (fun a b v => S a b v + T a b v) nodes vals = over_intervals S nodes vals + over_intervals T nodes vals.
Proof.
  induction nodes as [|a nodes IH]; intros vals; [cbn; ring|]. destruct nodes as [|b nodes]; [cbn; ring|].
  destruct vals as [|v vals]; [cbn; ring|]. rewrite !oi_cons. rewrite IH. ring.
Qed.
Lemma oi_map {A B} (S : R -> R -> B -> R) (g : A -> B) : forall nodes vals, over_intervals S nodes (map g vals) = over_intervals (fun a b v => S a b (g v)) nodes vals.
Proof.
  induction nodes as [|a nodes IH]; intros vals; [reflexivity|]. destruct nodes as [|b nodes]; [reflexivity|].
  destruct vals as [|v vals]; [reflexivity|]. cbn [map]. rewrite !oi_cons. f_equal. apply IH.
Qed.
Lemma oi_cut {B} (S : R -> R -> B -> R) x : (forall a b c v, S a c v = S a b v + S b c v) ->
  forall p nodes vals, (p + 1 < length nodes)%nat -> length vals = (length nodes - 1)%nat ->
  over_intervals S (cut p x nodes) (copied p vals) = over_intervals S nodes vals.
Proof.
  intros Add. induction p as [|p IH]; intros nodes vals Hp L.
  - destruct nodes as [|a [|b nodes]]; cbn in Hp, L; try lia. destruct vals as [|v vals]; cbn in L; try lia.
    unfold cut; cbn [firstn skipn app copied]. rewrite !oi_cons. rewrite (Add a x b v). ring.
  - destruct nodes as [|a nodes]; cbn in Hp, L; try lia.
    destruct vals as [|v vals]; [cbn in L; lia|]. cbn [length] in L.
    specialize (IH nodes vals ltac:(lia) ltac:(lia)).
    change (cut (Datatypes.S p) x (a :: nodes)) with (a :: cut p x nodes). cbn [copied].
    destruct nodes as [|b nodes]; [cbn in Hp; lia|].
    unfold cut in IH |- *; cbn [firstn skipn app] in IH |- *.
    rewrite !oi_cons. rewrite IH. reflexivity.
Qed.
Lemma oi_tele {B} (S : R -> R -> B -> R) (T : R -> R) v0 : (forall a b, S a b v0 = T b - T a) ->
  forall nodes vals, length vals = (length nodes - 1)%nat -> Forall (eq v0) vals -> (0 < length nodes)%nat ->
  over_intervals S nodes vals = T (last nodes 0) - T (hd 0 nodes).
Proof.
  intros E. induction nodes as [|a nodes IH]; intros vals L F Hn; [cbn in Hn; lia|].
  destruct nodes as [|b nodes]; [cbn; ring|]. destruct vals as [|v vals]; [cbn in L; lia|].
  inversion F as [|? ? Ev Fv]; subst v. cbn [length] in L.
  rewrite oi_cons. change (last (a :: b :: nodes) 0) with (last (b :: nodes) 0). cbn [hd].
  rewrite (IH vals) by (try assumption; cbn [length] in *; lia). rewrite E. cbn [hd]. ring.
Qed.

(** The model on a tensor grid. *)
Lemma dot_flat_concat {A} (g : A -> vec) : forall (ks : list A) (vals : list vec), length ks = length vals ->
  (forall k v, In (k, v) (combine ks vals) -> length (g k) = length v) ->
  dot (flat_map g ks) (concat vals) = vsum (map (fun kv => dot (g (fst kv)) (snd kv)) (combine ks vals)).
Proof.
  induction ks as [|k ks IH]; intros [|v vals] L H; cbn in L; try lia; [reflexivity|].
  cbn [flat_map concat combine map vsum fst snd].
  rewrite dot_app_same by (apply H; left; reflexivity). f_equal. apply IH; [lia|]. intros; apply H; right; assumption.
Qed.
Lemma map_flat_map {A B C} (f : B -> C) (g : A -> list B) l : map f (flat_map g l) = flat_map (fun x => map f (g x)) l.
Proof. induction l as [|x l IH]; cbn; [reflexivity|]. rewrite map_app, IH. reflexivity. Qed.
Lemma tensor_forward F xs ys zs loc rho : grid_shape (length xs) (length ys) (length zs) rho ->
  dot (map (cell_value F (tmesh xs ys zs) loc) (snd (tmesh xs ys zs))) (concat (map (@concat R) rho)) = - block_response F loc xs ys zs rho.
Proof.
  intros [L H]. unfold tmesh at 2; cbn [snd]. unfold tcells.
  rewrite map_flat_map.
  assert (Hlen : forall k, length (map (cell_value F (tmesh xs ys zs) loc) (flat_map (fun j => map (fun i => tcell (length xs) (length ys) i j k) (seq 0 (length xs - 1))) (seq 0 (length ys - 1)))) = ((length xs - 1) * (length ys - 1))%nat).
  { intros k. rewrite map_length. rewrite (flat_map_const_length _ (length xs - 1)); [rewrite seq_length; lia|]. intros; rewrite map_length, seq_length; reflexivity. }
  assert (Hlr : forall plane, In plane rho -> length (concat plane) = ((length xs - 1) * (length ys - 1))%nat).
  { intros plane Hp. rewrite Forall_forall in H. destruct (H _ Hp) as [L1 F1].
    rewrite <- L1. clear - F1. induction F1 as [|l p Hl Hp IH]; cbn; [lia|]. rewrite app_length, IH, Hl. nia. }
  rewrite dot_flat_concat.
  2:{ rewrite seq_length, map_length. lia. }
  2:{ intros k v Hv. rewrite Hlen. apply in_combine_r in Hv. apply in_map_iff in Hv. destruct Hv as (plane & <- & Hp). rewrite Hlr; auto. }
  unfold block_response. rewrite oi_seq0 by exact L.
  replace (combine (seq 0 (length zs - 1)) (map (@concat R) rho)) with (map (fun kp => (fst kp, @concat R (snd kp))) (combine (seq 0 (length zs - 1)) rho)).
  2:{ clear. generalize 0%nat as r0, (length zs - 1)%nat as n. intros r0 n; revert r0 rho; induction n as [|n IH]; intros r0 [|p rho]; cbn; auto. f_equal. apply IH. }
  rewrite map_map.
  assert (Opp : forall (A : Type) (h : A -> R) l, - vsum (map h l) = vsum (map (fun x => - h x) l)).
  { intros A h l. induction l as [|x l IH]; cbn; [ring|]. rewrite <- IH. ring. }
  rewrite Opp. apply vsum_ext_in. intros [k plane] Hkp. cbn [fst snd].
  assert (Hk : (k + 1 < length zs)%nat) by (apply in_combine_l in Hkp; apply in_seq in Hkp; lia).
  apply in_combine_r in Hkp. rewrite Forall_forall in H. destruct (H _ Hkp) as [L1 F1].
  rewrite map_flat_map. rewrite dot_flat_concat.
  2:{ rewrite seq_length. lia. }
  2:{ intros j v Hv. rewrite !map_length, seq_length. apply in_combine_r in Hv. rewrite Forall_forall in F1. symmetry. apply F1. exact Hv. }
  rewrite oi_seq0 by exact L1. rewrite Opp. apply vsum_ext_in. intros [j line] Hjl. cbn [fst snd].
  assert (Hj : (j + 1 < length ys)%nat) by (apply in_combine_l in Hjl; apply in_seq in Hjl; lia).
  apply in_combine_r in Hjl. rewrite Forall_forall in F1. pose proof (F1 _ Hjl) as L2.
  rewrite oi_seq0 by exact L2. rewrite Opp. rewrite map_map.
  rewrite dot_map_combine. apply vsum_ext_in. intros [i v] Hiv. cbn [fst snd].
  assert (Hi : (i + 1 < length xs)%nat) by (apply in_combine_l in Hiv; apply in_seq in Hiv; lia).
  rewrite tcell_value by assumption. ring.
Qed.

Lemma prism_x F x1 x2 x3 y1 y2 z1 z2 : prism F x1 x3 y1 y2 z1 z2 = prism F x1 x2 y1 y2 z1 z2 + prism F x2 x3 y1 y2 z1 z2.
Proof. unfold prism; ring. Qed.
Lemma prism_y F x1 x2 y1 y2 y3 z1 z2 : prism F x1 x2 y1 y3 z1 z2 = prism F x1 x2 y1 y2 z1 z2 + prism F x1 x2 y2 y3 z1 z2.
Proof. unfold prism; ring. Qed.
Lemma prism_z F x1 x2 y1 y2 z1 z2 z3 : prism F x1 x2 y1 y2 z1 z3 = prism F x1 x2 y1 y2 z1 z2 + prism F x1 x2 y1 y2 z2 z3.
Proof. unfold prism; ring. Qed.

Lemma refine_x F loc xs ys zs rho p x : grid_shape (length xs) (length ys) (length zs) rho -> (p + 1 < length xs)%nat ->
  block_response F loc (cut p x xs) ys zs (map (map (copied p)) rho) = block_response F loc xs ys zs rho.
Proof.
  intros [L H] Hp. unfold block_response. rewrite oi_map. apply oi_ext_in. intros z1 z2 plane Hpl.
  rewrite oi_map. apply oi_ext_in. intros y1 y2 line Hl.
  apply oi_cut; [|exact Hp|].
  - intros a b c v. rewrite (prism_x F _ (b - px loc)). ring.
  - rewrite Forall_forall in H. destruct (H _ Hpl) as [_ F1]. rewrite Forall_forall in F1. apply F1; exact Hl.
Qed.
Lemma refine_y F loc xs ys zs rho p y : grid_shape (length xs) (length ys) (length zs) rho -> (p + 1 < length ys)%nat ->
  block_response F loc xs (cut p y ys) zs (map (copied p) rho) = block_response F loc xs ys zs rho.
Proof.
  intros [L H] Hp. unfold block_response. rewrite oi_map. apply oi_ext_in. intros z1 z2 plane Hpl.
  apply oi_cut; [|exact Hp|].
  - intros a b c line. rewrite <- oi_add. apply oi_ext_in. intros x1 x2 v _. rewrite (prism_y F _ _ _ (b - py loc)). ring.
  - rewrite Forall_forall in H. destruct (H _ Hpl) as [L1 _]. exact L1.
Qed.
Lemma refine_z F loc xs ys zs rho p z : grid_shape (length xs) (length ys) (length zs) rho -> (p + 1 < length zs)%nat ->
  block_response F loc xs ys (cut p z zs) (copied p rho) = block_response F loc xs ys zs rho.
Proof.
  intros [L H] Hp. unfold block_response. apply oi_cut; [|exact Hp|exact L].
  intros a b c plane. rewrite <- oi_add. apply oi_ext_in. intros y1 y2 line _.
  rewrite <- oi_add. apply oi_ext_in. intros x1 x2 v _. rewrite (prism_z F _ _ _ _ _ (b - pz loc)). ring.
Qed.
(** The shape of a refined model. *)
Lemma copied_length {A} : forall p (l : list A), (p < length l)%nat -> length (copied p l) = Datatypes.S (length l).
Proof. induction p as [|p IH]; intros [|x l] H; cbn in *; try lia. rewrite IH by lia. reflexivity. Qed.
Lemma cut_length p x nodes : length (cut p x nodes) = Datatypes.S (length nodes).
Proof.
  unfold cut. rewrite app_length. cbn [length]. rewrite firstn_length, skipn_length. lia.
Qed.
Lemma copied_in {A} (v : A) : forall p l, In v (copied p l) -> In v l.
Proof. induction p as [|p IH]; intros [|x l]; cbn; try tauto. intros [H|H]; [auto|right; apply IH; exact H]. Qed.
Lemma shape_x nx ny nz rho p : grid_shape nx ny nz rho -> (p + 1 < nx)%nat -> grid_shape (Datatypes.S nx) ny nz (map (map (copied p)) rho).
Proof.
  intros [L H] Hp. split; [rewrite map_length; exact L|]. apply Forall_map. eapply Forall_impl; [|exact H].
  intros plane [L1 F1]. split; [rewrite map_length; exact L1|]. apply Forall_map. eapply Forall_impl; [|exact F1].
  intros line E. cbn beta in E. rewrite copied_length by lia. lia.
Qed.
Lemma shape_y nx ny nz rho p : grid_shape nx ny nz rho -> (p + 1 < ny)%nat -> grid_shape nx (Datatypes.S ny) nz (map (copied p) rho).
Proof.
  intros [L H] Hp. split; [rewrite map_length; exact L|]. apply Forall_map. eapply Forall_impl; [|exact H].
  intros plane [L1 F1]. split; [rewrite copied_length by lia; lia|]. apply Forall_forall. intros line Hl. apply copied_in in Hl.
  rewrite Forall_forall in F1. apply F1. exact Hl.
Qed.
Lemma shape_z nx ny nz rho p : grid_shape nx ny nz rho -> (p + 1 < nz)%nat -> grid_shape nx ny (Datatypes.S nz) (copied p rho).
Proof.
  intros [L H] Hp. split; [rewrite copied_length by lia; lia|]. apply Forall_forall. intros plane Hl. apply copied_in in Hl.
  rewrite Forall_forall in H. apply H. exact Hl.
Qed.
(** A uniform model is one prism. *)
Lemma uniform F loc xs ys zs v rho : grid_shape (length xs) (length ys) (length zs) rho ->
  (0 < length xs)%nat -> (0 < length ys)%nat -> (0 < length zs)%nat ->
  Forall (Forall (Forall (eq v))) rho ->
  block_response F loc xs ys zs rho
  = v * prism F (hd 0 xs - px loc) (last xs 0 - px loc) (hd 0 ys - py loc) (last ys 0 - py loc) (hd 0 zs - pz loc) (last zs 0 - pz loc).
Proof.
  intros [L H] Hx Hy Hz FF. unfold block_response.
  set (X1 := hd 0 xs - px loc). set (X2 := last xs 0 - px loc). set (Y1 := hd 0 ys - py loc). set (Y2 := last ys 0 - py loc).
  transitivity (over_intervals (fun z1 z2 (_ : R) => v * prism F X1 X2 Y1 Y2 (z1 - pz loc) (z2 - pz loc)) zs (map (fun _ => v) rho)).
  - rewrite oi_map. apply oi_ext_in. intros z1 z2 plane Hp.
    rewrite Forall_forall in H, FF. destruct (H _ Hp) as [L1 F1]. specialize (FF _ Hp).
    transitivity (over_intervals (fun y1 y2 (_ : R) => v * prism F X1 X2 (y1 - py loc) (y2 - py loc) (z1 - pz loc) (z2 - pz loc)) ys (map (fun _ => v) plane)).
    + rewrite oi_map. apply oi_ext_in. intros y1 y2 line Hl. rewrite Forall_forall in F1, FF. specialize (F1 _ Hl). specialize (FF _ Hl).
      set (D := fun x : R => v * (F (x - px loc) (y2 - py loc) (z2 - pz loc) - F (x - px loc) (y1 - py loc) (z2 - pz loc) - (F (x - px loc) (y2 - py loc) (z1 - pz loc) - F (x - px loc) (y1 - py loc) (z1 - pz loc)))).
      rewrite (oi_tele _ D v); [unfold D, prism, X1, X2; ring| |exact F1|exact FF|exact Hx].
      intros a b. unfold D, prism. ring.
    + set (D := fun y : R => v * (F X2 (y - py loc) (z2 - pz loc) - F X1 (y - py loc) (z2 - pz loc) - (F X2 (y - py loc) (z1 - pz loc) - F X1 (y - py loc) (z1 - pz loc)))).
      rewrite (oi_tele _ D v); [unfold D, prism, Y1, Y2; ring| |rewrite map_length; exact L1| |exact Hy].
      * intros a b. unfold D, prism. ring.
      * apply Forall_map, Forall_forall. reflexivity.
  - set (D := fun z : R => v * (F X2 Y2 (z - pz loc) - F X1 Y2 (z - pz loc) - F X2 Y1 (z - pz loc) + F X1 Y1 (z - pz loc))).
    rewrite (oi_tele _ D v); [unfold D, prism; ring| |rewrite map_length; exact L| |exact Hz].
    + intros a b. unfold D, prism. ring.
    + apply Forall_map, Forall_forall. reflexivity.
Qed.
