(** Draping: on the surface, twice, and what goes wrong. *)
From Verif Require Import Py Vec Abmn Drape SpecDrape LinSimFacts DrapeFacts DrapeFacts2 DrapeFacts3.
From Coq Require Import Lia Lra.
Local Open Scope R_scope.

Lemma draped_on_surface m b horiz v v' : thick (m_hz m) -> even m -> (2 <= List.length (horizontal m))%nat -> Forall good_src (v_src v) -> current v -> drape m (ABool b) Top horiz v = Ok v' ->
  exists g, v_src v' = map (move_src g) (v_src v) /\ v_cache v' = Some (tables (v_src v')) /\
    forall p i, electrodes_in (v_src v) p -> own_place m p i -> exists z, surface_of m b i z /\ g p = (if horiz then nth i (horizontal m) [] else firstn (mdim m - 1) p) ++ [z].
Proof.
  intros T EV G F C H. destruct (draped _ _ _ _ _ _ F C H) as (Ts & g & GT & S1 & _ & V & K). exists g. split; [exact V|split; [exact K|]]. intros p i E O. specialize (S1 p E).
  destruct (topography_rows m b Top T Ts GT) as (TL & TF & TS). unfold shift1 in S1. rewrite TF in S1. unfold own_place, mdim in *. destruct (m_hy m) as [hy|] eqn:HY.
  - cbn [Nat.eqb] in S1. rewrite (nearest_is_own m _ i EV G O) in S1. cbn [bind] in S1. injection S1 as <-. pose proof (own_in _ _ _ O) as IL. exists (snd (nth i Ts ([], 0))). split; [now apply TS|].
    assert (FF : fst (nth i Ts ([], 0)) = nth i (horizontal m) []) by (rewrite <- TF; now rewrite (gmap_nth fst Ts i [] ([], 0)) by lia). rewrite FF. destruct horiz; reflexivity.
  - destruct O as (O & L2). destruct p as [|x [|z [|]]]; try discriminate L2. cbn [Nat.eqb firstn removelast Nat.sub] in *. rewrite (nearest_is_own m _ i EV G O) in S1. cbn [bind] in S1. injection S1 as <-. pose proof (own_in _ _ _ O) as IL. exists (snd (nth i Ts ([], 0))). split; [now apply TS|].
    pose proof (own_centre m [x] i [z] EV O) as OC. cbn [app] in OC. rewrite OC. destruct horiz; reflexivity.
Qed.
(** Twice. *)
Lemma argmin_bound ds : (argmin0 ds < List.length ds \/ ds = [])%nat.
Proof. destruct ds as [|d ds]; [now right|left]. cbn [argmin0 List.length]. destruct (argmin_first ds 0%nat d 1%nat) as ([A|(k & K & A & _)] & _); rewrite A; lia. Qed.
Lemma closest_bound grid p i : closest grid p = Ok i -> grid <> [] -> (i < List.length grid)%nat.
Proof.
  intros H N. assert (A : (argmin0 (map (fun g => dist2 g p) grid) < List.length grid)%nat) by (destruct (argmin_bound (map (fun g => dist2 g p) grid)) as [A|A]; [now rewrite map_length in A|destruct grid; [congruence|discriminate]]).
  unfold closest in H. destruct grid as [|[|gx [|gy [|]]] [|]], p as [|x [|y [|]]]; try (injection H as <-; exact A). destruct (Rlt_dec _ _); [discriminate|]. injection H as <-. cbn. lia.
Qed.
Lemma closest_self m hy i : m_hy m = Some hy -> thick (m_hx m) -> thick hy -> (i < List.length (horizontal m))%nat -> closest (horizontal m) (nth i (horizontal m) []) = Ok i.
Proof.
  intros E TX TY I. destruct (horizontal_3d m hy E) as (HL & HN). destruct (Nat.lt_ge_cases 1 (List.length (horizontal m))) as [G|G].
  - apply closest_unique; [left; lia|exact I|]. intros j J N. rewrite HL in I, J. destruct (split_index _ _ _ I) as (ix & iy & IX & IY & ->). destruct (split_index _ _ _ J) as (jx & jy & JX & JY & ->). rewrite !HN by assumption. rewrite !dist2_2.
    assert (SQ : forall h x0 a b, thick h -> (a < List.length h)%nat -> (b < List.length h)%nat -> a <> b -> nth a (centres x0 h) 0 <> nth b (centres x0 h) 0).
    { intros h x0 a b T A B D. destruct (Nat.lt_ge_cases a b); [pose proof (centre_mono h T x0 a b ltac:(lia)); lra|pose proof (centre_mono h T x0 b a ltac:(lia)); lra]. }
    assert (P : forall x, 0 <= x * x) by (intros; nra). assert (Q : forall x, x <> 0 -> 0 < x * x) by (intros x X; apply Rsqr_pos_lt, X).
    destruct (Nat.eq_dec jx ix) as [->|NX].
    + assert (NY : jy <> iy) by (intros ->; now apply N). pose proof (Q (nth jy (centres (m_y0 m) hy) 0 - nth iy (centres (m_y0 m) hy) 0) ltac:(pose proof (SQ hy (m_y0 m) jy iy TY JY IY NY); lra)). lra.
    + pose proof (Q (nth jx (centres (m_x0 m) (m_hx m)) 0 - nth ix (centres (m_x0 m) (m_hx m)) 0) ltac:(pose proof (SQ (m_hx m) (m_x0 m) jx ix TX JX IX NX); lra)). pose proof (P (nth jy (centres (m_y0 m) hy) 0 - nth iy (centres (m_y0 m) hy) 0)). lra.
  - assert (i = 0)%nat as -> by lia. rewrite HL in I, G. destruct (proj1 (Nat.eq_mul_1 (List.length (m_hx m)) (List.length hy)) ltac:(lia)) as (X1 & Y1).
    assert (HZ : exists gx gy, horizontal m = [[gx; gy]]).
    { unfold horizontal. rewrite E. destruct (m_hx m) as [|wx [|]]; try discriminate X1. destruct hy as [|wy [|]]; try discriminate Y1. cbn. eauto. }
    destruct HZ as (gx & gy & ->). cbn. destruct (Rlt_dec _ _) as [L|L]; [|reflexivity]. exfalso. revert L. unfold Rminus. rewrite !Rplus_opp_r, Rabs_R0. lra.
Qed.
Lemma horizontal_len2 m hy i : m_hy m = Some hy -> (i < List.length (horizontal m))%nat -> List.length (nth i (horizontal m) []) = 2%nat.
Proof. intros E I. destruct (horizontal_3d m hy E) as (HL & HN). rewrite HL in I. destruct (split_index _ _ _ I) as (ix & iy & IX & IY & ->). rewrite HN by assumption. reflexivity. Qed.
Lemma move_electrode g l p : electrodes_in l p -> electrodes_in (map (move_src g) l) (g p).
Proof.
  intros (s & I & E). exists (move_src g s). split; [now apply in_map|]. cbn [move_src d_locs d_rxs]. destruct E as [E|(rx & R & E)]; [left; now apply in_map|right]. exists (move_rx g rx). split; [now apply in_map|].
  destruct rx; cbn; [now apply in_map|]. destruct E; [left|right]; now apply in_map.
Qed.
Lemma move_twice g g2 l : (forall p, electrodes_in l p -> g2 (g p) = g p) -> map (move_src g2) (map (move_src g) l) = map (move_src g) l.
Proof.
  intros H. rewrite map_map. apply map_ext_in. intros s I. unfold move_src. cbn [d_kind d_locs d_rxs]. f_equal.
  - rewrite map_map. apply map_ext_in. intros p J. apply H. exists s. auto.
  - rewrite map_map. apply map_ext_in. intros rx J. destruct rx as [ms|ms ns]; cbn; f_equal; rewrite map_map; apply map_ext_in; intros p K; apply H; exists s; (split; [exact I|right]); eexists; (split; [exact J|]); cbn; auto.
Qed.
Lemma drape_twice m hy b cut horiz v v' v'' : m_hy m = Some hy -> thick (m_hx m) -> thick hy -> Forall good_src (v_src v) -> current v -> (forall p, electrodes_in (v_src v) p -> List.length p = 3%nat) ->
  drape m (ABool b) cut horiz v = Ok v' -> drape m (ABool b) cut horiz v' = Ok v'' -> v_src v'' = v_src v'.
Proof.
  intros HY TX TY F C L3 H H'. destruct (draped _ _ _ _ _ _ F C H) as (Ts & g & GT & S1 & _ & V & K).
  assert (F' : Forall good_src (v_src v')) by (rewrite V; apply Forall_forall; intros s I; apply in_map_iff in I as (s' & <- & I); apply good_move; rewrite Forall_forall in F; now apply F).
  destruct (draped _ _ _ _ _ _ F' (or_intror K) H') as (Ts' & g2 & GT' & S2 & _ & V' & _). rewrite GT in GT'. injection GT' as <-. rewrite V', V. apply move_twice. intros p E.
  assert (E2 := move_electrode g _ _ E). rewrite <- V in E2. specialize (S1 p E). specialize (S2 (g p) E2). specialize (L3 p E).
  assert (TF : map fst Ts = horizontal m).
  { clear - GT. unfold get_topography in GT. destruct (negb _); [discriminate|]. apply nth_ext with (d := []) (d' := []); [rewrite map_length, (mapM_ok_length _ _ _ GT); apply seq_length|]. intros i I. rewrite map_length in I. pose proof (mapM_ok_length _ _ _ GT) as L. rewrite seq_length in L.
    destruct (mapM_ok_nth _ _ _ i i GT) as (y & Y1 & Y2); [rewrite (nth_error_nth' _ 0%nat) by (rewrite seq_length; lia); rewrite seq_nth by lia; reflexivity|].
    destruct (topo_at _ _ _ _); [|discriminate]. cbn in Y2. injection Y2 as <-. rewrite (gmap_nth fst Ts i [] ([], 0)) by exact I. apply nth_error_nth with (d := ([], 0)) in Y1. now rewrite Y1. }
  assert (D3 : (2 =? mdim m)%nat = false) by (unfold mdim; rewrite HY; reflexivity). rewrite D3 in S1, S2. unfold shift1 in S1, S2. rewrite TF in S1, S2.
  destruct (closest (horizontal m) (firstn 2 p)) as [i|] eqn:CI; [|discriminate]. cbn [bind] in S1. assert (S1' := S1). injection S1 as GP.
  assert (L2 : List.length (firstn 2 p) = 2%nat) by (rewrite firstn_length; lia).
  destruct horiz.
  - assert (NE : horizontal m <> [] \/ horizontal m = []) by (destruct (horizontal m); [now right|left; discriminate]). destruct NE as [NE|NE].
    + pose proof (closest_bound _ _ _ CI NE) as IL. assert (FF : fst (nth i Ts ([], 0)) = nth i (horizontal m) []) by (rewrite <- TF; now rewrite (gmap_nth fst Ts i [] ([], 0)) by (rewrite <- (map_length fst Ts), TF; exact IL)).
      assert (FG : firstn 2 (g p) = nth i (horizontal m) []).
      { rewrite <- GP, FF. rewrite <- (horizontal_len2 m hy i HY IL). rewrite firstn_app, Nat.sub_diag, firstn_all. cbn. apply app_nil_r. }
      rewrite FG, (closest_self m hy i HY TX TY IL) in S2. cbn [bind] in S2. injection S2 as S2. rewrite <- S2. exact GP.
    + rewrite NE in TF. apply map_eq_nil in TF. subst Ts. rewrite NE in S2. unfold closest in S2. cbn in S2. destruct (firstn 2 (g p)); cbn in S2; injection S2 as S2; rewrite <- S2, <- GP; destruct i; reflexivity.
  - assert (FG : firstn 2 (g p) = firstn 2 p).
    { rewrite <- GP. rewrite <- L2 at 1. rewrite firstn_app, Nat.sub_diag, firstn_all. cbn. apply app_nil_r. }
    rewrite FG, CI in S2. cbn [bind] in S2. injection S2 as S2. rewrite <- S2. exact GP.
Qed.

(** Stale tables. *)
Lemma drape_srcs_locs sa sb sm sn : forall l l' ind, Forall2 (fun s s' => d_kind s = d_kind s' /\ d_rxs s = d_rxs s') l l' -> drape_srcs sa sb sm sn ind l = drape_srcs sa sb sm sn ind l'.
Proof. induction l as [|s l IH]; intros l' ind F; inversion F as [|? s' ? l2 (K & R) F']; [reflexivity|]. cbn [drape_srcs]. rewrite R, K. rewrite (IH l2 _ F'). reflexivity. Qed.
Lemma stale m act cut horiz v k locs : drape m act cut horiz (set_location (fst (read_tables v)) k locs) = drape m act cut horiz v.
Proof.
  unfold drape. assert (E : snd (read_tables (set_location (fst (read_tables v)) k locs)) = snd (read_tables v)) by (unfold read_tables; destruct (v_cache v) eqn:C; cbn; rewrite ?C; reflexivity).
  rewrite E. cbv zeta. destruct (shift_points _ _ _ _ _ _ _) as [sh|]; [|reflexivity]. cbn [bind]. rewrite (drape_srcs_locs _ _ _ _ (v_src (set_location (fst (read_tables v)) k locs)) (v_src v)); [reflexivity|].
  assert (V : v_src (fst (read_tables v)) = v_src v) by (unfold read_tables; destruct (v_cache v); reflexivity). cbn [set_location v_src]. rewrite V. clear. generalize 0%nat. induction (v_src v) as [|s l IH]; intros n; [constructor|].
  cbn [List.length seq combine map fst snd]. constructor; [destruct (n =? k)%nat; cbn; auto|apply IH].
Qed.
Lemma multi_one sa sb sm sn : forall l ind l', drape_srcs sa sb sm sn ind l = Ok l' -> forall s, In s l' -> d_kind s = KMulti -> List.length (d_locs s) = 1%nat.
Proof.
  induction l as [|x l IH]; intros ind l' H s I K; cbn [drape_srcs] in H; [injection H as <-; destruct I|].
  destruct (nth_error sa ind) as [a|]; [|discriminate]. destruct (nth_error sb ind) as [b|]; [|discriminate]. cbn zeta in H. destruct (drape_srcs sa sb sm sn _ l) as [l2|] eqn:E; [|discriminate]. cbn [bind] in H. injection H as <-.
  destruct I as [<- |I]; [cbn in *; rewrite K; reflexivity|exact (IH _ _ E s I K)].
Qed.
Lemma multipole m act cut horiz v v' s : drape m act cut horiz v = Ok v' -> In s (v_src v') -> d_kind s = KMulti -> List.length (d_locs s) = 1%nat.
Proof. unfold drape. cbv zeta. destruct (shift_points _ _ _ _ _ _ _) as [sh|]; [|discriminate]. cbn [bind]. destruct (drape_srcs _ _ _ _ _ _) as [l|] eqn:E; [|discriminate]. cbn [bind]. intros [= <-]. cbn [v_src]. exact (multi_one _ _ _ _ _ _ _ E s). Qed.
Lemma single_point m act cut horiz hs p : forall out, shift_points m act cut horiz hs (mdim m - 1) [p] <> Ok out.
Proof.
  intros out. unfold shift_points. destruct (match hs with One _ => false | Each l => _ end); [discriminate|]. destruct (get_topography m act cut); [|discriminate]. cbn [bind].
  replace (mdim m - 1 =? mdim m)%nat with false by (symmetry; apply Nat.eqb_neq; unfold mdim; destruct (m_hy m); lia). cbn. discriminate.
Qed.
Lemma one_column gx gy x y : Rabs (y - gy) < Rabs (x - gx) -> closest [[gx; gy]] [x; y] = Err IndexError.
Proof. intros H. cbn. destruct (Rlt_dec _ _); [reflexivity|contradiction]. Qed.
(** Concrete cases. *)
Ltac same := repeat match goal with |- Ok _ = Ok _ => apply f_equal | |- _ :: _ = _ :: _ => apply f_equal2 | |- (_, _) = (_, _) => apply f_equal2 | |- [] = [] => reflexivity | |- @eq R _ _ => lra end.
Lemma demo_topo_rows : get_topography demo_topo (ABool demo_active) Top = Ok [([5], 0); ([21 / 2], -1)].
Proof.
  unfold get_topography, demo_topo, demo_active, horizontal. cbn -[Rplus Rdiv IZR highest Rlt_dec topo_at]. unfold topo_at, chosen. cbn -[Rplus Rdiv IZR Rlt_dec].
  destruct (Rlt_dec _ _) as [H|H]; [|exfalso; apply H; lra]. cbn [fst snd]. same.
Qed.
Lemma demo_wrong : own_column demo_topo [9] 0 /\ surface_of demo_topo demo_active 0 0 /\ shift_points demo_topo (ABool demo_active) Top false (One 0) 2 [[9; 0]] = Ok [[9; -1]].
Proof.
  split; [|split].
  - unfold own_column, demo_topo. cbn [m_hy m_x0 m_hx]. exists 9. split; [reflexivity|]. unfold between. cbn. unfold face. cbn. split; [lia|lra].
  - exists 1%nat. split; [|unfold face, demo_topo; cbn; lra]. unfold highest_active, is_active, demo_topo, demo_active. cbn. split; [lia|split; [reflexivity|intros; lia]].
  - unfold shift_points. rewrite demo_topo_rows. cbn [bind]. cbn -[IZR Rplus Rdiv Rmult Rminus Rlt_dec Ropp]. unfold shift1, closest. cbn -[IZR Rplus Rdiv Rmult Rminus Rlt_dec Ropp]. unfold dist2. cbn -[IZR Rplus Rdiv Rmult Rminus Rlt_dec Ropp].
    destruct (Rlt_dec _ _) as [H|H]; [|exfalso; apply H; lra]. cbn -[IZR Rplus Rdiv Rmult Rminus Rlt_dec Ropp]. same.
Qed.
Lemma demo_twice : exists p, shift_points demo_topo (ABool demo_active) Top true (One 0) 2 [[9; 0]] = Ok [p] /\ p = [5; -1] /\ shift_points demo_topo (ABool demo_active) Top true (One 0) 2 [p] = Ok [[5; 0]].
Proof.
  exists [5; -1]. split; [|split; [reflexivity|]]; unfold shift_points; rewrite demo_topo_rows; cbn [bind]; cbn -[IZR Rplus Rdiv Rmult Rminus Rlt_dec Rle_dec Ropp]; unfold shift1, closest; cbn -[IZR Rplus Rdiv Rmult Rminus Rlt_dec Rle_dec Ropp]; unfold dist2, cell_centre; cbn -[IZR Rplus Rdiv Rmult Rminus Rlt_dec Rle_dec Ropp].
  - destruct (Rlt_dec _ _) as [H|H]; [|exfalso; apply H; lra]. destruct (Rle_dec _ _) as [H'|H']; [exfalso; lra|]. cbn -[IZR Rplus Rdiv Rmult Rminus Rlt_dec Ropp]. same.
  - destruct (Rlt_dec _ _) as [H|H]; [exfalso; lra|]. destruct (Rle_dec _ _) as [H'|H']; [exfalso; lra|]. cbn -[IZR Rplus Rdiv Rmult Rminus Rlt_dec Ropp]. same.
Qed.
(** An even mesh and a survey on it. *)
Lemma even_case : thick (m_hz even_topo) /\ even even_topo /\ List.length (horizontal even_topo) = 2%nat /\ own_column even_topo [4; 5] 0 /\ Forall good_src demo_line /\ exists Ts, get_topography even_topo (ABool even_active) Top = Ok Ts.
Proof.
  assert (T : thick (m_hz even_topo)) by (unfold thick, even_topo; cbn; repeat constructor; lra).
  split; [exact T|split; [|split; [reflexivity|split; [|split]]]].
  - exists 10, 2%nat. split; [lra|split; [reflexivity|]]. cbn. exists 10, 1%nat. split; [lra|reflexivity].
  - unfold own_column, even_topo. cbn [m_hy m_x0 m_y0 m_hx]. exists 4, 5, 0%nat, 0%nat. split; [reflexivity|split; [reflexivity|]]. unfold between, face. cbn. split; (split; [lia|lra]).
  - constructor; [|constructor]. split; [discriminate|split; [|reflexivity]]. constructor; [|constructor]. split; [discriminate|reflexivity].
  - apply (topography_accepted even_topo even_active Top T ltac:(discriminate)). split; [reflexivity|]. intros i I. exists 0%nat. split; [cbn; lia|]. unfold is_active. cbn in *. destruct i as [|[|]]; [reflexivity|reflexivity|lia].
Qed.
Lemma closest_ok grid p : (2 <= List.length grid)%nat -> exists i, closest grid p = Ok i.
Proof. intros G. destruct grid as [|g1 [|g2 gg]]; try (cbn in G; lia). unfold closest. destruct g1 as [|? [|? [|]]]; eauto. Qed.
Lemma drape_ok m act cut horiz v Ts p q : get_topography m act cut = Ok Ts -> (2 <= List.length Ts)%nat -> Forall good_src (v_src v) -> current v ->
  electrodes_in (v_src v) p -> electrodes_in (v_src v) q -> firstn 2 p <> firstn 2 q -> exists v', drape m act cut horiz v = Ok v'.
Proof.
  intros GT G F C EP EQ NE. unfold drape. rewrite (read_current v C), (tables_eq _ F). cbn [t_a t_b t_m t_n]. cbv zeta.
  set (A := flat_map src_a (v_src v)) in *. set (B := flat_map src_b (v_src v)) in *. set (M := flat_map src_m (v_src v)) in *. set (N := flat_map src_n (v_src v)) in *.
  set (u := unique (map (firstn 2) A ++ map (firstn 2) B ++ map (firstn 2) M ++ map (firstn 2) N)).
  assert (IU : forall p, electrodes_in (v_src v) p -> In (firstn 2 p) u) by (intros r E; apply unique_in; rewrite <- !map_app; apply in_map; exact (in_tables _ _ F E)).
  assert (U1 : List.length u <> 1%nat).
  { pose proof (IU p EP) as I1. pose proof (IU q EQ) as I2. destruct u as [|x [|]]; try discriminate. destruct I1 as [I1|[]], I2 as [I2|[]]. congruence. }
  set (f := fun p => match shift1 m Ts horiz (2 =? mdim m)%nat p with Ok q => q | Err _ => [] end).
  assert (MO : mapM (shift1 m Ts horiz (2 =? mdim m)%nat) u = Ok (map f u)).
  { apply mapM_all. intros r _. unfold f, shift1. destruct (closest_ok (map fst Ts) (if (2 =? mdim m)%nat then removelast r else r)) as (i & ->); [now rewrite map_length|]. reflexivity. }
  assert (SP : shift_points m act cut horiz (One 0) 2 u = Ok (map (fun p => raise_last p 0) (map f u))).
  { unfold shift_points. rewrite GT. cbn [bind]. destruct (Nat.eqb_spec (List.length u) 1) as [X|X]; [contradiction|]. rewrite Bool.andb_false_r, MO. reflexivity. }
  rewrite SP. cbn [bind]. rewrite map_map. rewrite (map_ext (fun x => raise_last (f x) 0) f) by (intros; apply raise_zero).
  assert (INC : forall X, incl X (map (firstn 2) A ++ map (firstn 2) B ++ map (firstn 2) M ++ map (firstn 2) N) -> incl X u) by (intros X I r J; apply unique_in, I, J).
  rewrite !move_rows_map by (apply INC; intros r J; rewrite !in_app_iff; tauto). rewrite !map_map.
  pose proof (drape_srcs_eq (fun p => f (firstn 2 p)) (v_src v) [] [] [] [] F eq_refl eq_refl eq_refl) as DS. cbn [app List.length] in DS. fold A B M N in DS. rewrite DS. cbn [bind]. eauto.
Qed.
Lemma even_draped : exists v', drape even_topo (ABool even_active) Top true {| v_src := demo_line; v_cache := None |} = Ok v'.
Proof.
  destruct even_case as (T & EV & L & _ & F & Ts & GT). assert (LT : (2 <= List.length Ts)%nat) by (destruct (topography_rows _ _ _ T Ts GT) as (-> & _); rewrite L; lia).
  apply (drape_ok _ _ _ _ {| v_src := demo_line; v_cache := None |} Ts [2; 5; 7] [4; 5; 7] GT LT F (or_introl eq_refl)).
  - eexists. split; [now left|]. left. now left.
  - eexists. split; [now left|]. right. eexists. split; [now left|]. left. now left.
  - cbn. intros X. injection X as X. lra.
Qed.
