(** Surveys draped on the discrete topography. *)
From Verif Require Import Py Vec Abmn Drape SpecDrape LinSimFacts DrapeFacts DrapeFacts2.
From Coq Require Import Lia Lra.
Local Open Scope R_scope.
Notation len := List.length (only parsing).

Lemma find_row_nth p : forall u (g : vec -> vec), In p u -> nth (find_row p u) (map g u) [] = g p.
Proof. induction u as [|q u IH]; intros g I; [destruct I|]. cbn [find_row map]. destruct (list_eq_dec Req_EM_T q p) as [->|N]; [reflexivity|]. cbn [nth]. apply IH. now destruct I. Qed.
Lemma move_rows_map u g l : incl l u -> move_rows u (map g u) l = map g l.
Proof. intros I. apply map_ext_in. intros p J. apply find_row_nth, I, J. Qed.
Lemma unique_in l p : In p (unique l) <-> In p l.
Proof. apply nodup_In. Qed.
(** Receivers. *)
Lemma slice_mid {A} (p l e : list A) : slice (p ++ l ++ e) (len p) (len p + len l) = l.
Proof. unfold slice. rewrite skipn_app, skipn_all, Nat.sub_diag. cbn [skipn app]. replace (len p + len l - len p)%nat with (len l) by lia. rewrite firstn_app, Nat.sub_diag, firstn_all. cbn. apply app_nil_r. Qed.
Definition rx_m (rx : receiver) : list vec := match rx with RxPole ms => ms | RxDipole ms _ => ms end.
Definition rx_n (rx : receiver) : list vec := match rx with RxPole ms => ms | RxDipole _ ns => ns end.
Lemma rx_lens rx : good_rx rx -> len (rx_m rx) = rx_nD rx /\ len (rx_n rx) = rx_nD rx /\ (0 < rx_nD rx)%nat.
Proof. destruct rx as [ms|ms ns]; cbn; [intros H; destruct ms; [congruence|cbn; lia]|]. intros (H & E). destruct ms; [congruence|]. cbn in *. lia. Qed.
Lemma drape_rxs_eq (g : vec -> vec) : forall rxs pm pn em en, Forall good_rx rxs -> len pn = len pm ->
  drape_rxs (pm ++ map g (flat_map rx_m rxs) ++ em) (pn ++ map g (flat_map rx_n rxs) ++ en) (len pm) rxs = ((len pm + len (flat_map rx_m rxs))%nat, map (move_rx g) rxs).
Proof.
  induction rxs as [|rx rxs IH]; intros pm pn em en F L; [cbn; f_equal; lia|].
  pose proof (Forall_inv F) as GR. destruct (rx_lens rx GR) as (LM & LN & _). cbn [drape_rxs flat_map]. rewrite !map_app, <- !app_assoc.
  assert (SM : slice (pm ++ map g (rx_m rx) ++ map g (flat_map rx_m rxs) ++ em) (len pm) (len pm + rx_nD rx) = map g (rx_m rx)) by (replace (rx_nD rx) with (len (map g (rx_m rx))) by (now rewrite map_length); apply slice_mid).
  assert (SN : slice (pn ++ map g (rx_n rx) ++ map g (flat_map rx_n rxs) ++ en) (len pm) (len pm + rx_nD rx) = map g (rx_n rx)) by (rewrite <- L; replace (rx_nD rx) with (len (map g (rx_n rx))) by (now rewrite map_length); apply slice_mid).
  rewrite SM, SN. specialize (IH (pm ++ map g (rx_m rx)) (pn ++ map g (rx_n rx)) em en (Forall_inv_tail F)). rewrite <- !app_assoc in IH. rewrite !app_length, !map_length, LM, LN in IH. rewrite IH by lia. cbn [fst snd map].
  rewrite app_length, LM. f_equal; [lia|]. f_equal. destruct rx; reflexivity.
Qed.
Definition src_m (s : dsrc) : list vec := flat_map rx_m (d_rxs s).
Definition src_n (s : dsrc) : list vec := flat_map rx_n (d_rxs s).
Definition loc (s : dsrc) (i : nat) : vec := nth i (d_locs s) [].
Definition src_a (s : dsrc) : list vec := repeat (loc s 0) (len (src_m s)).
Definition src_b (s : dsrc) : list vec := repeat (match d_kind s with KDipole => loc s 1 | _ => loc s 0 end) (len (src_m s)).
Lemma repeat_plus {A} (x : A) n k : repeat x (n + k) = repeat x n ++ repeat x k.
Proof. apply repeat_app. Qed.
Lemma tables_eq l : Forall good_src l -> tables l = {| t_a := flat_map src_a l; t_b := flat_map src_b l; t_m := flat_map src_m l; t_n := flat_map src_n l |}.
Proof.
  intros F. unfold tables. assert (X : forall (p : tabs -> list vec) (q : dsrc -> list vec), (forall s, In s l -> flat_map p (map (rx_tabs s) (d_rxs s)) = q s) -> flat_map p (all_tabs l) = flat_map q l).
  { intros p q H. unfold all_tabs. clear F. induction l as [|s l IH]; [reflexivity|]. cbn [flat_map]. rewrite flat_map_app, H by now left. rewrite IH; [reflexivity|]. intros t T. apply H. now right. }
  rewrite Forall_forall in F.
  rewrite (X t_a src_a), (X t_b src_b), (X t_m src_m), (X t_n src_n); [reflexivity| | | |]; intros s I; pose proof (F s I) as (_ & G & K).
  - unfold src_n. clear. induction (d_rxs s) as [|rx rxs IH]; [reflexivity|]. cbn [map flat_map]. rewrite IH. destruct rx; reflexivity.
  - unfold src_m. clear. induction (d_rxs s) as [|rx rxs IH]; [reflexivity|]. cbn [map flat_map]. rewrite IH. destruct rx; reflexivity.
  - unfold src_b, src_m, loc. induction (d_rxs s) as [|rx rxs IH]; [reflexivity|]. cbn [map flat_map]. rewrite IH by (exact (Forall_inv_tail G)). rewrite app_length, repeat_plus. f_equal.
    destruct (rx_lens rx (Forall_inv G)) as (LM & _). rewrite LM. cbn [rx_tabs t_b]. destruct (d_kind s); [reflexivity|reflexivity|destruct K].
  - unfold src_a, src_m, loc. induction (d_rxs s) as [|rx rxs IH]; [reflexivity|]. cbn [map flat_map]. rewrite IH by (exact (Forall_inv_tail G)). rewrite app_length, repeat_plus. f_equal.
    destruct (rx_lens rx (Forall_inv G)) as (LM & _). rewrite LM. cbn [rx_tabs t_a]. destruct (d_kind s); [reflexivity|reflexivity|destruct K].
Qed.
Lemma src_lens s : good_src s -> (0 < len (src_m s))%nat /\ len (src_n s) = len (src_m s).
Proof.
  intros (N & G & _). unfold src_m, src_n. split.
  - destruct (d_rxs s) as [|rx rxs]; [congruence|]. cbn [flat_map]. rewrite app_length. destruct (rx_lens rx (Forall_inv G)) as (-> & _ & ?). lia.
  - clear N. induction (d_rxs s) as [|rx rxs IH]; [reflexivity|]. cbn [flat_map]. rewrite !app_length, IH by (exact (Forall_inv_tail G)). destruct (rx_lens rx (Forall_inv G)) as (-> & -> & _). reflexivity.
Qed.
Lemma nth_error_mid {A} (p : list A) x n l e : (0 < n)%nat -> nth_error (p ++ (repeat x n ++ l) ++ e) (len p) = Some x.
Proof. intros H. rewrite nth_error_app2 by lia. rewrite Nat.sub_diag. destruct n; [lia|]. reflexivity. Qed.
Lemma map_repeat' {A B} (g : A -> B) x n : map g (repeat x n) = repeat (g x) n.
Proof. induction n; cbn; [reflexivity|now f_equal]. Qed.
Lemma drape_srcs_eq (g : vec -> vec) : forall l pa pb pm pn, Forall good_src l -> len pa = len pm -> len pb = len pm -> len pn = len pm ->
  drape_srcs (pa ++ map g (flat_map src_a l)) (pb ++ map g (flat_map src_b l)) (pm ++ map g (flat_map src_m l)) (pn ++ map g (flat_map src_n l)) (len pm) l = Ok (map (move_src g) l).
Proof.
  induction l as [|s l IH]; intros pa pb pm pn F LA LB LN; [reflexivity|]. pose proof (Forall_inv F) as GS. destruct (src_lens s GS) as (S0 & S1). cbn [drape_srcs flat_map].
  rewrite !map_app.
  assert (NA : nth_error (pa ++ map g (src_a s) ++ map g (flat_map src_a l)) (len pm) = Some (g (loc s 0))).
  { rewrite <- LA. unfold src_a. rewrite map_repeat'. rewrite <- (app_nil_r (pa ++ _)), <- app_assoc. now apply nth_error_mid. }
  assert (NB : nth_error (pb ++ map g (src_b s) ++ map g (flat_map src_b l)) (len pm) = Some (g (match d_kind s with KDipole => loc s 1 | _ => loc s 0 end))).
  { rewrite <- LB. unfold src_b. rewrite map_repeat'. rewrite <- (app_nil_r (pb ++ _)), <- app_assoc. now apply nth_error_mid. }
  rewrite NA, NB.
  assert (RX : drape_rxs (pm ++ map g (src_m s) ++ map g (flat_map src_m l)) (pn ++ map g (src_n s) ++ map g (flat_map src_n l)) (len pm) (d_rxs s) = ((len pm + len (src_m s))%nat, map (move_rx g) (d_rxs s))) by (apply drape_rxs_eq; [apply GS|exact LN]).
  rewrite RX. cbn [fst snd].
  specialize (IH (pa ++ map g (src_a s)) (pb ++ map g (src_b s)) (pm ++ map g (src_m s)) (pn ++ map g (src_n s)) (Forall_inv_tail F)).
  assert (LSA : len (src_a s) = len (src_m s)) by (unfold src_a; apply repeat_length). assert (LSB : len (src_b s) = len (src_m s)) by (unfold src_b; apply repeat_length).
  rewrite !app_length, !map_length, LSA, LSB, S1 in IH. rewrite <- !app_assoc in IH. rewrite IH by lia. cbn [bind map]. apply (f_equal Ok). apply (f_equal (fun x => x :: map (move_src g) l)). unfold move_src.
  destruct GS as (_ & _ & K). clear - K. unfold loc. destruct (d_kind s) eqn:KD; [| |destruct K].
  - destruct (d_locs s) as [|x [|]]; try discriminate K. reflexivity.
  - destruct (d_locs s) as [|x [|y [|]]]; try discriminate K. reflexivity.
Qed.
Lemma good_move g s : good_src s -> good_src (move_src g s).
Proof.
  intros (A & B & C). split; [|split]; cbn [move_src d_rxs d_kind d_locs].
  - destruct (d_rxs s); [congruence|discriminate].
  - apply Forall_forall. intros rx I. apply in_map_iff in I as (r & <- & I). rewrite Forall_forall in B. specialize (B r I). destruct r as [ms|ms ns]; cbn in *; [destruct ms; [congruence|discriminate]|]. destruct B as (B & E). split; [destruct ms; [congruence|discriminate]|now rewrite !map_length].
  - rewrite map_length. exact C.
Qed.
Lemma move_tables g l : Forall good_src l -> tables (map (move_src g) l) = {| t_a := map g (flat_map src_a l); t_b := map g (flat_map src_b l); t_m := map g (flat_map src_m l); t_n := map g (flat_map src_n l) |}.
Proof.
  intros F. rewrite tables_eq by (apply Forall_forall; intros s I; apply in_map_iff in I as (s' & <- & I); apply good_move; rewrite Forall_forall in F; now apply F).
  assert (X : forall q : dsrc -> list vec, (forall s, In s l -> q (move_src g s) = map g (q s)) -> flat_map q (map (move_src g) l) = map g (flat_map q l)).
  { intros q H. clear F. induction l as [|s l IH]; [reflexivity|]. cbn [map flat_map]. rewrite map_app, H by now left. f_equal. apply IH. intros t T. apply H. now right. }
  assert (XM : forall s, src_m (move_src g s) = map g (src_m s)) by (intros s; unfold src_m; cbn [move_src d_rxs]; induction (d_rxs s) as [|rx rxs IH]; [reflexivity|]; cbn [map flat_map]; rewrite map_app, IH; destruct rx; reflexivity).
  assert (XN : forall s, src_n (move_src g s) = map g (src_n s)) by (intros s; unfold src_n; cbn [move_src d_rxs]; induction (d_rxs s) as [|rx rxs IH]; [reflexivity|]; cbn [map flat_map]; rewrite map_app, IH; destruct rx; reflexivity).
  rewrite Forall_forall in F.
  f_equal; apply X; intros s I; [| |apply XM|apply XN]; destruct (F s I) as (_ & _ & K).
  - unfold src_a. rewrite XM, map_length, map_repeat'. f_equal. unfold loc. cbn [move_src d_locs]. destruct (d_kind s); [| |destruct K]; rewrite (gmap_nth g (d_locs s) 0 [] []) by lia; reflexivity.
  - unfold src_b. rewrite XM, map_length, map_repeat'. f_equal. unfold loc. cbn [move_src d_locs d_kind]. destruct (d_kind s); [| |destruct K].
    + rewrite (gmap_nth g (d_locs s) 0 [] []) by lia; reflexivity.
    + rewrite (gmap_nth g (d_locs s) 1 [] []) by lia; reflexivity.
Qed.
(** Every electrode stands in the tables. *)
Lemma in_tables l p : Forall good_src l -> electrodes_in l p -> In p (flat_map src_a l ++ flat_map src_b l ++ flat_map src_m l ++ flat_map src_n l).
Proof.
  intros F (s & I & E). rewrite Forall_forall in F. pose proof (F s I) as G. destruct (src_lens s G) as (S0 & _). rewrite !in_app_iff, !in_flat_map. destruct E as [E|(rx & R & E)].
  - destruct G as (_ & _ & K). destruct (len (src_m s)) as [|n] eqn:SL; [lia|]. destruct (d_kind s) eqn:KD; [| |destruct K].
    + left. exists s. split; [exact I|]. unfold src_a. rewrite SL. left. unfold loc. destruct (d_locs s) as [|x [|]]; try discriminate K. destruct E as [->|[]]. reflexivity.
    + unfold src_a, src_b. destruct (d_locs s) as [|x [|y [|]]] eqn:DL; try discriminate K. destruct E as [->|[->|[]]].
      * left. exists s. split; [exact I|]. rewrite SL. left. unfold loc. now rewrite DL.
      * right. left. exists s. split; [exact I|]. rewrite SL, KD. left. unfold loc. now rewrite DL.
  - right; right. destruct rx as [ms|ms ns].
    + left. exists s. split; [exact I|]. apply in_flat_map. exists (RxPole ms). split; [exact R|exact E].
    + destruct E as [E|E]; [left|right]; exists s; (split; [exact I|]); apply in_flat_map; exists (RxDipole ms ns); (split; [exact R|exact E]).
Qed.
Lemma read_current v : current v -> snd (read_tables v) = tables (v_src v).
Proof. unfold read_tables. intros [->| ->]; reflexivity. Qed.
Lemma draped m act cut horiz v v' : Forall good_src (v_src v) -> current v -> drape m act cut horiz v = Ok v' ->
  exists Ts g, get_topography m act cut = Ok Ts /\ (forall p, electrodes_in (v_src v) p -> shift1 m Ts horiz (2 =? mdim m)%nat (firstn 2 p) = Ok (g p)) /\
    (forall p q, firstn 2 p = firstn 2 q -> g p = g q) /\
    v_src v' = map (move_src g) (v_src v) /\ v_cache v' = Some (tables (v_src v')).
Proof.
  intros F C H. unfold drape in H. rewrite (read_current v C), (tables_eq _ F) in H. cbn [t_a t_b t_m t_n] in H. cbv zeta in H.
  set (A := flat_map src_a (v_src v)) in *. set (B := flat_map src_b (v_src v)) in *. set (M := flat_map src_m (v_src v)) in *. set (N := flat_map src_n (v_src v)) in *.
  set (u := unique (map (firstn 2) A ++ map (firstn 2) B ++ map (firstn 2) M ++ map (firstn 2) N)) in *.
  destruct (shift_points m act cut horiz (One 0) 2 u) as [sh|] eqn:SH; [|discriminate]. cbn [bind] in H.
  destruct (shift_rows _ _ _ _ _ _ _ _ SH) as (Ts & GT & R). pose proof (shift_length _ _ _ _ _ _ _ _ SH) as SL.
  set (f := fun p => match shift1 m Ts horiz (2 =? mdim m)%nat p with Ok q => q | Err _ => [] end).
  assert (FU : sh = map f u).
  { apply nth_ext with (d := []) (d' := []); [now rewrite map_length|]. intros j J. rewrite SL in J. rewrite (gmap_nth f u j [] []) by exact J. destruct (R j J) as (q & Q & ->). unfold f. rewrite Q. cbn [height_of]. apply raise_zero. }
  assert (FOK : forall p, In p u -> shift1 m Ts horiz (2 =? mdim m)%nat p = Ok (f p)).
  { intros p I. destruct (In_nth _ _ [] I) as (j & J & <-). destruct (R j J) as (q & Q & _). unfold f. now rewrite Q. }
  rewrite FU in H. assert (INC : forall X, incl X (map (firstn 2) A ++ map (firstn 2) B ++ map (firstn 2) M ++ map (firstn 2) N) -> incl X u) by (intros X I p J; apply unique_in, I, J).
  rewrite !move_rows_map in H by (apply INC; intros p J; rewrite !in_app_iff; tauto). rewrite !map_map in H.
  set (g := fun p => f (firstn 2 p)) in *. change (fun x => f (firstn 2 x)) with g in H.
  pose proof (drape_srcs_eq g (v_src v) [] [] [] [] F eq_refl eq_refl eq_refl) as DS. cbn [app List.length] in DS. fold A B M N in DS. rewrite DS in H. cbn [bind] in H. injection H as <-. cbn [v_src v_cache].
  exists Ts, g. split; [exact GT|split; [|split; [|split; [reflexivity|]]]].
  - intros p E. apply FOK. apply unique_in. rewrite <- !map_app. apply in_map. exact (in_tables _ _ F E).
  - intros p q E. unfold g. now rewrite E.
  - now rewrite (move_tables g _ F).
Qed.
