(** UBC DC/IP files: reading a file that was written. *)
From Verif Require Import Py Vec DcUbc SpecDcUbc DcUbcFacts.
Local Open Scope R_scope.

Definition ex (c : option (list num)) (i : nat) : list num := match c with Some d => [nth i d None] | None => [] end.
Definition exs (P : R -> R) (c : option (list num)) (count n : nat) : list num := match c with Some d => map (pn P) (firstn n (skipn count d)) | None => [] end.
Lemma skipn_cons {A} (d : list A) i z : (i < len d)%nat -> skipn i d = nth i d z :: skipn (S i) d.
Proof. revert i. induction d as [|x d IH]; intros i H; [cbn in H; lia|]. destruct i; [reflexivity|]. cbn in H |- *. rewrite (IH i) by lia. destruct d; reflexivity. Qed.
Lemma exs_cons P c k count n : col_ok c k -> (count < k)%nat -> exs P c count (S n) = map (pn P) (ex c count) ++ exs P c (S count) n.
Proof. intros O H. destruct c as [d|]; [|reflexivity]. cbn in O. cbn [exs ex]. rewrite (skipn_cons d count None) by lia. reflexivity. Qed.
Lemma table_cons e obs std k count p ps : col_ok obs k -> col_ok std k -> (count + S (len ps) <= k)%nat -> table e obs std count (p :: ps) = (row e p ++ ex obs count ++ ex std count) :: table e obs std (S count) ps.
Proof.
  intros O S H. change (p :: ps) with ([p] ++ ps). rewrite (table_app e obs std k) by (try assumption; cbn; lia). cbn [len app]. rewrite Nat.add_1_r. f_equal.
  unfold table, col, ex. cbn [len map]. destruct obs as [d|], std as [w|]; cbn in O, S; unfold snoc_each.
  - rewrite (skipn_cons d count None), (skipn_cons w count None) by lia. cbn. rewrite <- app_assoc. reflexivity.
  - rewrite (skipn_cons d count None) by lia. reflexivity.
  - rewrite (skipn_cons w count None) by lia. reflexivity.
  - cbn. now rewrite app_nil_r.
Qed.
Definition std_after_obs (obs std : option (list num)) : Prop := match std with Some _ => obs <> None | None => True end.

Section Read.
Variable P : R -> R.
Variable dim : nat.
Hypothesis D : (2 <= dim)%nat.
Variable surface : bool.
Notation e := (width surface dim).
Variables obs std : option (list num).
Variable k : nat.
Hypothesis O : col_ok obs k.
Hypothesis W : col_ok std k.
Hypothesis SO : std_after_obs obs std.
Lemma e_pos : (0 < e)%nat.
Proof. unfold width. destruct surface; lia. Qed.
Definition step_state (s : rstate) (p : loc * loc) (count : nat) : rstate :=
  mkR (r_count s - 1) (r_surface s) (r_ptx s) (r_prx s || looks surface dim P p) (r_tx s) (r_rx s ++ [out_row surface dim P p]) (r_d s ++ map (pn P) (ex obs count)) (r_wd s ++ map (pn P) (ex std count)) (r_srcs s).
Lemma row_len p : located dim (fst p) -> located dim (snd p) -> len (row e p) = (2 * e)%nat.
Proof. intros [L1 _] [L2 _]. unfold row. rewrite app_length, !firstn_length. pose proof (width_le surface dim). lia. Qed.
Lemma read_row s p count : located dim (fst p) -> located dim (snd p) -> r_surface s = surface -> r_count s <> 0%nat ->
  read_line dim (numline P (row e p ++ ex obs count ++ ex std count)) s = let s' := step_state s p count in if (r_count s' =? 0)%nat then finish dim s' else Ok s'.
Proof.
  intros L1 L2 Ss C. unfold read_line, numline. destruct (Nat.eqb_spec (r_count s) 0); [contradiction|]. unfold read_rx. rewrite map_value_pr, map_app. rewrite Ss. rewrite rx_row_eq by assumption. cbn [bind].
  assert (Lr : len (map (pn P) (row e p)) = (2 * e)%nat) by (rewrite map_length; apply row_len; assumption).
  assert (C2 : (if surface then 2 * (dim - 1) else 2 * dim)%nat = (2 * e)%nat) by (unfold width; destruct surface; reflexivity). rewrite C2. clear C2.
  assert (N : len (map (pn P) (row e p) ++ map (pn P) (ex obs count ++ ex std count)) = (2 * e + len (ex obs count) + len (ex std count))%nat) by (rewrite app_length, Lr, map_length, app_length; lia).
  rewrite N. unfold step_state. rewrite Ss. cbn [fst snd].
  assert (X : forall j z, nth (2 * e + j) (map (pn P) (row e p) ++ z) None = nth j z None) by (intros j z; rewrite app_nth2, Lr by lia; f_equal; lia).
  destruct obs as [d|], std as [w|]; cbn [ex len map app std_after_obs] in *.
  - replace (2 * e + 1 + 1 =? 2 * e + 1)%nat with false by (symmetry; apply Nat.eqb_neq; lia). replace (2 * e + 1 + 1 =? 2 * e + 2)%nat with true by (symmetry; apply Nat.eqb_eq; lia). cbn [orb].
    rewrite (X 1%nat). replace (nth (2 * e) (map (pn P) (row e p) ++ [pn P (nth count d None); pn P (nth count w None)]) None) with (pn P (nth count d None)) by (rewrite <- (X 0%nat [pn P (nth count d None); pn P (nth count w None)]) at 1; [|..]; cbn [nth]; f_equal; lia). cbn [nth]. reflexivity.
  - replace (2 * e + 1 + 0 =? 2 * e + 1)%nat with true by (symmetry; apply Nat.eqb_eq; lia). replace (2 * e + 1 + 0 =? 2 * e + 2)%nat with false by (symmetry; apply Nat.eqb_neq; lia). cbn [orb].
    rewrite !app_nil_r. replace (nth (2 * e) (map (pn P) (row e p) ++ [pn P (nth count d None)]) None) with (pn P (nth count d None)) by (rewrite <- (X 0%nat [pn P (nth count d None)]) at 1; f_equal; lia). reflexivity.
  - contradiction.
  - replace (2 * e + 0 + 0 =? 2 * e + 1)%nat with false by (symmetry; apply Nat.eqb_neq; lia). replace (2 * e + 0 + 0 =? 2 * e + 2)%nat with false by (symmetry; apply Nat.eqb_neq; lia). cbn [orb]. rewrite !app_nil_r. reflexivity.
Qed.
Definition rows_state (s : rstate) (ps : list (loc * loc)) (count : nat) : rstate :=
  mkR 0 surface (r_ptx s) (r_prx s || existsb (looks surface dim P) ps) (r_tx s) (r_rx s ++ map (out_row surface dim P) ps) (r_d s ++ exs P obs count (len ps)) (r_wd s ++ exs P std count (len ps)) (r_srcs s).
Lemma read_rows rest : forall ps s count, ps <> [] -> Forall (fun p => located dim (fst p) /\ located dim (snd p)) ps -> r_surface s = surface -> r_count s = len ps -> (count + len ps <= k)%nat ->
  read_lines dim (map (numline P) (table e obs std count ps) ++ rest) s = (do s' <- finish dim (rows_state s ps count); read_lines dim rest s').
Proof.
  induction ps as [|p ps IH]; intros s count Ne F Ss C H; [contradiction|]. inversion F as [|? ? [L1 L2] F']; subst. cbn [len] in *. rewrite (table_cons e obs std k) by (try assumption; lia). cbn [map app read_lines].
  rewrite (read_row s p count L1 L2 Ss) by lia. rewrite ?Ss. cbv zeta. unfold step_state. rewrite Ss. cbn [r_count].
  destruct ps as [|p' ps].
  - cbn [len] in C. rewrite C. cbn [Nat.sub Nat.eqb]. unfold rows_state. cbn [existsb map len]. rewrite (exs_cons P obs k), (exs_cons P std k) by (try assumption; lia). rewrite !orb_false_r.
    assert (Z : forall c i, exs P c i 0 = []) by (intros [c|] i; reflexivity). rewrite !Z, !app_nil_r.
    assert (T : table e obs std (S count) [] = []) by (unfold table, col; destruct std, obs; reflexivity). rewrite T. reflexivity.
  - rewrite C. cbn [len Nat.sub Nat.eqb bind]. cbn [bind]. rewrite IH; [|discriminate|exact F'|reflexivity|cbn; lia|cbn [len] in *; lia].
    f_equal. unfold rows_state. cbn [r_surface r_ptx r_prx r_tx r_rx r_d r_wd r_srcs]. rewrite <- !app_assoc. cbn [existsb map app]. rewrite !orb_assoc. cbn [len].
    rewrite (exs_cons P obs k count (S (len ps))), (exs_cons P std k count (S (len ps))) by (try assumption; cbn [len] in *; lia). reflexivity.
Qed.
(** the source *)
Definition tx_vec (p : loc * loc) : list num := if looks surface dim P p then lifted surface dim P (fst p) else lifted surface dim P (fst p) ++ lifted surface dim P (snd p).
Lemma read_source s sr : r_count s = 0%nat -> (surface = false -> r_surface s = false) -> located dim (fst (tx_ends sr)) -> located dim (snd (tx_ends sr)) ->
  read_line dim (Nums (tx_toks P e sr)) s = Ok (mkR (src_nD sr) surface (r_ptx s || looks surface dim P (tx_ends sr)) (r_prx s) (tx_vec (tx_ends sr)) [] (r_d s) (r_wd s) (r_srcs s)).
Proof.
  intros C Ss L1 L2. unfold read_line. rewrite C. cbn [Nat.eqb]. unfold read_tx, tx_toks. rewrite last_last, app_length, map_length. cbn [len]. rewrite (row_len _ L1 L2). rewrite map_app, map_value_pr.
  set (p := tx_ends sr) in *. set (x := map (pn P) (firstn e (fst p))). set (y := map (pn P) (firstn e (snd p))). set (z := [Some (INR (src_nD sr))]). change (map value [TInt (src_nD sr)]) with z.
  assert (Lx : len x = e) by (apply part_len; exact L1). assert (Ly : len y = e) by (apply part_len; exact L2).
  unfold row. rewrite map_app. fold x y. rewrite <- app_assoc.
  pose proof e_pos as Ep. unfold tx_vec, looks. fold x y. unfold width in *. destruct surface.
  - rewrite Nat.eqb_refl. rewrite (firstn_row (dim - 1) x), (skipn_row (dim - 1) x) by exact Lx. assert (Fy : firstn (dim - 1) (y ++ z) = y) by exact (firstn_row (dim - 1) y [] z Ly). rewrite !Fy. unfold allclose. rewrite Lx, Ly, Nat.eqb_refl. cbn [bind]. f_equal. f_equal. unfold lifted, printed. fold (pn P). fold x y. destruct (forallb _ _); [reflexivity|]. rewrite <- app_assoc. reflexivity.
  - replace (2 * dim + 1 =? 2 * (dim - 1) + 1)%nat with false by (symmetry; apply Nat.eqb_neq; lia). rewrite (firstn_row dim x), (skipn_row dim x) by exact Lx. assert (Fy : firstn dim (y ++ z) = y) by exact (firstn_row dim y [] z Ly). rewrite !Fy. unfold allclose. rewrite Lx, Ly, Nat.eqb_refl. cbn [bind]. rewrite (Ss eq_refl). f_equal.
    assert (X : x = printed P (fst p)) by (unfold x, printed; rewrite firstn_all' by apply L1; reflexivity). assert (Y : y = printed P (snd p)) by (unfold y, printed; rewrite firstn_all' by apply L2; reflexivity).
    f_equal. unfold lifted. rewrite <- X, <- Y. destruct (forallb _ _); [reflexivity|]. rewrite app_assoc. unfold z. apply removelast_last.
Qed.
(** the block *)
Definition block_src (ptx prx : bool) (sr : src) : src :=
  let r := if prx then PoleRx (map (fun p => firstn dim (out_row surface dim P p)) (all_ends sr)) else DipoleRx (map (fun p => lifted surface dim P (fst p)) (all_ends sr)) (map (fun p => lifted surface dim P (snd p)) (all_ends sr)) in
  if ptx then PoleSrc (lifted surface dim P (fst (tx_ends sr))) [r] else DipoleSrc (lifted surface dim P (fst (tx_ends sr))) (lifted surface dim P (snd (tx_ends sr))) [r].
Definition homogeneous (sr : src) : Prop := forall p q, In p (all_ends sr) -> In q (all_ends sr) -> looks surface dim P p = looks surface dim P q.
Definition block_state (s : rstate) (sr : src) (count : nat) : rstate :=
  let ptx := r_ptx s || looks surface dim P (tx_ends sr) in
  let prx := r_prx s || existsb (looks surface dim P) (all_ends sr) in
  mkR 0 surface ptx prx (tx_vec (tx_ends sr)) (map (out_row surface dim P) (all_ends sr)) (r_d s ++ exs P obs count (src_nD sr)) (r_wd s ++ exs P std count (src_nD sr)) (r_srcs s ++ [block_src ptx prx sr]).
Lemma out_len p b : located dim (fst p) -> located dim (snd p) -> looks surface dim P p = b -> len (out_row surface dim P p) = (if b then (if surface && negb (dim =? 2) then dim - 1 else dim) else 2 * dim)%nat.
Proof.
  intros L1 L2 <-. unfold out_row. destruct (looks surface dim P p).
  - unfold lone. destruct (surface && negb (dim =? 2)%nat) eqn:E; [|apply lifted_len; assumption]. rewrite map_length, firstn_length. destruct L1 as [L1 _]. lia.
  - rewrite app_length, !lifted_len by assumption. lia.
Qed.
Lemma read_block s sr count rest : src_ok dim sr -> homogeneous sr -> r_count s = 0%nat -> (surface = false -> r_surface s = false) -> (count + src_nD sr <= k)%nat ->
  read_lines dim (Nums (tx_toks P e sr) :: map (numline P) (table e obs std count (all_ends sr)) ++ rest) s = read_lines dim rest (block_state s sr count).
Proof.
  intros (Tx & Rx & Pos) Hom C Ss H. destruct (src_ends_ok dim sr Rx) as [Fe Le].
  assert (T1 : located dim (fst (tx_ends sr)) /\ located dim (snd (tx_ends sr))) by (destruct sr; cbn in *; [split; exact Tx|exact Tx]). destruct T1 as [T1 T2].
  cbn [read_lines]. rewrite (read_source s sr C Ss T1 T2). cbn [bind].
  assert (Ne : all_ends sr <> []) by (intros E; rewrite E in Le; cbn in Le; lia).
  rewrite read_rows; [|exact Ne|exact Fe|reflexivity|cbn; symmetry; exact Le|lia].
  assert (Q : finish dim (rows_state (mkR (src_nD sr) surface (r_ptx s || looks surface dim P (tx_ends sr)) (r_prx s) (tx_vec (tx_ends sr)) [] (r_d s) (r_wd s) (r_srcs s)) (all_ends sr) count) = Ok (block_state s sr count)); [|rewrite Q; reflexivity].
  unfold finish, rows_state. cbn [r_surface r_ptx r_prx r_tx r_rx r_d r_wd r_srcs app]. rewrite Forall_forall in Fe.
  destruct (all_ends sr) as [|p0 ps] eqn:Ea; [contradiction|]. set (b := looks surface dim P p0).
  assert (Hb : forall p, In p (p0 :: ps) -> looks surface dim P p = b) by (intros p Hp; unfold b; apply Hom; rewrite Ea; [exact Hp|left; reflexivity]).
  assert (Lw : forall p, In p (p0 :: ps) -> len (out_row surface dim P p) = len (out_row surface dim P p0)) by (intros p Hp; destruct (Fe p Hp); destruct (Fe p0 (or_introl eq_refl)); rewrite (out_len p b), (out_len p0 b) by (try assumption; try apply Hb; try assumption; left; reflexivity); reflexivity).
  assert (Fb : forallb (fun r => (len r =? len (out_row surface dim P p0))%nat) (map (out_row surface dim P) (p0 :: ps)) = true) by (apply forallb_forall; intros r Hr; apply in_map_iff in Hr; destruct Hr as (p & <- & Hp); apply Nat.eqb_eq, Lw, Hp).
  change (match map (out_row surface dim P) (p0 :: ps) with [] => 0%nat | r :: _ => len r end) with (len (out_row surface dim P p0)). rewrite Fb. cbn [negb].
  assert (Ex : existsb (looks surface dim P) (p0 :: ps) = b).
  { cbn [existsb]. fold b. destruct b eqn:Eb; [reflexivity|]. cbn. destruct (existsb (looks surface dim P) ps) eqn:E; [|reflexivity]. apply existsb_exists in E. destruct E as (p & Hp & Q). rewrite (Hb p (or_intror Hp)) in Q. discriminate. }
  rewrite Ex.
  assert (R1 : (if r_prx s || b then Ok (PoleRx (map (firstn dim) (map (out_row surface dim P) (p0 :: ps)))) else if (len (out_row surface dim P p0) =? 2 * dim)%nat then Ok (DipoleRx (map (firstn dim) (map (out_row surface dim P) (p0 :: ps))) (map (skipn dim) (map (out_row surface dim P) (p0 :: ps)))) else Err ValueError)
     = Ok (if r_prx s || b then PoleRx (map (fun p => firstn dim (out_row surface dim P p)) (p0 :: ps)) else DipoleRx (map (fun p => lifted surface dim P (fst p)) (p0 :: ps)) (map (fun p => lifted surface dim P (snd p)) (p0 :: ps)))).
  { destruct (r_prx s || b) eqn:E; [now rewrite map_map|]. apply orb_false_iff in E. destruct E as [_ E]. rewrite E in *. destruct (Fe p0 (or_introl eq_refl)). rewrite (out_len p0 false) by (try assumption; apply Hb; left; reflexivity). rewrite Nat.eqb_refl, !map_map. f_equal. f_equal; apply map_ext_in; intros p Hp; unfold out_row; rewrite (Hb p Hp); destruct (Fe p Hp) as [Q1 Q2].
    - rewrite <- (app_nil_r (_ ++ _)), <- app_assoc. apply firstn_row. apply lifted_len; assumption.
    - apply skipn_row. apply lifted_len; assumption. }
  rewrite R1. cbn [bind]. clear R1.
  assert (R2 : forall l, (if r_ptx s || looks surface dim P (tx_ends sr) then Ok (PoleSrc (firstn dim (tx_vec (tx_ends sr))) l) else if (len (tx_vec (tx_ends sr)) =? 2 * dim)%nat then Ok (DipoleSrc (firstn dim (tx_vec (tx_ends sr))) (skipn dim (tx_vec (tx_ends sr))) l) else Err ValueError)
     = Ok (if r_ptx s || looks surface dim P (tx_ends sr) then PoleSrc (lifted surface dim P (fst (tx_ends sr))) l else DipoleSrc (lifted surface dim P (fst (tx_ends sr))) (lifted surface dim P (snd (tx_ends sr))) l)).
  { intros l. unfold tx_vec. pose proof (lifted_len surface dim P _ D T1) as K1. pose proof (lifted_len surface dim P _ D T2) as K2. destruct (looks surface dim P (tx_ends sr)).
    - rewrite orb_true_r. now rewrite firstn_all' by exact K1.
    - rewrite orb_false_r. rewrite app_length, K1, K2. replace (dim + dim =? 2 * dim)%nat with true by (symmetry; apply Nat.eqb_eq; lia). rewrite skipn_row by exact K1. rewrite <- (app_nil_r (_ ++ _)), <- app_assoc. rewrite firstn_row by exact K1. destruct (r_ptx s); reflexivity. }
  rewrite R2. cbn [bind]. unfold block_state, block_src. rewrite Ea, Ex, <- Le. reflexivity.
Qed.
(** the file *)
Fixpoint reread (ptx prx : bool) (ss : list src) : list src :=
  match ss with
  | [] => []
  | sr :: ss => let ptx := ptx || looks surface dim P (tx_ends sr) in let prx := prx || existsb (looks surface dim P) (all_ends sr) in block_src ptx prx sr :: reread ptx prx ss
  end.
Lemma read_blocks : forall ss s count, Forall (src_ok dim) ss -> Forall homogeneous ss -> r_count s = 0%nat -> (surface = false -> r_surface s = false) -> (count + nD ss <= k)%nat ->
  exists s', read_lines dim (blocks P e obs std count ss) s = Ok s' /\ r_srcs s' = r_srcs s ++ reread (r_ptx s) (r_prx s) ss /\ r_d s' = r_d s ++ exs P obs count (nD ss) /\ r_wd s' = r_wd s ++ exs P std count (nD ss).
Proof.
  assert (Z : forall c i, exs P c i 0 = []) by (intros [c|] i; reflexivity).
  induction ss as [|sr ss IH]; intros s count F Fh C Ss H.
  - exists s. cbn [blocks read_lines reread]. unfold nD. cbn [map list_sum fold_right]. rewrite !Z, !app_nil_r. auto.
  - inversion F as [|? ? F1 F2]; subst. inversion Fh as [|? ? H1 H2]; subst. assert (N : nD (sr :: ss) = (src_nD sr + nD ss)%nat) by reflexivity. rewrite N in *. cbn [blocks]. rewrite read_block by (try assumption; lia).
    destruct (IH (block_state s sr count) (count + src_nD sr)%nat F2 H2) as (s' & E & E1 & E2 & E3); [reflexivity|cbn; auto|lia|]. exists s'. split; [exact E|]. cbn [block_state r_srcs r_d r_wd r_ptx r_prx] in E1, E2, E3. rewrite E1, E2, E3, <- !app_assoc. cbn [app reread]. split; [reflexivity|].
    assert (A : forall c, exs P c count (src_nD sr + nD ss) = exs P c count (src_nD sr) ++ exs P c (count + src_nD sr) (nD ss)) by (intros [c|]; [|reflexivity]; cbn [exs]; rewrite firstn_add, map_app, skipn_skipn'; reflexivity).
    split; rewrite A; reflexivity.
Qed.
End Read.
