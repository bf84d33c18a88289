(** UBC DC/IP files: round trips, and what is lost. *)
From Verif Require Import Py Vec DcUbc SpecDcUbc DcUbcFacts DcUbcFacts2.
From Coq Require Import String.
Local Open Scope R_scope.
Local Open Scope list_scope.
Notation len := List.length.

Lemma block_nD P dim surface ptx prx sr : Forall (rx_ok dim) (receivers sr) -> src_nD (block_src P dim surface ptx prx sr) = src_nD sr.
Proof.
  intros F. rewrite <- (proj2 (src_ends_ok dim sr F)). unfold block_src, src_nD. destruct ptx, prx; cbn; rewrite map_length; lia.
Qed.
Lemma reread_nD P dim surface : forall ss ptx prx, Forall (src_ok dim) ss -> nD (reread P dim surface ptx prx ss) = nD ss.
Proof.
  induction ss as [|s ss IH]; intros ptx prx F; [reflexivity|]. pose proof (Forall_inv F) as (_ & F2 & _). pose proof (Forall_inv_tail F) as F'. unfold nD in *. cbn [reread map list_sum fold_right]. rewrite block_nD by exact F2. fold (list_sum (map src_nD ss)). rewrite <- (IH (ptx || looks surface dim P (tx_ends s)) (prx || existsb (looks surface dim P) (all_ends s)) F'). reflexivity.
Qed.
Lemma reread_len P dim surface : forall ss ptx prx, len (reread P dim surface ptx prx ss) = len ss.
Proof. induction ss as [|s ss IH]; intros; cbn; [reflexivity|]. now rewrite IH. Qed.
Lemma nD_pos dim ss : Forall (src_ok dim) ss -> ss <> [] -> (0 < nD ss)%nat.
Proof. destruct ss as [|s ss]; [contradiction|]. intros F _. pose proof (Forall_inv F) as (_ & _ & P). unfold nD. cbn. lia. Qed.

Section Top.
Variable P : R -> R.
Hypothesis Pp : forall x, 0 <= x -> 0 <= P x.
Lemma neg_print w : Forall (fun x => negative x = false) w -> existsb negative (map (pn P) w) = false.
Proof.
  induction 1 as [|x w N F IH]; [reflexivity|]. cbn. rewrite IH, orb_false_r. destruct x as [r|]; [|reflexivity]. cbn in *. destruct (Rlt_dec r 0); [discriminate|]. destruct (Rlt_dec (P r) 0) as [Q|]; [|reflexivity]. exfalso. specialize (Pp r). lra.
Qed.
Definition obs_of (k : kind) (d : data) : option (list num) := match k with Survey => None | _ => Some (d_obs d) end.
Definition std_of (k : kind) (d : data) : option (list num) := match k with Dobs => d_std d | _ => None end.
Lemma body_written dim surface k d : (2 <= dim)%nat -> data_ok dim d -> d_srcs d <> [] -> (k = Dobs -> d_std d <> None) -> Forall (homogeneous P dim surface) (d_srcs d) ->
  read_body dim (blocks P (width surface dim) (obs_of k d) (std_of k d) 0 (d_srcs d)) = Ok (mkData (reread P dim surface false false (d_srcs d)) (d_obs (expected surface dim P k d)) (d_std (expected surface dim P k d))).
Proof.
  intros D (F & Lo & Lw) Ne Hk Hom. set (n := nD (d_srcs d)) in *. pose proof (nD_pos dim (d_srcs d) F Ne) as Np. fold n in Np.
  assert (O : col_ok (obs_of k d) n) by (destruct k; cbn; auto). assert (W : col_ok (std_of k d) n) by (destruct k; cbn; auto; destruct (d_std d) as [w|]; [apply (Lw w eq_refl)|exact I]).
  assert (SO : std_after_obs (obs_of k d) (std_of k d)) by (destruct k; cbn; auto; destruct (d_std d); [discriminate|exact I]).
  destruct (read_blocks P dim D surface (obs_of k d) (std_of k d) n O W SO (d_srcs d) r_start 0 F Hom eq_refl (fun _ => eq_refl)) as (s' & E & E1 & E2 & E3); [unfold n; lia|].
  unfold read_body. rewrite E. cbn [bind]. rewrite E1, E2, E3. cbn [r_srcs r_d r_wd r_start app r_ptx r_prx]. fold n.
  assert (Ex : forall c, len c = n -> exs P (Some c) 0 n = map (pn P) c) by (intros c L; cbn; rewrite firstn_all' by exact L; reflexivity).
  unfold make_data. rewrite (reread_nD P dim surface (d_srcs d) false false F). fold n. destruct k; cbn [obs_of std_of expected d_obs d_std].
  - cbn. reflexivity.
  - rewrite Ex by exact Lo. rewrite map_length, Lo. replace (n =? 0)%nat with false by (symmetry; apply Nat.eqb_neq; lia). rewrite Nat.eqb_refl. cbn. reflexivity.
  - destruct (d_std d) as [w|] eqn:Ew; [|exfalso; apply Hk; reflexivity]. destruct (Lw w eq_refl) as [Lw1 Lw2]. rewrite !Ex by assumption. rewrite !map_length, Lo, Lw1. replace (n =? 0)%nat with false by (symmetry; apply Nat.eqb_neq; lia). rewrite Nat.eqb_refl. cbn [bind]. rewrite (neg_print w Lw2). reflexivity.
Qed.
Lemma columns_ok k d : (k = Dobs -> d_std d <> None) -> columns k d = Ok (obs_of k d, std_of k d).
Proof. intros H. destruct k; cbn; try reflexivity. destruct (d_std d); [reflexivity|exfalso; apply H; reflexivity]. Qed.
Lemma kept_comments n l : filter kept (repeat Comment n ++ l) = filter kept l.
Proof. induction n; cbn; auto. Qed.
Lemma first_block e obs std count ss : ss <> [] -> exists t l, blocks P e obs std count ss = Nums t :: l.
Proof. destruct ss as [|s ss]; [contradiction|]. intros _. cbn. eexists. eexists. reflexivity. Qed.
Definition plain (k : kind) (t : dtype) : Prop := ~ (k = Dpred /\ t = Volt).
Theorem file3 rho t k surface c d : plain k t -> data_ok 3 d -> d_srcs d <> [] -> (k = Dobs -> d_std d <> None) -> Forall (homogeneous P 3 surface) (d_srcs d) ->
  fst (write3 P rho t k surface c d) = d /\ exists f, snd (write3 P rho t k surface c d) = Ok f /\ read3 f = Ok (mkData (reread P 3 surface false false (d_srcs d)) (d_obs (expected surface 3 P k d)) (d_std (expected surface 3 P k d))).
Proof.
  intros Pl Ok_ Ne Hk Hom. unfold write3. assert (Q : forall X Y : data * result file, (match k, t with Dpred, Volt => X | _, _ => Y end) = Y) by (intros; destruct k, t; try reflexivity; exfalso; apply Pl; split; reflexivity). cbv zeta. rewrite Q. cbn [fst snd]. split; [reflexivity|].
  rewrite (columns_ok k d Hk). cbn [bind fst snd]. eexists. split; [reflexivity|]. unfold read3. rewrite kept_comments, filter_app. pose proof Ok_ as (F & Lo & Lw).
  assert (O : col_ok (obs_of k d) (nD (d_srcs d))) by (destruct k; cbn; auto). assert (W : col_ok (std_of k d) (nD (d_srcs d))) by (destruct k; cbn; auto; destruct (d_std d) as [w|]; [apply (Lw w eq_refl)|exact I]).
  replace (if surface then 2 else 3)%nat with (width surface 3) by (destruct surface; reflexivity).
  rewrite (src_lines_kept P 3 (width surface 3) _ _ (nD (d_srcs d))) by (try assumption; try (unfold width; destruct surface; lia); lia).
  destruct (first_block (width surface 3) (obs_of k d) (std_of k d) 0 (d_srcs d) Ne) as (t0 & l0 & E0). pose proof (body_written 3 surface k d ltac:(lia) Ok_ Ne Hk Hom) as B. rewrite E0 in *. destruct t; cbn [ip_line filter kept app]; [exact B| |]; exact B.
Qed.
Theorem file2 t k surface c d : data_ok 2 d -> d_srcs d <> [] -> (k = Dobs -> d_std d <> None) -> Forall (homogeneous P 2 surface) (d_srcs d) ->
  exists f, write2 P t k surface c d = Ok f /\ read2 t f = Ok (mkData (reread P 2 surface false false (d_srcs d)) (d_obs (expected surface 2 P k d)) (d_std (expected surface 2 P k d))).
Proof.
  intros Ok_ Ne Hk Hom. unfold write2. rewrite (columns_ok k d Hk). cbn [bind fst snd]. eexists. split; [reflexivity|]. unfold read2. cbn [filter kept]. rewrite kept_comments. cbn [filter kept]. rewrite filter_app. pose proof Ok_ as (F & Lo & Lw).
  assert (O : col_ok (obs_of k d) (nD (d_srcs d))) by (destruct k; cbn; auto). assert (W : col_ok (std_of k d) (nD (d_srcs d))) by (destruct k; cbn; auto; destruct (d_std d) as [w|]; [apply (Lw w eq_refl)|exact I]).
  replace (if surface then 1 else 2)%nat with (width surface 2) by (destruct surface; reflexivity).
  rewrite (src_lines_kept P 2 (width surface 2) _ _ (nD (d_srcs d))) by (try assumption; try (unfold width; destruct surface; lia); lia).
  pose proof (body_written 2 surface k d ltac:(lia) Ok_ Ne Hk Hom) as B. destruct t; cbn [ip_line filter kept app String.eqb Ascii.eqb Bool.eqb]; cbn [skipn]; exact B.
Qed.

(** ** Poles and dipoles *)
Lemma close_refl x : x <> None -> close x x = true.
Proof. destruct x as [r|]; [|contradiction]. intros _. cbn. destruct (Rle_dec _ _) as [|N]; [reflexivity|]. exfalso. apply N. rewrite Rminus_diag_eq, Rabs_R0 by reflexivity. pose proof (Rabs_pos r). lra. Qed.
Lemma looks_pole surface dim x : located dim x -> looks surface dim P (x, x) = true.
Proof.
  intros [_ F]. unfold looks. cbn [fst snd]. generalize (width surface dim). induction F as [|y x Y F IH]; intros [|m]; try reflexivity. cbn. rewrite IH, andb_true_r. apply close_refl. destruct y; [discriminate|contradiction].
Qed.
Lemma looks_apart surface dim x y : apart surface dim P x y -> looks surface dim P (x, y) = false.
Proof.
  intros (k & u & v & K & X & Y & L). unfold looks. cbn [fst snd]. unfold width. set (m := if surface then (dim - 1)%nat else dim) in *. clearbody m.
  assert (Q : forall x y k m, (k < m)%nat -> nth k x None = Some u -> nth k y None = Some v -> forallb (fun q => close (fst q) (snd q)) (combine (map (pn P) (firstn m x)) (map (pn P) (firstn m y))) = false).
  { clear x y k m K X Y. induction x as [|a x IH]; intros y k m K X Y; [destruct k; discriminate|]. destruct y as [|b y]; [destruct k; discriminate|]. destruct m; [lia|]. destruct k; cbn in *.
    - subst a b. cbn. destruct (Rle_dec _ _); [lra|reflexivity].
    - rewrite (IH y k m) by (assumption || lia). apply andb_false_r. }
  exact (Q x y k m K X Y).
Qed.
Lemma reread_uniform dim surface bt br : forall ss ptx prx, Forall (fun s => looks surface dim P (tx_ends s) = bt /\ (forall p, In p (all_ends s) -> looks surface dim P p = br) /\ all_ends s <> []) ss -> (bt = false -> ptx = false) -> (br = false -> prx = false) ->
  reread P dim surface ptx prx ss = map (block_src P dim surface bt br) ss.
Proof.
  induction ss as [|s ss IH]; intros ptx prx F Ht Hr; [reflexivity|]. pose proof (Forall_inv F) as (T & Rr & Ne). pose proof (Forall_inv_tail F) as F'. cbn [reread map].
  assert (E : existsb (looks surface dim P) (all_ends s) = br).
  { destruct br; [destruct (all_ends s) as [|p l]; [contradiction|]; cbn; rewrite (Rr p (or_introl eq_refl)); reflexivity|]. destruct (existsb _ _) eqn:Q; [|reflexivity]. apply existsb_exists in Q. destruct Q as (p & Hp & Q). rewrite (Rr p Hp) in Q. discriminate. }
  rewrite T, E. assert (A : ptx || bt = bt) by (destruct bt; [apply orb_true_r|rewrite Ht by reflexivity; reflexivity]). assert (B : prx || br = br) by (destruct br; [apply orb_true_r|rewrite Hr by reflexivity; reflexivity]). rewrite A, B. f_equal. apply IH; auto.
Qed.
Lemma ms_ends dim s : Forall (rx_ok dim) (receivers s) -> map fst (all_ends s) = ms s /\ map snd (all_ends s) = ns s.
Proof.
  unfold all_ends, ms, ns. induction 1 as [|r l R F [I1 I2]]; [split; reflexivity|]. cbn [map List.concat]. rewrite !map_app, I1, I2. destruct r as [m|m n]; cbn.
  - rewrite !map_map. cbn. rewrite !map_id. split; reflexivity.
  - destruct R as (_ & _ & L). clear - L. assert (Q : map fst (combine m n) = m /\ map snd (combine m n) = n) by (revert n L; induction m as [|x m IH]; intros [|y n] L; try discriminate; cbn; [split; reflexivity|]; destruct (IH n) as [A B]; [cbn in L; lia|]; now rewrite A, B). destruct Q as [-> ->]. split; reflexivity.
Qed.
Lemma ends_pole dim s : Forall (rx_ok dim) (receivers s) -> Forall pole_rx (receivers s) -> forall surface p, In p (all_ends s) -> looks surface dim P p = true /\ located dim (fst p) /\ snd p = fst p.
Proof.
  intros F Fp surface p H. unfold all_ends in H. apply in_concat in H. destruct H as (l & Hl & Hp). apply in_map_iff in Hl. destruct Hl as (r & <- & Hr). rewrite Forall_forall in F, Fp. specialize (F r Hr). specialize (Fp r Hr). destruct r as [m|]; [|contradiction]. cbn in *. apply in_map_iff in Hp. destruct Hp as (x & <- & Hx). rewrite Forall_forall in F. specialize (F x Hx). split; [apply looks_pole; exact F|]. cbn. auto.
Qed.
Lemma ends_dipole dim surface s : Forall (dipole_rx surface dim P) (receivers s) -> forall p, In p (all_ends s) -> looks surface dim P p = false.
Proof.
  intros F p H. unfold all_ends in H. apply in_concat in H. destruct H as (l & Hl & Hp). apply in_map_iff in Hl. destruct Hl as (r & <- & Hr). rewrite Forall_forall in F. specialize (F r Hr). destruct r as [|m n]; [contradiction|]. cbn in *. clear - F Hp. induction F; cbn in Hp; [contradiction|]. destruct Hp as [<-|Hp]; [apply looks_apart; assumption|auto].
Qed.
Lemma firstn_short {A} n (l : list A) : (len l <= n)%nat -> firstn n l = l.
Proof. intros H. apply firstn_all2. exact H. Qed.
Lemma uniform_merged dim surface ss : (2 <= dim)%nat -> Forall (src_ok dim) ss -> (pole_srcs ss \/ dipole_srcs surface dim P ss) -> ((surface = false \/ dim = 2%nat) /\ pole_rxs ss \/ dipole_rxs surface dim P ss) ->
  reread P dim surface false false ss = map (merged surface dim P) ss /\ Forall (homogeneous P dim surface) ss.
Proof.
  intros D F Ht Hr.
  assert (At : exists bt, Forall (fun s => looks surface dim P (tx_ends s) = bt) ss /\ forall s, In s ss -> match s with PoleSrc _ _ => bt = true | DipoleSrc _ _ _ => bt = false end).
  { rewrite Forall_forall in F. destruct Ht as [Ht|Ht]; unfold pole_srcs, dipole_srcs in Ht; rewrite Forall_forall in Ht; [exists true|exists false]; (split; [rewrite Forall_forall; intros s Hs; specialize (Ht s Hs)|intros s Hs; specialize (Ht s Hs); destruct s; try reflexivity; contradiction]).
    - destruct s; [|contradiction]. cbn. apply looks_pole. destruct (F _ Hs) as (Q & _). exact Q.
    - destruct s; [contradiction|]. cbn. apply looks_apart. exact Ht. }
  assert (Ar : exists br, Forall (fun s => forall p, In p (all_ends s) -> looks surface dim P p = br) ss /\ (forall s, In s ss -> forallb (fun r => match r with PoleRx _ => true | _ => false end) (receivers s) = br) /\ (br = true -> surface && negb (dim =? 2)%nat = false) /\ (br = true -> pole_rxs ss)).
  { destruct Hr as [[Hs Hr]|Hr]; unfold pole_rxs, dipole_rxs in Hr; [exists true|exists false].
    - rewrite Forall_forall in F, Hr. split; [|split; [|split]].
      + apply Forall_forall. intros s S p Hp. destruct (F s S) as (_ & F2 & _). apply (ends_pole dim s F2 (Hr s S) surface p Hp).
      + intros s S. apply forallb_forall. intros r R. pose proof (Hr s S) as Q. rewrite Forall_forall in Q. specialize (Q r R). destruct r; [reflexivity|contradiction].
      + intros _. destruct Hs as [->| ->]; [reflexivity|]. apply andb_false_r.
      + intros _. apply Forall_forall. exact Hr.
    - rewrite Forall_forall in F, Hr. split; [|split; [|split; discriminate]].
      + apply Forall_forall. intros s S p Hp. apply (ends_dipole dim surface s (Hr s S) p Hp).
      + intros s S. destruct (F s S) as (_ & _ & Pos). pose proof (Hr s S) as Q. unfold src_nD in Pos. destruct (receivers s) as [|r l]; [cbn in Pos; lia|]. pose proof (Forall_inv Q) as Q1. destruct r; [contradiction|]. reflexivity. }
  destruct At as (bt & T1 & T2). destruct Ar as (br & R1 & R2 & R3 & R4). rewrite Forall_forall in T1, R1, F. split.
  - rewrite (reread_uniform dim surface bt br); [|apply Forall_forall; intros s S; split; [apply T1; exact S|split; [apply R1; exact S|]]; destruct (F s S) as (_ & F2 & Pos); intros E; pose proof (proj2 (src_ends_ok dim s F2)) as L; rewrite E in L; cbn in L; lia|reflexivity|reflexivity].
    apply map_ext_in. intros s S. destruct (F s S) as (_ & F2 & _). destruct (ms_ends dim s F2) as [M1 M2]. unfold merged, block_src. cbv zeta. rewrite (R2 s S).
    assert (Er : (if br then PoleRx (map (fun p => firstn dim (out_row surface dim P p)) (all_ends s)) else DipoleRx (map (fun p => lifted surface dim P (fst p)) (all_ends s)) (map (fun p => lifted surface dim P (snd p)) (all_ends s)))
               = (if br then PoleRx (map (lifted surface dim P) (ms s)) else DipoleRx (map (lifted surface dim P) (ms s)) (map (lifted surface dim P) (ns s)))).
    { rewrite <- M1, <- M2, !map_map. destruct br; [|reflexivity]. f_equal. apply map_ext_in. intros p Hp. unfold out_row. rewrite (R1 s S p Hp). unfold lone. rewrite (R3 eq_refl). apply firstn_short. rewrite lifted_len; [lia|exact D|]. specialize (R4 eq_refl). unfold pole_rxs in R4. rewrite Forall_forall in R4. apply (ends_pole dim s F2 (R4 s S) surface p Hp). }
    rewrite Er. pose proof (T2 s S) as Q. destruct s; rewrite Q; reflexivity.
  - apply Forall_forall. intros s S p q Hp Hq. rewrite (R1 s S p Hp), (R1 s S q Hq). reflexivity.
Qed.
End Top.

Theorem round_trip3 P rho t k surface c d : (forall x, 0 <= x -> 0 <= P x) -> ~ (k = Dpred /\ t = Volt) -> data_ok 3 d -> d_srcs d <> [] -> (k = Dobs -> d_std d <> None) ->
  (pole_srcs (d_srcs d) \/ dipole_srcs surface 3 P (d_srcs d)) -> (surface = false /\ pole_rxs (d_srcs d) \/ dipole_rxs surface 3 P (d_srcs d)) ->
  fst (write3 P rho t k surface c d) = d /\ exists f, snd (write3 P rho t k surface c d) = Ok f /\ read3 f = Ok (expected surface 3 P k d).
Proof.
  intros Pp Pl O Ne Hk Ht Hr. destruct (uniform_merged P 3 surface (d_srcs d) ltac:(lia) (proj1 O) Ht) as [E H]; [destruct Hr as [[H1 H2]|H]; [left; split; [left; exact H1|exact H2]|right; exact H]|].
  destruct (file3 P Pp rho t k surface c d Pl O Ne Hk H) as (A & f & B & C). split; [exact A|]. exists f. split; [exact B|]. rewrite C, E. reflexivity.
Qed.
Theorem round_trip2 P t k surface c d : (forall x, 0 <= x -> 0 <= P x) -> data_ok 2 d -> d_srcs d <> [] -> (k = Dobs -> d_std d <> None) ->
  (pole_srcs (d_srcs d) \/ dipole_srcs surface 2 P (d_srcs d)) -> (pole_rxs (d_srcs d) \/ dipole_rxs surface 2 P (d_srcs d)) ->
  exists f, write2 P t k surface c d = Ok f /\ read2 t f = Ok (expected surface 2 P k d).
Proof.
  intros Pp O Ne Hk Ht Hr. destruct (uniform_merged P 2 surface (d_srcs d) ltac:(lia) (proj1 O) Ht) as [E H]; [destruct Hr as [H|H]; [left; split; [right; reflexivity|exact H]|right; exact H]|].
  destruct (file2 P Pp t k surface c d O Ne Hk H) as (f & B & C). exists f. split; [exact B|]. rewrite C, E. reflexivity.
Qed.
