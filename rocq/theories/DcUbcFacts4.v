(** UBC DC/IP files: what goes wrong. *)
From Verif Require Import Py Vec DcUbc SpecDcUbc DcUbcFacts DcUbcFacts2 DcUbcFacts3.
Local Open Scope R_scope.
Notation len := List.length.

(** Receivers of one source: all poles, or all dipoles that can be told apart *)
Section Sticky.
Variable P : R -> R.
Hypothesis Pp : forall x, 0 <= x -> 0 <= P x.
Lemma one_kind_hom dim surface s : src_ok dim s -> Forall pole_rx (receivers s) \/ Forall (dipole_rx surface dim P) (receivers s) -> homogeneous P dim surface s.
Proof.
  intros (_ & F & _) [H|H] p q Hp Hq.
  - rewrite (proj1 (ends_pole P dim s F H surface p Hp)), (proj1 (ends_pole P dim s F H surface q Hq)). reflexivity.
  - rewrite (ends_dipole P dim surface s H p Hp), (ends_dipole P dim surface s H q Hq). reflexivity.
Qed.
Lemma reread_nth dim surface z : forall ss ptx prx j, (j < len ss)%nat ->
  exists bt br, nth j (reread P dim surface ptx prx ss) z = block_src P dim surface bt br (nth j ss z) /\
    (bt = ptx || existsb (fun s => looks surface dim P (tx_ends s)) (firstn (S j) ss)) /\ (br = prx || existsb (fun s => existsb (looks surface dim P) (all_ends s)) (firstn (S j) ss)).
Proof.
  induction ss as [|s ss IH]; intros ptx prx j H; [cbn in H; lia|]. destruct j.
  - cbn. eexists. eexists. split; [reflexivity|]. rewrite !orb_false_r. split; reflexivity.
  - cbn [reread nth]. destruct (IH (ptx || looks surface dim P (tx_ends s)) (prx || existsb (looks surface dim P) (all_ends s)) j) as (bt & br & E & E1 & E2); [cbn in H; lia|]. exists bt, br. split; [exact E|]. rewrite E1, E2. rewrite (firstn_cons (S j) s ss). cbn [existsb]. rewrite !orb_assoc. split; reflexivity.
Qed.
Lemma in_firstn_nth {A} (l : list A) i j z : (i <= j)%nat -> (j < len l)%nat -> In (nth i l z) (firstn (S j) l).
Proof. revert i j. induction l as [|x l IH]; intros i j H L; [cbn in L; lia|]. destruct i; [left; reflexivity|]. destruct j; [lia|]. right. apply IH; [lia|cbn in L; lia]. Qed.
Theorem sticky rho t k c d z : ~ (k = Dpred /\ t = Volt) -> data_ok 3 d -> d_srcs d <> [] -> (k = Dobs -> d_std d <> None) ->
  Forall (fun s => Forall pole_rx (receivers s) \/ Forall (dipole_rx false 3 P) (receivers s)) (d_srcs d) ->
  exists f d', snd (write3 P rho t k false c d) = Ok f /\ read3 f = Ok d' /\ len (d_srcs d') = len (d_srcs d) /\
    (forall i j, (i <= j < len (d_srcs d))%nat -> is_pole (nth i (d_srcs d) z) -> exists r, nth j (d_srcs d') z = PoleSrc (printed P (first_end (nth j (d_srcs d) z))) r) /\
    (forall i j, (i <= j < len (d_srcs d))%nat -> Forall pole_rx (receivers (nth i (d_srcs d) z)) -> receivers (nth j (d_srcs d') z) = [PoleRx (map (printed P) (ms (nth j (d_srcs d) z)))]).
Proof.
  intros Pl O Ne Hk Hk2. pose proof O as (F & _). assert (Hom : Forall (homogeneous P 3 false) (d_srcs d)) by (rewrite Forall_forall in *; intros s S; apply one_kind_hom; auto).
  destruct (file3 P Pp rho t k false c d Pl O Ne Hk Hom) as (_ & f & E & Rd). exists f. eexists. split; [exact E|]. split; [exact Rd|]. cbn [d_srcs]. split; [apply reread_len|]. rewrite Forall_forall in F.
  split; intros i j [Hij Hj] Hp; destruct (reread_nth 3 false z (d_srcs d) false false j Hj) as (bt & br & En & Et & Er); rewrite En.
  - assert (Hbt : bt = true). { rewrite Et. cbn [orb]. apply existsb_exists. exists (nth i (d_srcs d) z). split; [apply in_firstn_nth; lia|]. assert (Hi : In (nth i (d_srcs d) z) (d_srcs d)) by (apply nth_In; lia). destruct (nth i (d_srcs d) z) as [a l|]; [|contradiction]. apply looks_pole. apply (F _ Hi). }
    rewrite Hbt. unfold block_src. cbv zeta. destruct (nth j (d_srcs d) z); eexists; reflexivity.
  - assert (Hbr : br = true). { rewrite Er. cbn [orb]. apply existsb_exists. exists (nth i (d_srcs d) z). split; [apply in_firstn_nth; lia|]. assert (Hi : In (nth i (d_srcs d) z) (d_srcs d)) by (apply nth_In; lia). destruct (F _ Hi) as (_ & F2 & Pos). pose proof (proj2 (src_ends_ok 3 _ F2)) as L. destruct (all_ends (nth i (d_srcs d) z)) as [|p l] eqn:Ea; [cbn in L; lia|]. cbn [existsb]. rewrite (proj1 (ends_pole P 3 _ F2 Hp false p ltac:(rewrite Ea; left; reflexivity))). reflexivity. }
    rewrite Hbr. assert (Hi : In (nth j (d_srcs d) z) (d_srcs d)) by (apply nth_In; lia). destruct (F _ Hi) as (_ & F2 & Pos). destruct (ms_ends 3 _ F2) as [M1 _]. destruct (src_ends_ok 3 _ F2) as [Fe _]. rewrite Forall_forall in Fe.
    assert (Q : map (fun p => firstn 3 (out_row false 3 P p)) (all_ends (nth j (d_srcs d) z)) = map (printed P) (ms (nth j (d_srcs d) z))).
    { rewrite <- M1, map_map. apply map_ext_in. intros p Hp'. destruct (Fe p Hp') as [L1 L2]. unfold out_row. assert (K : len (lifted false 3 P (fst p)) = 3%nat) by (apply lifted_len; [lia|exact L1]). destruct (looks false 3 P p); [cbn [lone andb]; rewrite firstn_all2 by (unfold lone; cbn [andb]; lia); reflexivity|]. rewrite <- (app_nil_r (_ ++ _)), <- app_assoc. rewrite firstn_row by exact K. reflexivity. }
    unfold block_src. cbv zeta. rewrite Q. destruct bt; reflexivity.
Qed.
(** Poles at the surface in 3D *)
Theorem surface_poles rho t k c d z : ~ (k = Dpred /\ t = Volt) -> data_ok 3 d -> d_srcs d <> [] -> (k = Dobs -> d_std d <> None) -> pole_rxs (d_srcs d) ->
  exists f d', snd (write3 P rho t k true c d) = Ok f /\ read3 f = Ok d' /\ len (d_srcs d') = len (d_srcs d) /\
    forall j, (j < len (d_srcs d))%nat -> receivers (nth j (d_srcs d') z) = [PoleRx (map (fun x => printed P (firstn 2 x)) (ms (nth j (d_srcs d) z)))].
Proof.
  intros Pl O Ne Hk Hr. pose proof O as (F & _). unfold pole_rxs in Hr. rewrite Forall_forall in Hr. assert (Hom : Forall (homogeneous P 3 true) (d_srcs d)) by (rewrite Forall_forall in *; intros s S; apply one_kind_hom; auto).
  destruct (file3 P Pp rho t k true c d Pl O Ne Hk Hom) as (_ & f & E & Rd). exists f. eexists. split; [exact E|]. split; [exact Rd|]. cbn [d_srcs]. split; [apply reread_len|]. rewrite Forall_forall in F.
  intros j Hj. destruct (reread_nth 3 true z (d_srcs d) false false j Hj) as (bt & br & En & Et & Er). rewrite En. assert (Hi : In (nth j (d_srcs d) z) (d_srcs d)) by (apply nth_In; lia). destruct (F _ Hi) as (_ & F2 & Pos). destruct (ms_ends 3 _ F2) as [M1 _].
  assert (Hbr : br = true). { rewrite Er. cbn [orb]. apply existsb_exists. exists (nth j (d_srcs d) z). split; [apply in_firstn_nth; lia|]. pose proof (proj2 (src_ends_ok 3 _ F2)) as L. destruct (all_ends (nth j (d_srcs d) z)) as [|p l] eqn:Ea; [cbn in L; lia|]. cbn [existsb]. rewrite (proj1 (ends_pole P 3 _ F2 (Hr _ Hi) true p ltac:(rewrite Ea; left; reflexivity))). reflexivity. }
  rewrite Hbr. assert (Q : map (fun p => firstn 3 (out_row true 3 P p)) (all_ends (nth j (d_srcs d) z)) = map (fun x => printed P (firstn 2 x)) (ms (nth j (d_srcs d) z))).
  { rewrite <- M1, map_map. apply map_ext_in. intros p Hp'. unfold out_row. destruct (ends_pole P 3 _ F2 (Hr _ Hi) true p Hp') as (Lk & [L1 _] & _). rewrite Lk. unfold lone. cbn [andb negb Nat.eqb Nat.sub]. unfold printed. apply firstn_all2. rewrite map_length, firstn_length. lia. }
  unfold block_src. cbv zeta. rewrite Q. destruct bt; reflexivity.
Qed.
(** Poles and dipoles at one source *)
Lemma finish_mixed dim surface s ps p q : (2 <= dim)%nat -> In p ps -> In q ps -> looks surface dim P p = true -> looks surface dim P q = false -> Forall (fun p => located dim (fst p) /\ located dim (snd p)) ps -> r_rx s = map (out_row surface dim P) ps -> finish dim s = Err ValueError.
Proof.
  intros D Hp Hq Lp Lq F E. unfold finish. rewrite E. rewrite Forall_forall in F. destruct ps as [|p0 ps]; [contradiction|]. cbn [map].
  destruct (forallb _ _) eqn:Q; [|reflexivity]. exfalso. change (out_row surface dim P p0 :: map (out_row surface dim P) ps) with (map (out_row surface dim P) (p0 :: ps)) in Q. rewrite forallb_forall in Q.
  destruct (F p Hp) as [A1 A2]. destruct (F q Hq) as [B1 B2].
  pose proof (Q _ (in_map _ _ p Hp)) as K1. pose proof (Q _ (in_map _ _ q Hq)) as K2. apply Nat.eqb_eq in K1, K2. rewrite (out_len P dim D surface p true A1 A2 Lp) in K1. rewrite (out_len P dim D surface q false B1 B2 Lq) in K2. destruct (surface && negb (dim =? 2)%nat); lia.
Qed.
Theorem mixed rho t k c d s r1 r2 : ~ (k = Dpred /\ t = Volt) -> data_ok 3 d -> (k = Dobs -> d_std d <> None) -> hd_error (d_srcs d) = Some s -> In r1 (receivers s) -> In r2 (receivers s) -> pole_rx r1 -> dipole_rx false 3 P r2 -> (0 < rx_nD r1)%nat -> (0 < rx_nD r2)%nat ->
  exists f, snd (write3 P rho t k false c d) = Ok f /\ read3 f = Err ValueError.
Proof.
  intros Pl Ok_ Hk Hd I1 I2 K1 K2 N1 N2. pose proof Ok_ as (F & Lo & Lw). unfold write3. assert (Q : forall X Y : data * result file, (match k, t with Dpred, Volt => X | _, _ => Y end) = Y) by (intros; destruct k, t; try reflexivity; exfalso; apply Pl; split; reflexivity). cbv zeta. rewrite Q. cbn [fst snd]. rewrite (columns_ok k d Hk). cbn [bind fst snd]. eexists. split; [reflexivity|].
  unfold read3. rewrite kept_comments, filter_app.
  assert (O : col_ok (obs_of k d) (nD (d_srcs d))) by (destruct k; cbn; auto). assert (W : col_ok (std_of k d) (nD (d_srcs d))) by (destruct k; cbn; auto; destruct (d_std d) as [w|]; [apply (Lw w eq_refl)|exact I]).
  rewrite (src_lines_kept P 3 3 _ _ (nD (d_srcs d))) by (try assumption; lia).
  destruct (d_srcs d) as [|s' ss] eqn:Es; [discriminate|]. injection Hd as ->. pose proof (Forall_inv F) as (Tx & F2 & Pos).
  assert (B : read_body 3 (blocks P 3 (obs_of k d) (std_of k d) 0 (s :: ss)) = Err ValueError).
  { unfold read_body. cbn [blocks]. cbn [read_lines].
    assert (T1 : located 3 (fst (tx_ends s)) /\ located 3 (snd (tx_ends s))) by (destruct s; cbn in *; [split; exact Tx|exact Tx]). destruct T1 as [T1 T2].
    pose proof (read_source P 3 ltac:(lia) false r_start s eq_refl (fun _ => eq_refl) T1 T2) as Rs. change (width false 3) with 3%nat in Rs. rewrite Rs. cbn [bind].
    destruct (src_ends_ok 3 s F2) as [Fe Le]. assert (Ne : all_ends s <> []) by (intros E; rewrite E in Le; cbn in Le; lia).
    assert (SO : std_after_obs (obs_of k d) (std_of k d)) by (destruct k; cbn; auto; destruct (d_std d); [discriminate|exact I]).
    pose proof (read_rows P 3 ltac:(lia) false (obs_of k d) (std_of k d) (nD (s :: ss)) O W SO (blocks P 3 (obs_of k d) (std_of k d) (0 + src_nD s) ss) (all_ends s)
      (mkR (src_nD s) false (r_ptx r_start || looks false 3 P (tx_ends s)) (r_prx r_start) (tx_vec P 3 false (tx_ends s)) [] (r_d r_start) (r_wd r_start) (r_srcs r_start)) 0 Ne Fe eq_refl (eq_sym Le)) as Rr.
    change (width false 3) with 3%nat in Rr. rewrite Rr by (rewrite Le; unfold nD; cbn; lia). clear Rr Rs.
    assert (Fin : forall r, In r (receivers s) -> (0 < rx_nD r)%nat -> exists p, In p (ends r) /\ In p (all_ends s)).
    { intros r Hr Hn. rewrite Forall_forall in F2. rewrite <- (ends_len 3 r (F2 r Hr)) in Hn. destruct (ends r) as [|p l] eqn:E; [cbn in Hn; lia|]. exists p. split; [left; reflexivity|]. unfold all_ends. apply in_concat. exists (ends r). split; [apply in_map; exact Hr|rewrite E; left; reflexivity]. }
    destruct (Fin r1 I1 N1) as (p & Hp & Hp'). destruct (Fin r2 I2 N2) as (q & Hq & Hq').
    rewrite (finish_mixed 3 false _ (all_ends s) p q ltac:(lia) Hp' Hq'); [reflexivity| | |exact Fe|reflexivity].
    - rewrite Forall_forall in F2. pose proof (F2 r1 I1) as R1. destruct r1 as [m|]; [|contradiction]. cbn in Hp, R1. apply in_map_iff in Hp. destruct Hp as (x & <- & Hx). rewrite Forall_forall in R1. apply looks_pole. apply R1, Hx.
    - destruct r2 as [|m n]; [contradiction|]. cbn in Hq, K2. clear - Hq K2. induction K2; cbn in Hq; [contradiction|]. destruct Hq as [<-|Hq]; [apply looks_apart; assumption|auto]. }
  assert (B0 : exists l0, blocks P 3 (obs_of k d) (std_of k d) 0 (s :: ss) = Nums (tx_toks P 3 s) :: l0) by (eexists; reflexivity). destruct B0 as (l0 & E0). rewrite E0 in *. destruct t; cbn [ip_line filter kept app]; exact B.
Qed.
Theorem dpred_volt rho surface c d : data_ok 3 d -> d_srcs d <> [] -> len (rho d) = nD (d_srcs d) -> Forall (fun x => negative x = false) (rho d) ->
  (pole_srcs (d_srcs d) \/ dipole_srcs surface 3 P (d_srcs d)) -> (surface = false /\ pole_rxs (d_srcs d) \/ dipole_rxs surface 3 P (d_srcs d)) ->
  let d1 := mkData (d_srcs d) (d_obs d) (Some (rho d)) in
  fst (write3 P rho Volt Dpred surface c d) = d1 /\ exists f, snd (write3 P rho Volt Dpred surface c d) = Ok f /\ read3 f = Ok (expected surface 3 P Dobs d1).
Proof.
  intros O Ne L Nn Ht Hr d1. unfold write3. rewrite L, Nat.eqb_refl. assert (E : existsb negative (rho d) = false) by (clear - Nn; induction Nn as [|x l N F IH]; cbn; [reflexivity|]; now rewrite N, IH). rewrite E. cbn [negb andb].
  change (fst (write3 P rho Volt Dobs surface c d1) = d1 /\ exists f, snd (write3 P rho Volt Dobs surface c d1) = Ok f /\ read3 f = Ok (expected surface 3 P Dobs d1)).
  apply round_trip3; try assumption; [intros [Q _]; discriminate| |discriminate]. destruct O as (F & Lo & _). split; [exact F|]. split; [exact Lo|]. cbn. intros w [= <-]. auto.
Qed.
Theorem dpred_volt_negative rho surface c d : existsb negative (rho d) = true -> snd (write3 P rho Volt Dpred surface c d) = Err ValueError.
Proof. intros E. unfold write3. rewrite E. cbn. rewrite andb_false_r. reflexivity. Qed.
End Sticky.

(** Concrete surveys, printed exactly *)
Definition id_ok : forall x : R, 0 <= x -> 0 <= (fun y => y) x := fun x H => H.
Definition ex_data (ss : list src) (n : nat) : data := mkData ss (repeat (Some 1) n) None.
Lemma pt_located x y z : located 3 (pt x y z).
Proof. split; [reflexivity|]. repeat constructor; discriminate. Qed.
Ltac ok := repeat match goal with
  | |- data_ok _ _ => split; [cbn [d_srcs]|split; [reflexivity|discriminate]]
  | |- Forall _ (_ :: _) => constructor
  | |- Forall _ [] => constructor
  | |- Forall2 _ (_ :: _) (_ :: _) => constructor
  | |- Forall2 _ [] [] => constructor
  | |- src_ok _ _ => split; [cbn|split; [cbn|unfold src_nD; cbn; lia]]
  | |- rx_ok _ _ => cbn
  | |- located _ _ => apply pt_located
  | |- _ /\ _ => split
  | |- _ = _ => reflexivity
  end.
Theorem utm_read rho : exists f, snd (write3 (fun x => x) rho Volt Survey false 0 (ex_data [utm] 1)) = Ok f /\
  exists d, read3 f = Ok d /\ d_srcs d = [PoleSrc (pt 500000 5500000 300) [DipoleRx [pt 500000 5500200 300] [pt 500000 5500300 300]]].
Proof.
  assert (Ap : Forall (dipole_rx false 3 (fun x => x)) (receivers utm)). { constructor; [|constructor]. cbn. constructor; [|constructor]. exists 1%nat, 5500200, 5500300. split; [lia|]. split; [reflexivity|]. split; [reflexivity|]. rewrite (Rabs_pos_eq 5500300) by lra. rewrite Rabs_left by lra. lra. }
  assert (O : data_ok 3 (ex_data [utm] 1)) by (unfold ex_data, utm; ok).
  destruct (file3 (fun x => x) id_ok rho Volt Survey false 0 (ex_data [utm] 1)) as (_ & f & E & Rd); [intros [Q _]; discriminate|exact O|discriminate|discriminate| |].
  - constructor; [|constructor]. apply one_kind_hom; [apply Forall_inv with (1 := proj1 O)|right; exact Ap].
  - exists f. split; [exact E|]. eexists. split; [exact Rd|]. cbn [d_srcs ex_data reread].
    assert (L1 : looks false 3 (fun x => x) (tx_ends utm) = true).
    { unfold looks. cbn [tx_ends utm fst snd width pt firstn map combine forallb pn option_map close andb].
      destruct (Rle_dec (Rabs (500000 - 500000)) _) as [|N]; [|exfalso; apply N; rewrite Rminus_diag_eq, Rabs_R0, (Rabs_pos_eq 500000) by lra; lra].
      destruct (Rle_dec (Rabs (5500000 - 5500050)) _) as [|N]; [|exfalso; apply N; rewrite Rabs_left, (Rabs_pos_eq 5500050) by lra; lra].
      destruct (Rle_dec (Rabs (300 - 300)) _) as [|N]; [reflexivity|exfalso; apply N; rewrite Rminus_diag_eq, Rabs_R0, (Rabs_pos_eq 300) by lra; lra]. }
    assert (L2 : existsb (looks false 3 (fun x => x)) (all_ends utm) = false).
    { destruct (existsb _ _) eqn:Q; [|reflexivity]. apply existsb_exists in Q. destruct Q as (p & Hp & Q). rewrite (ends_dipole _ _ _ _ Ap p Hp) in Q. discriminate. }
    rewrite L1, L2. cbn [orb]. unfold block_src, all_ends, utm, lifted, printed. cbn. reflexivity.
Qed.
Lemma flat_located x : located 2 (flat x).
Proof. split; [reflexivity|]. repeat constructor; discriminate. Qed.
Lemma x_apart surface x y z : 1 < Rabs (x - y) -> Rabs y <= 1000 -> apart surface 3 (fun x => x) (pt x z z) (pt y z z).
Proof. intros H1 H2. exists 0%nat, x, y. split; [destruct surface; lia|]. split; [reflexivity|]. split; [reflexivity|]. lra. Qed.
Lemma one_rx_apart surface : dipole_rx surface 3 (fun x => x) one_rx.
Proof. cbn. constructor; [|constructor]. apply x_apart; [rewrite Rabs_left; lra|rewrite Rabs_pos_eq; lra]. Qed.
Lemma ex_dip : data_ok 3 (ex_data [dip 0; dip 50] 4) /\ dipole_srcs true 3 (fun x => x) [dip 0; dip 50] /\ dipole_rxs true 3 (fun x => x) [dip 0; dip 50].
Proof.
  split; [unfold ex_data, dip, one_rx; ok|]. split; repeat (constructor; try apply one_rx_apart); try (apply x_apart; [rewrite Rabs_left; lra|rewrite Rabs_pos_eq; lra]).
Qed.
Lemma ex_two : data_ok 2 (ex_data [dip2 0] 2) /\ dipole_srcs false 2 (fun x => x) [dip2 0] /\ pole_rxs [dip2 0].
Proof.
  split; [|split; [|repeat constructor]].
  - split; [|split; [reflexivity|discriminate]]. constructor; [|constructor]. split; [split; apply flat_located|]. split; [repeat constructor; try discriminate|unfold src_nD; cbn; lia].
  - constructor; [|constructor]. exists 0%nat, 0, (0 + 100). split; [lia|]. split; [reflexivity|]. split; [reflexivity|]. rewrite (Rabs_pos_eq (0 + 100)) by lra. rewrite Rabs_left by lra. lra.
Qed.
Lemma ex_mixed : data_ok 3 (ex_data [pol 0; dip 50] 4) /\ Forall (fun s => Forall pole_rx (receivers s) \/ Forall (dipole_rx false 3 (fun x => x)) (receivers s)) [pol 0; dip 50].
Proof.
  split; [unfold ex_data, pol, dip, one_rx; ok|]. constructor; [left; repeat constructor|]. constructor; [|constructor]. right. repeat (constructor; try apply one_rx_apart).
Qed.
Lemma ex_block : data_ok 3 (ex_data [DipoleSrc (pt 0 0 0) (pt 100 0 0) [PoleRx [pt 200 0 0]; one_rx]] 2) /\ pole_rx (PoleRx [pt 200 0 0]) /\ dipole_rx false 3 (fun x => x) one_rx.
Proof. split; [unfold ex_data, one_rx; ok|]. split; [exact I|apply one_rx_apart]. Qed.
