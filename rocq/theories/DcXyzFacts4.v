(** The simple format, and concrete files. *)
From Verif Require Import Py Vec Abmn SpecAbmn AbmnFacts AbmnFacts2 DcXyz SpecDcXyz LinSimFacts DcXyzFacts DcXyzFacts2 DcXyzFacts3.
From Coq Require Import String Permutation Lia Lra.
Local Open Scope R_scope.
Local Open Scope list_scope.

Definition line_of (q : quad) : vec := [nth 0 (qa q) 0; nth 0 (qb q) 0; nth 0 (qm q) 0; nth 0 (qn q) 0].
Section Simple.
Variables (P : R -> R) (s : survey) (obs std : option vec) (k : nat).
Let n := List.length (locations s).
Hypothesis DM : Forall (quad_dim k) (locations s).
Hypothesis KK : (0 < k)%nat.
Hypothesis N2 : (2 <= n)%nat.
Hypothesis LO : forall v, obs = Some v -> List.length v = n.
Hypothesis LS : forall v, std = Some v -> List.length v = n.
Hypothesis OS : obs = None -> std = None.
Let cols : list vec := opt_list obs ++ opt_list std.
Let rows : list vec := map (map P) (extend (map line_of (locations s)) cols).
Lemma wrote_simple : write_simple P s obs std = Ok rows.
Proof.
  unfold write_simple.
  assert (E : mapM (fun q => do a <- at_col IndexError (qa q) 0; do b <- at_col IndexError (qb q) 0; do m <- at_col IndexError (qm q) 0; do n <- at_col IndexError (qn q) 0; Ok [a; b; m; n]) (locations s) = Ok (map line_of (locations s))).
  { apply mapM_all. intros q I. rewrite Forall_forall in DM. destruct (DM q I) as (A & B & C & D). rewrite !at_ok by lia. reflexivity. }
  rewrite E. cbn [bind]. assert (LT : List.length (map line_of (locations s)) = n) by (unfold n; now rewrite map_length).
  assert (E1 : (match obs with Some d => add_col (map line_of (locations s)) d | None => Ok (map line_of (locations s)) end) = Ok (extend (map line_of (locations s)) (opt_list obs))).
  { pose proof (extend_nil (map line_of (locations s))) as EN. clear -LO LT EN. destruct obs as [v|]; cbn [opt_list]; [|now rewrite EN]. rewrite <- EN at 1. rewrite add_col_extend by (rewrite LT; now apply LO). reflexivity. }
  rewrite E1. cbn [bind].
  assert (E2 : (match std with Some d => add_col (extend (map line_of (locations s)) (opt_list obs)) d | None => Ok (extend (map line_of (locations s)) (opt_list obs)) end) = Ok (extend (map line_of (locations s)) cols)).
  { unfold cols. clear -LS LT. destruct std as [v|]; cbn [opt_list]; [|now rewrite app_nil_r]. rewrite add_col_extend by (rewrite LT; now apply LS). reflexivity. }
  rewrite E2. reflexivity.
Qed.
Lemma rows_len : List.length rows = n.
Proof. unfold rows, n. now rewrite map_length, extend_length, map_length. Qed.
Lemma rows_nth j : (j < n)%nat -> nth j rows [] = map P (line_of (row (locations s) j)) ++ map (fun c => P (nth j c 0)) cols.
Proof.
  intros J. unfold rows. rewrite (gmap_nth (map P) _ j [] []) by (now rewrite extend_length, map_length). rewrite extend_nth by (now rewrite map_length). rewrite map_app, map_map. f_equal.
  f_equal. unfold row. now rewrite (gmap_nth line_of (locations s) j [] {| qa := []; qb := []; qm := []; qn := [] |}) by exact J.
Qed.
Lemma rows_row r : In r rows -> List.length r = (4 + List.length cols)%nat.
Proof. intros I. destruct (In_nth _ _ [] I) as (j & J & <-). rewrite rows_len in J. rewrite rows_nth by exact J. rewrite app_length, !map_length. reflexivity. Qed.
Lemma simple_take c : (c < 4 + List.length cols)%nat -> take_cols rows [c] = Ok (map (fun r => [nth c r 0]) rows).
Proof. intros H. apply mapM_all. intros r I. apply (mapM_at IndexError r [c]). constructor; [rewrite (rows_row r I); exact H|constructor]. Qed.
Lemma simple_column c out : (c < 4 + List.length cols)%nat -> Forall (fun j => (j < n)%nat) out -> column rows out c = Ok (map (fun j => nth c (nth j rows []) 0) out).
Proof. intros H F. apply mapM_all. intros j I. rewrite Forall_forall in F. apply at_ok. rewrite rows_row; [exact H|]. apply nth_In. rewrite rows_len. exact (F j I). Qed.
Lemma line_quads : map (fun r => {| qa := [nth 0 r 0; sky]; qb := [nth 1 r 0; sky]; qm := [nth 2 r 0; sky]; qn := [nth 3 r 0; sky] |}) rows = map (fun q => first_place (round_quad P q)) (locations s).
Proof.
  set (dq := {| qa := []; qb := []; qm := []; qn := [] |}).
  apply nth_ext with (d := dq) (d' := dq); [rewrite !map_length; apply rows_len|]. intros j J. rewrite map_length, rows_len in J.
  rewrite (gmap_nth _ rows j dq []) by (rewrite rows_len; exact J). rewrite (gmap_nth _ (locations s) j dq dq) by exact J. rewrite rows_nth by exact J.
  change (nth j (locations s) dq) with (row (locations s) j). assert (I : In (row (locations s) j) (locations s)) by (apply nth_In; exact J).
  rewrite Forall_forall in DM. destruct (DM _ I) as (A & B & C & D). unfold line_of, first_place, round_quad. cbn [map app nth qa qb qm qn].
  destruct (qa (row (locations s) j)), (qb (row (locations s) j)), (qm (row (locations s) j)), (qn (row (locations s) j)); cbn in A, B, C, D; try lia. reflexivity.
Qed.
Lemma simple_trip x out : read_simple rows = Ok (x, out) ->
  kept (fun q => first_place (round_quad P q)) s x out /\ x_obs x = option_map (fun v => picked P v out) obs /\ x_std x = option_map (fun v => picked P v out) std.
Proof.
  intros H. unfold read_simple in H.
  assert (RN : (match rows with r :: _ => List.length r | [] => 0%nat end) = (4 + List.length cols)%nat).
  { pose proof rows_len as RL. pose proof rows_row as RR. destruct rows as [|r t]; [cbn in RL; lia|]. apply RR. now left. }
  rewrite RN in H.
  replace (forallb _ rows) with true in H by (symmetry; apply forallb_forall; intros r I; apply Nat.eqb_eq, rows_row, I). cbn [negb] in H.
  replace (List.length rows <=? 1)%nat with false in H by (symmetry; apply Nat.leb_gt; rewrite rows_len; lia).
  rewrite !simple_take in H by lia. cbn [bind] in H. unfold lift_rows, quads in H. rewrite !map_map, zip4_map in H. cbn [app] in H. rewrite line_quads in H.
  destruct (from_rows (map (fun q => first_place (round_quad P q)) (locations s))) as [[s' o]|] eqn:FR; [|discriminate]. cbn [bind fst snd] in H.
  pose proof (order_perm _ _ _ FR) as PM. rewrite map_length in PM. fold n in PM.
  assert (RG : Forall (fun j => (j < n)%nat) o) by (apply Forall_forall; intros j J; apply (Permutation_in _ PM), in_seq in J; lia).
  assert (KP : forall x, x_survey x = s' -> kept (fun q => first_place (round_quad P q)) s x o).
  { intros x' <-. split; [exact PM|]. pose proof (electrodes _ _ _ FR) as EL. match goal with |- Forall2 _ _ ?l => replace l with (map (row (map (fun q => first_place (round_quad P q)) (locations s))) o); [exact EL|] end.
    apply map_ext_in. intros j J. rewrite Forall_forall in RG. specialize (RG j J). cbn beta in RG. unfold row. now rewrite (gmap_nth _ (locations s) j _ {| qa := []; qb := []; qm := []; qn := [] |}) by exact RG. }
  assert (COL : forall i, (i < List.length cols)%nat -> map (fun j => nth (4 + i) (nth j rows []) 0) o = picked P (nth i cols []) o).
  { intros i IL. apply map_ext_in. intros j J. rewrite Forall_forall in RG. specialize (RG j J). cbn beta in RG. rewrite rows_nth by exact RG. rewrite app_nth2 by (cbn; lia). cbn [line_of map List.length]. replace (4 + i - 4)%nat with i by lia.
    now rewrite (gmap_nth _ cols i 0 []) by exact IL. }
  pose proof (fun c L => simple_column c o L RG) as SC. clearbody rows. unfold cols in *.
  destruct obs as [d|], std as [w|]; cbn [opt_list app List.length Nat.ltb Nat.leb Nat.add option_map] in *.
  - rewrite !SC in H by lia. cbn [bind] in H. rewrite (COL 0%nat), (COL 1%nat) in H by lia. cbn [nth] in H.
    destruct (check_std (picked P w o)) as [w'|] eqn:W; [|discriminate]. apply check_std_inv in W. subst w'. cbn [bind] in H. injection H as <- <-. cbn. auto.
  - rewrite SC in H by lia. cbn [bind] in H. rewrite (COL 0%nat) in H by lia. cbn [nth] in H. injection H as <- <-. cbn. auto.
  - discriminate (OS eq_refl).
  - cbn [bind] in H. injection H as <- <-. cbn. auto.
Qed.
End Simple.
Lemma simple_round_trip P s obs std k : Forall (quad_dim k) (locations s) -> (0 < k)%nat -> (2 <= List.length (locations s))%nat ->
  (forall v, obs = Some v -> List.length v = List.length (locations s)) -> (forall v, std = Some v -> List.length v = List.length (locations s)) -> (obs = None -> std = None) ->
  exists rows, write_simple P s obs std = Ok rows /\ forall x out, read_simple rows = Ok (x, out) ->
    kept (fun q => first_place (round_quad P q)) s x out /\ x_obs x = option_map (fun v => picked P v out) obs /\ x_std x = option_map (fun v => picked P v out) std.
Proof. intros DM KK N2 LO LS OS. eexists. split; [eapply wrote_simple; eassumption|]. intros x out. eapply simple_trip; eassumption. Qed.
Lemma simple_single r : exists e, read_simple [r] = Err e.
Proof. unfold read_simple. cbn [forallb List.length]. rewrite Nat.eqb_refl. cbn. eauto. Qed.

(** Concrete cases. *)
Lemma demo_full : full_file demo_file /\ f_head demo_file = out_headers demo_heads ++ [] /\ coordinates 2 demo_heads.
Proof.
  split; [|split; [reflexivity|now repeat split; left]]. split; [|split; [|cbn; lia]].
  - cbn [demo_file f_head head2 app]. repeat (constructor; [cbn [In]; intuition discriminate|]). constructor.
  - repeat constructor.
Qed.
Lemma demo_accepted : exists r, read_xyz demo_heads false demo_file = Ok r.
Proof.
  destruct demo_full as (A & B & C). apply (read_accepts demo_heads false demo_file 2 [] C B A). split.
  - intros p q IP IQ NE. exfalso. apply NE. cbn in IP, IQ. destruct IP as [<- |[<- |[]]], IQ as [<- |[<- |[]]]; reflexivity.
  - cbn. repeat constructor; lra.
Qed.
Lemma demo_dims : Forall (quad_dim 2) (locations demo_xyz) /\ List.length (locations demo_xyz) = 2%nat.
Proof. split; [|reflexivity]. repeat constructor. Qed.
Lemma first_accepted : full_file first_file /\ exists r, read_xyz first_heads false first_file = Ok r.
Proof.
  split.
  - split; [|split; [|cbn; lia]].
    + unfold first_file, head2; cbn [f_head]. repeat (constructor; [cbn [In]; intuition discriminate|]). constructor.
    + unfold first_file; cbn [f_rows]. repeat constructor.
  - destruct (proj2 (accepted [{| qa := [0; 0]; qb := [10; 0]; qm := [20; 0]; qn := [30; 0] |}; {| qa := [0; 0]; qb := [10; 0]; qm := [30; 0]; qn := [40; 0] |}])) as ((s, o) & H).
    { split; [discriminate|]. intros p q IP IQ NE. exfalso. apply NE. cbn in IP, IQ. destruct IP as [<- |[<- |[]]], IQ as [<- |[<- |[]]]; reflexivity. }
    unfold read_xyz. cbn -[from_rows opt_col]. rewrite H. cbn -[column].
    pose proof (order_perm _ _ _ H) as P. unfold column. rewrite (mapM_all _ (fun j => nth 0 (nth j [[0; 0; 10; 0; 20; 0; 30; 0; 5]; [0; 0; 10; 0; 30; 0; 40; 0; 6]] []) 0)); [cbn; eauto|].
    intros j J. apply (Permutation_in _ P) in J. cbn in J. destruct J as [<- |[<- |[]]]; reflexivity.
Qed.
Lemma line_accepted : full_file line_file /\ exists r, read_xyz (line_heads "A" "B" "M" "N" (Some "D"%string)) true line_file = Ok r.
Proof.
  split.
  - split; [|split; [|cbn; lia]].
    + cbn [line_file f_head]. repeat (constructor; [cbn [In]; intuition discriminate|]). constructor.
    + unfold line_file; cbn [f_rows]. repeat constructor.
  - destruct (proj2 (accepted [{| qa := [10; sky]; qb := [20; sky]; qm := [30; sky]; qn := [5; sky] |}; {| qa := [10; sky]; qb := [20; sky]; qm := [40; sky]; qn := [6; sky] |}])) as ((s, o) & H).
    { split; [discriminate|]. intros p q IP IQ NE. exfalso. apply NE. cbn in IP, IQ. destruct IP as [<- |[<- |[]]], IQ as [<- |[<- |[]]]; reflexivity. }
    unfold read_xyz. cbn -[from_rows opt_col sky]. rewrite H. cbn -[column sky].
    pose proof (order_perm _ _ _ H) as P. unfold column. rewrite (mapM_all _ (fun j => nth 4 (nth j [[0; 10; 20; 30; 5]; [0; 10; 20; 40; 6]] []) 0)); [cbn; eauto|].
    intros j J. apply (Permutation_in _ P) in J. cbn in J. destruct J as [<- |[<- |[]]]; reflexivity.
Qed.
