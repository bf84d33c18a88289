(** DC/IP data in columns: counterexamples. *)
From Verif Require Import Py Vec Abmn SpecAbmn AbmnFacts AbmnFacts2 XyzIO SpecXyzIO XyzIOFacts XyzIOFacts2.
From Coq Require Import Permutation.
Local Open Scope R_scope.

(** One coordinate per electrode: the columns are one too far. *)
Lemma line_columns f ha hb hm hn hd surface s d u x : read_xyz f [ha] [hb] [hm] [hn] (Some hd) None None surface = Ok (s, d, u, x) ->
  exists rows out, Forall2 (row_of (x_heads f) surface [hb] [hm] [hn] [hd]) (x_rows f) rows /\ from_rows rows = Ok (s, out).
Proof.
  intros H. unfold read_xyz in H. cbn [app opt_list List.length Nat.sub Nat.add] in H.
  destruct (mapM (fun h => index_of h (x_heads f)) [ha; hb; hm; hn; hd]) as [cols|] eqn:Ec; [|discriminate]. cbn [bind] in H. destruct (mapM (select cols) (x_rows f)) as [t|] eqn:Et; [|discriminate]. cbn [bind] in H.
  destruct (len t <=? 1)%nat; [discriminate|]. change (location_columns 4) with ([1%nat], [2%nat], [3%nat], [4%nat]) in H. match type of H with bind ?r _ = _ => destruct r as [rows|] eqn:Er; [|discriminate] end. cbn [bind] in H.
  destruct (from_rows rows) as [[s' out]|] eqn:Ef; [|discriminate]. cbn [bind] in H. assert (Es : s' = s).
  { match type of H with bind ?r _ = _ => destruct r as [d'|]; [|discriminate] end. cbn [bind] in H. injection H as -> _ _ _. reflexivity. }
  subst s'. exists rows, out. split; [|exact Ef]. apply mapM_F2 in Et. apply mapM_F2 in Er. refine (F2_trans _ _ _ _ _ _ _ Et Er). intros r v q Hv Hq. pose proof (select_entries _ _ _ _ _ Ec Hv) as F.
  inversion F as [|? v0 ? ? F0 F1]; subst. inversion F1 as [|? v1 ? ? G1 F2]; subst. inversion F2 as [|? v2 ? ? G2 F3]; subst. inversion F3 as [|? v3 ? ? G3 F4]; subst. inversion F4 as [|? v4 ? ? G4 F5]; subst. inversion F5; subst.
  cbn in Hq. injection Hq as <-. unfold row_of, electrode. cbn [qa qb qm qn]. split; [|split; [|split]]; eexists [_]; (split; [constructor; [eassumption|constructor]|destruct surface; reflexivity]).
Qed.
Lemma line_fails f ha hb hm hn surface : exists e, read_xyz f [ha] [hb] [hm] [hn] None None None surface = Err e.
Proof.
  unfold read_xyz. cbn [app opt_list List.length Nat.sub Nat.add]. destruct (mapM (fun h => index_of h (x_heads f)) [ha; hb; hm; hn]) as [cols|e] eqn:Ec; [|exists e; reflexivity]. cbn [bind].
  destruct (mapM (select cols) (x_rows f)) as [t|e] eqn:Et; [|exists e; reflexivity]. cbn [bind]. destruct t as [|v [|v' t]]; [exists IndexError; reflexivity|exists IndexError; reflexivity|]. cbn [List.length Nat.leb].
  change (location_columns 4) with ([1%nat], [2%nat], [3%nat], [4%nat]). apply mapM_F2 in Et. inversion Et as [|r ? ? ? Sr]; subst. pose proof (select_entries _ _ _ _ _ Ec Sr) as F. apply F2_len in F.
  destruct v as [|v0 [|v1 [|v2 [|v3 [|]]]]]; try discriminate. exists IndexError. reflexivity.
Qed.
(** A column before the electrodes shifts the data. *)
Definition late_rows : list quad := [{| qa := [1; 0]; qb := [2; 0]; qm := [3; 0]; qn := [4; 0] |}; {| qa := [11; 0]; qb := [12; 0]; qm := [13; 0]; qn := [14; 0] |}].
Lemma late_apart : apart late_rows.
Proof.
  assert (G : forall x y : R, 1 <= Rabs (x - y) -> / 1000 <= distance [x; 0] [y; 0]).
  { intros x y H. unfold distance, dot, vsub. cbn. replace ((x - y) * (x - y) + ((0 - 0) * (0 - 0) + 0)) with (Rsqr (x - y)) by (unfold Rsqr; ring). rewrite sqrt_Rsqr_abs. lra. }
  intros p q Hp Hq D. cbn in Hp, Hq. destruct Hp as [<-|[<-|[]]], Hq as [<-|[<-|[]]]; cbn in *; try (exfalso; apply D; reflexivity); left; apply G; unfold Rabs; destruct (Rcase_abs _); lra.
Qed.
Lemma late_read : exists s c, read_xyz late ["XA"; "ZA"]%string ["XB"; "ZB"]%string ["XM"; "ZM"]%string ["XN"; "ZN"]%string (Some "V"%string) None None false = Ok (s, Some c, None, None) /\ (c = [1; 11] \/ c = [11; 1]).
Proof.
  destruct (proj2 (accepted late_rows)) as ([s out] & F); [split; [discriminate|exact late_apart]|]. pose proof (order_perm _ _ _ F) as Pm. cbn in Pm. apply Permutation_sym, Permutation_length_2_inv in Pm.
  exists s, (map (fun j => nth j [1; 11] 0) out). unfold read_xyz. cbn [app opt_list List.length Nat.sub Nat.add]. 
  change (mapM (fun h => index_of h (x_heads late)) ["XA"; "ZA"; "XB"; "ZB"; "XM"; "ZM"; "XN"; "ZN"; "V"]%string) with (Ok [1; 2; 3; 4; 5; 6; 7; 8; 0]%nat). cbn [bind].
  change (mapM (select [1; 2; 3; 4; 5; 6; 7; 8; 0]%nat) (x_rows late)) with (Ok [[1; 0; 2; 0; 3; 0; 4; 0; 100]; [11; 0; 12; 0; 13; 0; 14; 0; 200]]). cbn [bind List.length Nat.leb].
  change (mapM (row_quad false (location_columns 8)) [[1; 0; 2; 0; 3; 0; 4; 0; 100]; [11; 0; 12; 0; 13; 0; 14; 0; 200]]) with (Ok late_rows). cbn [bind]. rewrite F. cbn [bind].
  change (index_of "V" (x_heads late)) with (@Ok nat 0%nat). cbn [bind]. destruct Pm as [E|E]; rewrite E; (split; [reflexivity|]); [left|right]; reflexivity.
Qed.
(** A case of the round trip. *)
Lemma two_apart : apart (map (printed_quad (fun x => x)) (locations two_rows)).
Proof. intros p q Hp Hq D. cbn in Hp, Hq. destruct Hp as [<-|[<-|[]]], Hq as [<-|[<-|[]]]; cbn in *; exfalso; apply D; reflexivity. Qed.
Lemma nodup_heads : NoDup (std_heads 2 ++ names (Some "V"%string) (Some "S"%string) [("IP"%string, [5; 6])]).
Proof. cbn. repeat (apply NoDup_cons; [cbn; intros H; repeat (destruct H as [H|H]; [discriminate|]); exact H|]). apply NoDup_nil. Qed.
