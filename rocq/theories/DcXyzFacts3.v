(** Column files: writing and reading back; the simple format. *)
From Verif Require Import Py Vec Abmn SpecAbmn AbmnFacts AbmnFacts2 DcXyz SpecDcXyz LinSimFacts DcXyzFacts DcXyzFacts2.
From Coq Require Import String Permutation Lia Lra.
Local Open Scope R_scope.
Local Open Scope list_scope.

(** Four positions: columns are taken one too far. *)
Lemma line_shifted a b m n d f x out : f_head f = [a; b; m; n; d] -> full_file f -> read_xyz (line_heads a b m n (Some d)) true f = Ok (x, out) ->
  from_rows (map (fun r => {| qa := [under b (f_head f) r; sky]; qb := [under m (f_head f) r; sky]; qm := [under n (f_head f) r; sky]; qn := [under d (f_head f) r; sky] |}) (f_rows f)) = Ok (x_survey x, out).
Proof.
  intros HD FU H. unfold read_xyz in H.
  pose proof (index_seq [] (out_headers (line_heads a b m n (Some d))) []) as I. cbn [app out_headers line_heads h_a h_b h_m h_n h_data h_unc h_dict opt_list List.length] in I.
  cbn [out_headers line_heads h_a h_b h_m h_n h_data h_unc h_dict opt_list app List.length] in H. rewrite HD, I in H by (rewrite <- HD; apply FU). cbn [bind] in H.
  assert (RS : forall r, In r (f_rows f) -> exists v0 v1 v2 v3 v4, r = [v0; v1; v2; v3; v4]).
  { intros r IR. destruct FU as (_ & F & _). rewrite Forall_forall in F. pose proof (F r IR) as E. cbn beta in E. rewrite HD in E. do 6 (destruct r as [|? r]; try discriminate E). eauto 8. }
  assert (AR : mapM (fun r => mapM (at_col ValueError r) (seq 0 5)) (f_rows f) = Ok (f_rows f)).
  { rewrite <- (map_id (f_rows f)) at 2. apply mapM_all. intros r IR. destruct (RS r IR) as (? & ? & ? & ? & ? & ->). reflexivity. }
  rewrite AR in H. cbn [bind] in H. destruct (_ <=? 1)%nat; [discriminate|]. cbn [Nat.sub groups Nat.eqb nth] in H.
  assert (TC : forall c, (c < 5)%nat -> take_cols (f_rows f) [c] = Ok (map (fun r => [nth c r 0]) (f_rows f))).
  { intros c CL. apply mapM_all. intros r IR. destruct (RS r IR) as (? & ? & ? & ? & ? & ->). apply (mapM_at IndexError _ [c]). constructor; [exact CL|constructor]. }
  rewrite !TC in H by lia. cbn [bind] in H. unfold lift_rows, quads in H. rewrite !map_map, zip4_map in H.
  match type of H with context [from_rows ?l] => destruct (from_rows l) as [[s o]|] eqn:FR; [|discriminate] end. cbn [bind fst snd] in H.
  destruct (opt_col _ _ _ _) as [dd|]; [|discriminate]. cbn [bind] in H. cbn [opt_col bind] in H. injection H as <- <-. cbn. rewrite <- FR. f_equal. apply map_ext_in. intros r IR.
  destruct (RS r IR) as (? & ? & ? & ? & ? & ->). destruct FU as (ND & _). rewrite HD in ND |- *. cbn [app nth under].
  repeat (rewrite NoDup_cons_iff in ND). cbn [In] in ND.
  assert (NE : a <> b /\ a <> m /\ a <> n /\ a <> d /\ b <> m /\ b <> n /\ b <> d /\ m <> n /\ m <> d /\ n <> d) by (repeat split; intros EE; subst; tauto).
  destruct NE as (N1 & N2 & N3 & N4 & N5 & N6 & N7 & N8 & N9 & N10). apply String.eqb_neq in N1, N2, N3, N4, N5, N6, N7, N8, N9, N10.
  rewrite ?N1, ?N2, ?N3, ?N4, ?N5, ?N6, ?N7, ?N8, ?N9, ?N10, ?String.eqb_refl. reflexivity.
Qed.
Lemma line_fails a b m n f : f_head f = [a; b; m; n] -> full_file f -> read_xyz (line_heads a b m n None) true f = Err IndexError.
Proof.
  intros HD FU. unfold read_xyz.
  pose proof (index_seq [] (out_headers (line_heads a b m n None)) []) as I. cbn [app out_headers line_heads h_a h_b h_m h_n h_data h_unc h_dict opt_list List.length] in I.
  cbn [out_headers line_heads h_a h_b h_m h_n h_data h_unc h_dict opt_list app List.length]. rewrite HD, I by (rewrite <- HD; apply FU). cbn [bind].
  assert (RS : forall r, In r (f_rows f) -> exists v0 v1 v2 v3, r = [v0; v1; v2; v3]).
  { intros r IR. destruct FU as (_ & F & _). rewrite Forall_forall in F. pose proof (F r IR) as E. cbn beta in E. rewrite HD in E. do 5 (destruct r as [|? r]; try discriminate E). eauto 8. }
  assert (AR : mapM (fun r => mapM (at_col ValueError r) (seq 0 4)) (f_rows f) = Ok (f_rows f)).
  { rewrite <- (map_id (f_rows f)) at 2. apply mapM_all. intros r IR. destruct (RS r IR) as (? & ? & ? & ? & ->). reflexivity. }
  rewrite AR. cbn [bind]. replace (_ <=? 1)%nat with false by (symmetry; apply Nat.leb_gt; destruct FU as (_ & _ & X); lia). cbn [Nat.sub groups Nat.eqb nth].
  assert (TC : forall c, (c < 4)%nat -> take_cols (f_rows f) [c] = Ok (map (fun r => [nth c r 0]) (f_rows f))).
  { intros c CL. apply mapM_all. intros r IR. destruct (RS r IR) as (? & ? & ? & ? & ->). apply (mapM_at IndexError _ [c]). constructor; [exact CL|constructor]. }
  rewrite !TC by lia. cbn [bind].
  destruct (f_rows f) as [|r rs] eqn:RR; [destruct FU as (_ & _ & X); rewrite RR in X; cbn in X; lia|].
  destruct (RS r (or_introl eq_refl)) as (? & ? & ? & ? & ->). reflexivity.
Qed.

(** Writing. *)
Lemma no_std P s obs hd hu dict : (match hd with Some _ => List.length obs = List.length (locations s) | None => True end) -> write_xyz P s obs None hd hu dict = Err TypeError.
Proof.
  intros L. unfold write_xyz. destruct hd; [|reflexivity].
  assert (exists t, add_col (map flat (locations s)) obs = Ok t) as (t & ->); [|reflexivity].
  revert obs L. induction (locations s) as [|q l IH]; intros [|x obs] L; try discriminate L; cbn; [eauto|]. injection L as L. destruct (IH obs L) as (t & ->). cbn. eauto.
Qed.
Lemma add_col_ok : forall t c, List.length c = List.length t -> add_col t c = Ok (map (fun p => fst p ++ [snd p]) (combine t c)).
Proof. induction t as [|r t IH]; intros [|x c] L; try discriminate L; cbn; [reflexivity|]. injection L as L. rewrite (IH c L). reflexivity. Qed.
(** the columns of a list of rows [nth] *)
Definition extend (t : list vec) (cs : list vec) : list vec := map (fun j => nth j t [] ++ map (fun c => nth j c 0) cs) (seq 0 (List.length t)).
Lemma extend_nil t : extend t [] = t.
Proof. unfold extend. apply nth_ext with (d := []) (d' := []); [now rewrite map_length, seq_length|]. intros i L. rewrite map_length, seq_length in L. rewrite (gmap_nth _ (seq 0 (List.length t)) i [] 0%nat) by (now rewrite seq_length). rewrite seq_nth by exact L. cbn. now rewrite app_nil_r. Qed.
Lemma extend_length t cs : List.length (extend t cs) = List.length t.
Proof. unfold extend. now rewrite map_length, seq_length. Qed.
Lemma extend_nth t cs j : (j < List.length t)%nat -> nth j (extend t cs) [] = nth j t [] ++ map (fun c => nth j c 0) cs.
Proof. intros L. unfold extend. rewrite (gmap_nth _ (seq 0 (List.length t)) j [] 0%nat) by (now rewrite seq_length). now rewrite seq_nth. Qed.
Lemma add_col_extend t cs c : List.length c = List.length t -> add_col (extend t cs) c = Ok (extend t (cs ++ [c])).
Proof.
  intros L. rewrite add_col_ok by (now rewrite extend_length). f_equal. apply nth_ext with (d := []) (d' := []); [rewrite map_length, combine_length, !extend_length; lia|].
  intros i IL. rewrite map_length, combine_length, extend_length in IL. rewrite (gmap_nth _ (combine (extend t cs) c) i [] ([], 0)) by (rewrite combine_length, extend_length; lia).
  rewrite combine_nth by (now rewrite extend_length). cbn [fst snd]. rewrite !extend_nth by lia. rewrite map_app, app_assoc. reflexivity.
Qed.
Lemma add_cols_extend t : forall l cs, Forall (fun p : string * vec => List.length (snd p) = List.length t) l -> add_cols (extend t cs) l = Ok (extend t (cs ++ map snd l)).
Proof.
  induction l as [|(n, c) l IH]; intros cs F; cbn [add_cols map]; [now rewrite app_nil_r|]. pose proof (Forall_inv F) as E. cbn in E. rewrite add_col_extend by exact E. cbn [bind].
  rewrite IH by (exact (Forall_inv_tail F)). rewrite <- app_assoc. reflexivity.
Qed.

Section Write.
Variables (P : R -> R) (s : survey) (obs std : vec) (k : nat) (hd hu : option string) (dict : list (string * vec)).
Let n := List.length (locations s).
Hypothesis DM : Forall (quad_dim k) (locations s).
Hypothesis KK : (k = 2 \/ k = 3)%nat.
Hypothesis N2 : (2 <= n)%nat.
Hypothesis LO : List.length obs = n.
Hypothesis LS : List.length std = n.
Hypothesis LD : Forall (fun p : string * vec => List.length (snd p) = n) dict.
Let head := if (k =? 2)%nat then head2 else head3.
Hypothesis ND : NoDup (head ++ opt_list hd ++ opt_list hu ++ map fst dict).
Let cols : list vec := (match hd with Some _ => [obs] | None => [] end) ++ (match hu with Some _ => [std] | None => [] end) ++ map snd dict.
Let f : cfile := {| f_head := head ++ opt_list hd ++ opt_list hu ++ map fst dict; f_rows := map (map P) (extend (map flat (locations s)) cols) |}.
Lemma flat_len q : In q (locations s) -> List.length (flat q) = (4 * k)%nat.
Proof. intros I. rewrite Forall_forall in DM. destruct (DM q I) as (A & B & C & D). unfold flat. rewrite !app_length. lia. Qed.
Lemma write_eq : write_xyz P s obs (Some std) hd hu dict = Ok f.
Proof.
  unfold write_xyz, f.
  assert (HH : (match map flat (locations s) with r :: _ => if (List.length r =? 8)%nat then head2 else head3 | [] => head3 end) = head).
  { destruct (map flat (locations s)) as [|r t] eqn:E; [apply (f_equal (@List.length vec)) in E; rewrite map_length in E; fold n in E; cbn in E; lia|].
    assert (IR : In r (map flat (locations s))) by (rewrite E; now left). apply in_map_iff in IR as (q & <- & IQ). rewrite flat_len by exact IQ. unfold head. destruct KK as [-> | ->]; reflexivity. }
  rewrite HH. assert (LT : List.length (map flat (locations s)) = n) by (unfold n; now rewrite map_length).
  cbn [bind]. pose proof (extend_nil (map flat (locations s))) as EN.
  assert (E1 : (match hd with Some _ => add_col (map flat (locations s)) obs | None => Ok (map flat (locations s)) end) = Ok (extend (map flat (locations s)) (match hd with Some _ => [obs] | None => [] end))).
  { destruct hd; [|now rewrite EN]. rewrite <- EN at 1. now rewrite add_col_extend by congruence. }
  rewrite E1. cbn [bind].
  assert (E2 : forall cs, (match hu with Some _ => add_col (extend (map flat (locations s)) cs) std | None => Ok (extend (map flat (locations s)) cs) end) = Ok (extend (map flat (locations s)) (cs ++ match hu with Some _ => [std] | None => [] end))).
  { intros cs. destruct hu; [|now rewrite app_nil_r]. now rewrite add_col_extend by congruence. }
  rewrite E2. cbn [bind]. rewrite add_cols_extend by (now rewrite LT). cbn [bind]. unfold cols. rewrite <- !app_assoc. reflexivity.
Qed.
Lemma f_len : List.length (f_rows f) = n.
Proof. cbn. now rewrite map_length, extend_length, map_length. Qed.
Lemma f_nth j : (j < n)%nat -> nth j (f_rows f) [] = map P (flat (row (locations s) j)) ++ map (fun c => P (nth j c 0)) cols.
Proof.
  intros J. cbn [f f_rows]. rewrite (gmap_nth (map P) _ j [] []) by (now rewrite extend_length, map_length). rewrite extend_nth by (now rewrite map_length). rewrite map_app, map_map. f_equal.
  f_equal. unfold row. now rewrite (gmap_nth flat (locations s) j [] {| qa := []; qb := []; qm := []; qn := [] |}) by exact J.
Qed.
Lemma head_len : List.length head = (4 * k)%nat.
Proof. unfold head. destruct KK as [-> | ->]; reflexivity. Qed.
Lemma cols_len : List.length cols = List.length (opt_list hd ++ opt_list hu ++ map fst dict).
Proof. unfold cols. rewrite !app_length, !map_length. destruct hd, hu; reflexivity. Qed.
Lemma row_in j : (j < n)%nat -> In (row (locations s) j) (locations s).
Proof. intros J. apply nth_In. exact J. Qed.
Lemma f_full : full_file f.
Proof.
  split; [exact ND|split]; [|rewrite f_len; exact N2]. apply Forall_forall. intros r I. destruct (In_nth _ _ [] I) as (j & J & <-). rewrite f_len in J. rewrite f_nth by exact J.
  cbn [f f_head]. rewrite !app_length, !map_length, head_len, cols_len, !app_length, map_length, flat_len by (now apply row_in). lia.
Qed.
Let dh := match dict with [] => None | _ => Some (map fst dict) end.
Lemma f_out : f_head f = out_headers (standard k hd hu dh) ++ [].
Proof. rewrite app_nil_r. cbn [f f_head]. unfold out_headers, standard, head, dh. destruct KK as [-> | ->]; cbn; destruct dict; reflexivity. Qed.
Lemma std_coord : coordinates k (standard k hd hu dh).
Proof. unfold coordinates, standard. destruct KK as [-> | ->]; cbn; auto 10. Qed.
Lemma under_app x : forall h1 h2 r1 r2, List.length r1 = List.length h1 -> ~ In x h1 -> under x (h1 ++ h2) (r1 ++ r2) = under x h2 r2.
Proof.
  induction h1 as [|y h1 IH]; intros h2 [|v r1] r2 L N; try discriminate L; [reflexivity|]. cbn. destruct (String.eqb_spec y x) as [E|E]; [exfalso; apply N; now left|]. apply IH; [now injection L|]. intros I; apply N; now right.
Qed.
Lemma three (v : vec) : List.length v = 3%nat -> exists a b c, v = [a; b; c].
Proof. do 4 (destruct v as [|? v]; try discriminate). eauto. Qed.
Lemma two (v : vec) : List.length v = 2%nat -> exists a b, v = [a; b].
Proof. do 3 (destruct v as [|? v]; try discriminate). eauto. Qed.
Lemma f_electrodes j : (j < n)%nat -> electrodes_of f (standard k hd hu dh) false (nth j (f_rows f) []) = round_quad P (row (locations s) j).
Proof.
  intros J. rewrite f_nth by exact J. pose proof (row_in j J) as I. rewrite Forall_forall in DM. destruct (DM _ I) as (A & B & C & D). destruct (row (locations s) j) as [a b m nn]. cbn [qa qb qm qn] in *.
  unfold electrodes_of, round_quad, place, standard, flat, f, head. cbn [f_head qa qb qm qn].
  destruct KK as [-> | ->].
  - destruct (two a A) as (? & ? & ->), (two b B) as (? & ? & ->), (two m C) as (? & ? & ->), (two nn D) as (? & ? & ->). reflexivity.
  - destruct (three a A) as (? & ? & ? & ->), (three b B) as (? & ? & ? & ->), (three m C) as (? & ? & ? & ->), (three nn D) as (? & ? & ? & ->). reflexivity.
Qed.
Lemma flat_part j : (j < n)%nat -> List.length (map P (flat (row (locations s) j))) = List.length head.
Proof. intros J. rewrite map_length, flat_len by (now apply row_in). now rewrite head_len. Qed.
Lemma nodup_not_in {A} (l1 l2 : list A) x : NoDup (l1 ++ l2) -> In x l2 -> ~ In x l1.
Proof. intros N I J. apply in_split in I as (a & b & ->). apply NoDup_remove_2 with (l := l1 ++ a) (l' := b) in N || (rewrite app_assoc in N; apply NoDup_remove_2 in N); apply N; rewrite !in_app_iff; auto. Qed.
Lemma f_obs out x : hd = Some x -> Forall (fun j => (j < n)%nat) out -> column_of f out x = picked P obs out.
Proof.
  intros E F. unfold column_of, picked. apply map_ext_in. intros j I. rewrite Forall_forall in F. specialize (F j I). cbn beta in F. rewrite f_nth by exact F. cbn [f f_head].
  rewrite under_app; [|now apply flat_part|apply (nodup_not_in head _ x ND); rewrite E; now left].
  unfold cols. rewrite E. cbn. now rewrite String.eqb_refl.
Qed.
Lemma f_std out x : hu = Some x -> Forall (fun j => (j < n)%nat) out -> column_of f out x = picked P std out.
Proof.
  intros E F. unfold column_of, picked. apply map_ext_in. intros j I. rewrite Forall_forall in F. specialize (F j I). cbn beta in F. rewrite f_nth by exact F. cbn [f f_head].
  rewrite under_app; [|now apply flat_part|apply (nodup_not_in head _ x ND); rewrite E; apply in_or_app; right; now left].
  unfold cols. rewrite E. rewrite map_app. rewrite under_app.
  - cbn. now rewrite String.eqb_refl.
  - destruct hd; reflexivity.
  - pose proof ND as N. rewrite app_assoc in N. intros X. apply (nodup_not_in (head ++ opt_list hd) (opt_list hu ++ map fst dict) x N); [rewrite E; now left|apply in_or_app; now right].
Qed.
Lemma under_dict j : forall d x v, NoDup (map fst d) -> In (x, v) d -> under x (map fst d) (map (fun c => P (nth j c 0)) (map snd d)) = P (nth j v 0).
Proof.
  induction d as [|(y, w) d IH]; intros x v N I; [destruct I|]. cbn [map fst snd under]. cbn [map fst] in N. apply NoDup_cons_iff in N as (N1 & N2'). destruct I as [[= -> ->]|I].
  - now rewrite String.eqb_refl.
  - destruct (String.eqb_spec y x) as [->|_]; [exfalso; apply N1; apply (in_map fst) in I; exact I|]. now apply IH.
Qed.
Lemma f_dict out x v : In (x, v) dict -> Forall (fun j => (j < n)%nat) out -> column_of f out x = picked P v out.
Proof.
  intros E F. unfold column_of, picked. apply map_ext_in. intros j I. rewrite Forall_forall in F. specialize (F j I). cbn beta in F. rewrite f_nth by exact F. cbn [f f_head].
  assert (XI : In x (map fst dict)) by (apply (in_map fst) in E; exact E).
  rewrite under_app; [|now apply flat_part|apply (nodup_not_in head _ x ND); rewrite !in_app_iff; now right; right].
  unfold cols. rewrite map_app. rewrite under_app; [|destruct hd; reflexivity|].
  2:{ pose proof ND as N. rewrite app_assoc in N. intros X. apply (nodup_not_in (head ++ opt_list hd) (opt_list hu ++ map fst dict) x N); [apply in_or_app; now right|apply in_or_app; now right]. }
  rewrite map_app. rewrite under_app; [|destruct hu; reflexivity|].
  2:{ pose proof ND as N. rewrite !app_assoc in N. intros X. apply (nodup_not_in ((head ++ opt_list hd) ++ opt_list hu) (map fst dict) x N XI). apply in_or_app; now right. }
  apply under_dict; [|exact E]. pose proof ND as N. rewrite !app_assoc in N. clear -N. induction (((head ++ opt_list hd) ++ opt_list hu)) as [|y l IH]; [exact N|]. apply IH. cbn in N. now apply NoDup_cons_iff in N.
Qed.
Lemma opt_const {A B} (g : A -> B) (c : B) o : (forall y, o = Some y -> g y = c) -> option_map g o = option_map (fun _ => c) o.
Proof. destruct o; intros H; cbn; [now rewrite (H _ eq_refl)|reflexivity]. Qed.
Lemma round_trip x out : read_xyz (standard k hd hu dh) false f = Ok (x, out) ->
  kept (round_quad P) s x out /\ x_obs x = option_map (fun _ => picked P obs out) hd /\ x_std x = option_map (fun _ => picked P std out) hu /\
  x_dict x = match dict with [] => None | _ => Some (map (fun p => (fst p, picked P (snd p) out)) dict) end.
Proof.
  intros H. destruct (read_is_right _ _ _ _ _ _ _ std_coord f_out f_full H) as (FR & O & S' & D).
  pose proof (order_perm _ _ _ FR) as PM. rewrite map_length, f_len in PM.
  assert (RG : Forall (fun j => (j < n)%nat) out) by (apply Forall_forall; intros j J; apply (Permutation_in _ PM), in_seq in J; lia).
  assert (HDD : h_data (standard k hd hu dh) = hd) by (unfold standard; destruct (k =? 2)%nat; reflexivity).
  assert (HUU : h_unc (standard k hd hu dh) = hu) by (unfold standard; destruct (k =? 2)%nat; reflexivity).
  assert (HDI : h_dict (standard k hd hu dh) = dh) by (unfold standard; destruct (k =? 2)%nat; reflexivity).
  rewrite HDD in O. rewrite HUU in S'. rewrite HDI in D.
  split; [split; [exact PM|]|split; [|split]].
  - pose proof (electrodes _ _ _ FR) as EL.
    replace (map (fun j => round_quad P (row (locations s) j)) out) with (map (row (map (electrodes_of f (standard k hd hu dh) false) (f_rows f))) out); [exact EL|].
    apply map_ext_in. intros j J. rewrite Forall_forall in RG. specialize (RG j J). cbn beta in RG. unfold row at 1. rewrite (gmap_nth _ (f_rows f) j _ []) by (rewrite f_len; exact RG). now apply f_electrodes.
  - rewrite O. apply opt_const. intros y E. now apply f_obs.
  - rewrite S'. apply opt_const. intros y E. now apply f_std.
  - rewrite D. unfold dh. assert (DD : map (fun m => (m, column_of f out m)) (map fst dict) = map (fun p => (fst p, picked P (snd p) out)) dict).
    { rewrite map_map. apply map_ext_in. intros (y, v) I. cbn [fst snd]. f_equal. now apply f_dict. }
    revert DD. generalize (fun m => (m, column_of f out m)). intros g DD. clear -DD. destruct dict; [reflexivity|]. cbn [option_map]. now rewrite DD.
Qed.
Lemma wrote : write_xyz P s obs (Some std) hd hu dict = Ok f /\ forall x out, read_xyz (standard k hd hu dh) false f = Ok (x, out) ->
  kept (round_quad P) s x out /\ x_obs x = option_map (fun _ => picked P obs out) hd /\ x_std x = option_map (fun _ => picked P std out) hu /\
  x_dict x = match dict with [] => None | _ => Some (map (fun p => (fst p, picked P (snd p) out)) dict) end.
Proof. split; [exact write_eq|exact round_trip]. Qed.
End Write.
