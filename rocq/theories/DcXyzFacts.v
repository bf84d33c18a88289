(** Facts about reading column files. *)
From Verif Require Import Py Vec Abmn SpecAbmn AbmnFacts AbmnFacts2 DcXyz SpecDcXyz LinSimFacts.
From Coq Require Import String Permutation Lia.
Local Open Scope R_scope.
Local Open Scope list_scope.

Lemma gmap_nth {A B} (g : A -> B) l i (d : B) (d' : A) : (i < List.length l)%nat -> nth i (map g l) d = g (nth i l d').
Proof. intros H. rewrite (nth_indep _ d (g d')) by (now rewrite map_length). apply map_nth. Qed.
Lemma index_here pre x l : ~ In x pre -> col_index x (pre ++ x :: l) = Ok (List.length pre).
Proof.
  induction pre as [|p pre IH]; intros H; cbn [app col_index List.length].
  - now rewrite String.eqb_refl.
  - destruct (String.eqb_spec p x) as [E|E]; [exfalso; apply H; left; exact E|]. rewrite IH; [reflexivity|]. intros I; apply H; right; exact I.
Qed.
Lemma index_seq e : forall l pre, NoDup (pre ++ l ++ e) -> mapM (fun x => col_index x (pre ++ l ++ e)) l = Ok (seq (List.length pre) (List.length l)).
Proof.
  induction l as [|x l IH]; intros pre N; [reflexivity|]. cbn [mapM app List.length seq].
  rewrite index_here by (cbn [app] in N; apply NoDup_remove_2 in N; intros I; apply N, in_or_app; now left). cbn [bind].
  specialize (IH (pre ++ [x])). rewrite <- !app_assoc in IH. cbn [app] in IH. cbn [app] in N. rewrite IH by exact N.
  rewrite app_length. cbn. replace (List.length pre + 1)%nat with (S (List.length pre)) by lia. reflexivity.
Qed.
Lemma under_at h : forall head i r, col_index h head = Ok i -> List.length r = List.length head -> under h head r = nth i r 0 /\ (i < List.length head)%nat.
Proof.
  induction head as [|x head IH]; intros i [|v r] H L; try discriminate. cbn [col_index] in H. cbn [under].
  destruct (String.eqb x h) eqn:E.
  - injection H as <-. split; [reflexivity|cbn; lia].
  - destruct (col_index h head) as [k|] eqn:K; [|discriminate]. cbn in H. injection H as <-. destruct (IH k r eq_refl) as (A & B); [now injection L|]. split; [exact A|cbn; lia].
Qed.
Lemma at_ok e r c : (c < List.length r)%nat -> at_col e r c = Ok (nth c r 0).
Proof. intros H. unfold at_col. rewrite (nth_error_nth' r 0 H). reflexivity. Qed.
Lemma mapM_at e r cs : Forall (fun c => (c < List.length r)%nat) cs -> mapM (at_col e r) cs = Ok (map (fun c => nth c r 0) cs).
Proof. intros F. apply mapM_all. intros c I. apply at_ok. rewrite Forall_forall in F. auto. Qed.
Lemma firstn_seq (r : vec) k : (k <= List.length r)%nat -> map (fun c => nth c r 0) (seq 0 k) = firstn k r.
Proof.
  intros H. apply nth_ext with (d := 0) (d' := 0); [rewrite map_length, seq_length, firstn_length; lia|].
  intros i L. rewrite map_length, seq_length in L. rewrite (nth_indep _ 0 (nth 0 r 0)) by (rewrite map_length, seq_length; lia); rewrite (map_nth (fun c : nat => nth c r 0) (seq 0 k) 0%nat). rewrite seq_nth by lia. cbn.
  rewrite <- (firstn_skipn k r) at 1. rewrite app_nth1 by (rewrite firstn_length; lia). reflexivity.
Qed.
Lemma nth_firstn' (r : vec) k c : (c < k)%nat -> nth c (firstn k r) 0 = nth c r 0.
Proof.
  intros H. destruct (Nat.lt_ge_cases c (List.length r)).
  - rewrite <- (firstn_skipn k r) at 2. rewrite app_nth1 by (rewrite firstn_length; lia). reflexivity.
  - rewrite !nth_overflow; [reflexivity|lia|rewrite firstn_length; lia].
Qed.
Lemma zip4_map {A} (a b m n : A -> vec) l : zip4 (map a l) (map b l) (map m l) (map n l) = map (fun r => {| qa := a r; qb := b r; qm := m r; qn := n r |}) l.
Proof. induction l; cbn; [reflexivity|now rewrite IHl]. Qed.

Section Read.
Variables (h : headers) (surface : bool) (f : cfile) (k : nat) (extra : list string).
Hypothesis C : coordinates k h.
Hypothesis HD : f_head f = out_headers h ++ extra.
Hypothesis FU : full_file f.
Let L := List.length (out_headers h).
Lemma L_eq : L = (4 * k + List.length (opt_list (h_data h)) + List.length (opt_list (h_unc h)) + List.length (match h_dict h with Some l => l | None => [] end))%nat.
Proof. destruct C as (A & B & M & N & _). unfold L, out_headers. rewrite !app_length. lia. Qed.
Lemma cols_eq : mapM (fun x => col_index x (f_head f)) (out_headers h) = Ok (seq 0 L).
Proof. rewrite HD. apply (index_seq extra (out_headers h) []). cbn. rewrite <- HD. apply FU. Qed.
Lemma index_out x : In x (out_headers h) -> exists i, col_index x (f_head f) = Ok i /\ (i < L)%nat.
Proof.
  intros I. apply in_split in I as (l1 & l2 & E). exists (List.length l1). rewrite HD, E. rewrite <- app_assoc. cbn [app]. split.
  - apply index_here. destruct FU as (N & _). rewrite HD, E, <- app_assoc in N. cbn [app] in N. apply NoDup_remove_2 in N. intros I; apply N, in_or_app; now left.
  - unfold L. rewrite E, app_length. cbn. lia.
Qed.
Lemma row_len r : In r (f_rows f) -> (L <= List.length r)%nat /\ List.length r = List.length (f_head f).
Proof. intros I. destruct FU as (_ & F & _). rewrite Forall_forall in F. pose proof (F r I) as E. cbn beta in E. rewrite E, HD, app_length. fold L. lia. Qed.
Lemma arr_eq : mapM (fun r => mapM (at_col ValueError r) (seq 0 L)) (f_rows f) = Ok (map (firstn L) (f_rows f)).
Proof.
  apply mapM_all. intros r I. destruct (row_len r I) as (A & _). rewrite mapM_at, firstn_seq by (try exact A; apply Forall_forall; intros c J; apply in_seq in J; lia). reflexivity.
Qed.
Lemma group_eq a l b : out_headers h = a ++ l ++ b -> take_cols (map (firstn L) (f_rows f)) (seq (List.length a) (List.length l)) = Ok (map (fun r => map (fun x => under x (f_head f) r) l) (f_rows f)).
Proof.
  intros E. assert (EL : L = (List.length a + List.length l + List.length b)%nat) by (unfold L; rewrite E, !app_length; lia).
  unfold take_cols. rewrite <- (map_map (firstn L) (fun r => map (fun c => nth c r 0) (seq (List.length a) (List.length l))) (f_rows f)) || idtac.
  assert (Q : map (fun r => map (fun x => under x (f_head f) r) l) (f_rows f) = map (fun r => map (fun c => nth c r 0) (seq (List.length a) (List.length l))) (map (firstn L) (f_rows f))).
  { rewrite map_map. apply map_ext_in. intros r I. destruct (row_len r I) as (A & B).
    apply nth_ext with (d := 0) (d' := 0); [rewrite !map_length, seq_length; reflexivity|]. intros i J. rewrite map_length in J.
    rewrite (gmap_nth (fun c => nth c (firstn L r) 0) (seq (List.length a) (List.length l)) i 0 0%nat) by (rewrite seq_length; lia). rewrite seq_nth by lia.
    rewrite (gmap_nth (fun x => under x (f_head f) r) l i 0 EmptyString) by lia. rewrite nth_firstn' by lia.
    destruct (under_at (nth i l EmptyString) (f_head f) (List.length a + i) r) as (U & _); [|exact B|exact U].
    destruct (nth_split l EmptyString J) as (l1 & l2 & S1 & S2).
    assert (HE : f_head f = (a ++ l1) ++ nth i l EmptyString :: (l2 ++ b ++ extra)).
    { rewrite HD, E. rewrite S1 at 1. rewrite <- !app_assoc. reflexivity. }
    rewrite HE. replace (List.length a + i)%nat with (List.length (a ++ l1)) by (rewrite app_length; lia). apply index_here.
    destruct FU as (N & _). rewrite HE in N. apply NoDup_remove_2 in N. intros X; apply N, in_or_app; now left. }
  rewrite Q. apply mapM_all. intros r I. apply mapM_at. apply in_map_iff in I as (r' & <- & I). destruct (row_len r' I) as (A & _). apply Forall_forall. intros c J. apply in_seq in J. rewrite firstn_length. lia.
Qed.
Lemma column_eq out x : In x (out_headers h) -> Forall (fun j => (j < List.length (f_rows f))%nat) out -> exists i, col_index x (f_head f) = Ok i /\ column (map (firstn L) (f_rows f)) out i = Ok (column_of f out x).
Proof.
  intros I F. destruct (index_out x I) as (i & E & IL). exists i. split; [exact E|]. apply mapM_all. intros j J. rewrite Forall_forall in F. pose proof (F j J) as JL. cbn beta in JL.
  assert (In (nth j (f_rows f) []) (f_rows f)) as IR by (apply nth_In; exact JL). destruct (row_len _ IR) as (A & B).
  rewrite (gmap_nth (firstn L) (f_rows f) j [] []) by exact JL. rewrite at_ok by (rewrite firstn_length; lia). rewrite nth_firstn' by lia.
  destruct (under_at x (f_head f) i _ E B) as (U & _). now rewrite U.
Qed.
Lemma lift_eq l : lift_rows surface (map (fun r => map (fun x => under x (f_head f) r) l) (f_rows f)) = map (place f surface l) (f_rows f).
Proof. unfold lift_rows, place. destruct surface; [rewrite map_map; reflexivity|]. apply map_ext. intros r. now rewrite app_nil_r. Qed.
Lemma in_out_range out s rows : from_rows rows = Ok (s, out) -> List.length rows = List.length (f_rows f) -> Forall (fun j => (j < List.length (f_rows f))%nat) out.
Proof. intros H E. apply Forall_forall. intros j J. apply (Permutation_in _ (order_perm _ _ _ H)) in J. apply in_seq in J. lia. Qed.
Lemma in_data x : h_data h = Some x -> In x (out_headers h).
Proof. intros E. unfold out_headers. rewrite !in_app_iff, E. cbn. tauto. Qed.
Lemma in_unc x : h_unc h = Some x -> In x (out_headers h).
Proof. intros E. unfold out_headers. rewrite !in_app_iff, E. cbn. tauto. Qed.
Lemma in_dict l x : h_dict h = Some l -> In x l -> In x (out_headers h).
Proof. intros E. unfold out_headers. rewrite !in_app_iff, E. cbn. tauto. Qed.
Lemma opt_eq out o : (forall x, o = Some x -> In x (out_headers h)) -> Forall (fun j => (j < List.length (f_rows f))%nat) out -> opt_col (map (firstn L) (f_rows f)) out (f_head f) o = Ok (option_map (column_of f out) o).
Proof. intros I F. destruct o as [x|]; [|reflexivity]. destruct (column_eq out x (I x eq_refl) F) as (i & E & Q). unfold opt_col. rewrite E. cbn [bind]. rewrite Q. reflexivity. Qed.
Lemma nloc_eq : (L - List.length (opt_list (h_data h)) - List.length (opt_list (h_unc h)) - List.length (match h_dict h with Some l => l | None => [] end))%nat = (4 * k)%nat.
Proof. rewrite L_eq. lia. Qed.
Lemma groups_eq : groups (4 * k) = [seq 0 k; seq k k; seq (k + k) k; seq (k + k + k) k].
Proof. destruct C as (_ & _ & _ & _ & [-> | ->]); reflexivity. Qed.

(** The file is read as it should be. *)
Lemma read_eq : read_xyz h surface f =
  do so <- from_rows (map (electrodes_of f h surface) (f_rows f));
  do w <- match option_map (column_of f (snd so)) (h_unc h) with None => Ok None | Some w => do w <- check_std w; Ok (Some w) end;
  Ok ({| x_survey := fst so; x_obs := option_map (column_of f (snd so)) (h_data h); x_std := w; x_dict := option_map (map (fun n => (n, column_of f (snd so) n))) (h_dict h) |}, snd so).
Proof.
  unfold read_xyz. rewrite cols_eq. cbn [bind]. rewrite arr_eq. cbn [bind].
  replace (_ <=? 1)%nat with false by (symmetry; apply Nat.leb_gt; rewrite map_length; destruct FU as (_ & _ & X); lia).
  fold L. rewrite nloc_eq, groups_eq. cbn [nth].
  destruct C as (A & B & M & N & _).
  pose proof (group_eq [] (h_a h) _ eq_refl) as GA. rewrite A in GA. cbn [List.length] in GA. rewrite GA. cbn [bind].
  pose proof (group_eq (h_a h) (h_b h) _ eq_refl) as GB. rewrite A, B in GB. rewrite GB. cbn [bind].
  pose proof (group_eq (h_a h ++ h_b h) (h_m h) (h_n h ++ opt_list (h_data h) ++ opt_list (h_unc h) ++ match h_dict h with Some l => l | None => [] end)) as GM.
  rewrite app_length, A, B, M in GM. rewrite GM by (unfold out_headers; now rewrite <- !app_assoc). cbn [bind].
  pose proof (group_eq (h_a h ++ h_b h ++ h_m h) (h_n h) (opt_list (h_data h) ++ opt_list (h_unc h) ++ match h_dict h with Some l => l | None => [] end)) as GN.
  rewrite !app_length, A, B, M, N in GN. rewrite Nat.add_assoc in GN. rewrite GN by (unfold out_headers; now rewrite <- !app_assoc). cbn [bind].
  rewrite !lift_eq. unfold quads. rewrite zip4_map. change (fun r : vec => {| qa := place f surface (h_a h) r; qb := place f surface (h_b h) r; qm := place f surface (h_m h) r; qn := place f surface (h_n h) r |}) with (electrodes_of f h surface).
  destruct (from_rows (map (electrodes_of f h surface) (f_rows f))) as [[s out]|e] eqn:FR; [|reflexivity]. cbn [bind fst snd].
  assert (RG : Forall (fun j => (j < List.length (f_rows f))%nat) out) by (apply (in_out_range out s _ FR); apply map_length).
  rewrite !opt_eq by (auto using in_data, in_unc). cbn [bind].
  destruct (h_dict h) as [l|] eqn:D; cbn [option_map].
  - assert (X : mapM (fun x => do c <- col_index x (f_head f); do v <- column (map (firstn L) (f_rows f)) out c; Ok (x, v)) l = Ok (map (fun n => (n, column_of f out n)) l)).
    { apply mapM_all. intros x I. destruct (column_eq out x (in_dict l x D I) RG) as (i & E & Q). rewrite E. cbn [bind]. rewrite Q. reflexivity. }
    rewrite X. cbn [bind]. reflexivity.
  - reflexivity.
Qed.
End Read.
