(** Surveys from electrode tables: poles and dipoles, the arguments. *)
From Verif Require Import Py Vec Abmn SpecAbmn AbmnFacts.
From Coq Require Import Permutation.
Local Open Scope R_scope.

Lemma merged_self x : merged x x.
Proof.
  unfold merged. induction x as [|a x IH]; [constructor|]. cbn. constructor; [|exact IH]. cbn. replace (a - a) with 0 by ring. rewrite Rabs_R0. pose proof (Rabs_pos a). lra.
Qed.
Lemma source_kind rows s out : from_rows rows = Ok (s, out) -> forall k, (k < len s)%nat ->
  exists q, In q rows /\ match nth k s (SrcPole [] []) with SrcPole _ a => a = qa q /\ merged (qa q) (qb q) | SrcDipole _ a b => a = qa q /\ b = qb q /\ ~ merged (qa q) (qb q) end.
Proof.
  intros H k Hk. apply from_rows_ok in H. destruct H as (_ & L & -> & _). rewrite map_length in Hk. rewrite (nth_indep _ _ (source_of rows 0)) by (rewrite map_length; exact Hk). rewrite map_nth.
  set (i := nth k (firsts rows) 0%nat). exists (row rows i). split; [apply row_in, firsts_lt, nth_In, Hk|]. unfold source_of. destruct (closev (qa (row rows i)) (qb (row rows i))) eqn:E.
  - split; [reflexivity|apply close_iff, E].
  - split; [reflexivity|]. split; [reflexivity|]. intros M. apply close_iff in M. congruence.
Qed.
Lemma no_b_rows : forall a m n q, In q (zip4 a a m n) -> qa q = qb q.
Proof. induction a as [|x a IH]; intros [|z m] [|w n] q H; cbn in H; try contradiction. destruct H as [<-|H]; [reflexivity|apply (IH _ _ _ H)]. Qed.
Lemma no_n_rows : forall a b m q, In q (zip4 a b m m) -> qm q = qn q.
Proof. induction a as [|x a IH]; intros [|y b] [|z m] q H; cbn in H; try contradiction. destruct H as [<-|H]; [reflexivity|apply (IH _ _ _ H)]. Qed.
Lemma generate_rows a b m n r : generate (Some a) b (Some m) n = Ok r ->
  from_rows (zip4 (t_rows a) (t_rows (match b with Some b => b | None => a end)) (t_rows m) (t_rows (match n with Some n => n | None => m end))) = Ok r.
Proof. unfold generate. destruct (_ && _ && _); [trivial|discriminate]. Qed.
Lemma no_b a m n s out : generate (Some a) None (Some m) n = Ok (s, out) -> Forall (fun x => ~ is_dipole x) s.
Proof.
  intros H. apply generate_rows in H. apply Forall_forall. intros x Hx. destruct (In_nth s x (SrcPole [] []) Hx) as (k & Lk & <-). destruct (source_kind _ _ _ H k Lk) as (q & Hq & K).
  apply no_b_rows in Hq. destruct (nth k s (SrcPole [] [])); [intros F; exact F|]. destruct K as (_ & _ & K). exfalso. apply K. rewrite Hq. apply merged_self.
Qed.
Lemma zip4_len : forall a b m n, len a = len b -> len a = len m -> len a = len n -> len (zip4 a b m n) = len a.
Proof. induction a as [|x a IH]; intros [|y b] [|z m] [|w n] A B C; try discriminate; [reflexivity|]. cbn. f_equal. apply IH; cbn in *; lia. Qed.
Lemma generate_tables a b m n s out : generate (Some a) (Some b) (Some m) (Some n) = Ok (s, out) ->
  Permutation out (seq 0 (len (t_rows a))) /\ survey_nD s = len (t_rows a) /\ (t_cols a = t_cols b /\ t_cols a = t_cols m /\ t_cols a = t_cols n).
Proof.
  intros H. pose proof H as G. apply generate_rows in G. unfold generate in H. destruct (same_shape a b) eqn:S1; [|discriminate]. destruct (same_shape b m) eqn:S2; [|discriminate]. destruct (same_shape m n) eqn:S3; [|discriminate].
  unfold same_shape in *. apply andb_prop in S1, S2, S3. destruct S1 as [A1 A2], S2 as [B1 B2], S3 as [C1 C2]. apply Nat.eqb_eq in A1, A2, B1, B2, C1, C2.
  assert (L : len (zip4 (t_rows a) (t_rows b) (t_rows m) (t_rows n)) = len (t_rows a)) by (apply zip4_len; congruence).
  split; [rewrite <- L; apply (order_perm _ _ _ G)|]. split; [rewrite <- L; apply (survey_count _ _ _ G)|]. repeat split; congruence.
Qed.
(** A dipole at a large coordinate. *)
Lemma single_apart q : apart [q].
Proof. intros p p' [<-|[]] [<-|[]] D. contradiction. Qed.
Lemma far_dipole x d m n : 0 < d -> d <= x / 100000 -> exists rxs, from_rows [{| qa := [x + d]; qb := [x]; qm := m; qn := n |}] = Ok ([SrcPole rxs [x + d]], [0%nat]).
Proof.
  intros H1 H2. set (q := {| qa := [x + d]; qb := [x]; qm := m; qn := n |}). destruct (proj2 (accepted [q])) as ([s out] & H); [split; [discriminate|apply single_apart]|].
  pose proof (order_perm _ _ _ H) as Pm. apply Permutation_sym, Permutation_length_1_inv in Pm. apply from_rows_ok in H as K. destruct K as (_ & _ & Es & _). cbn [firsts filter seq List.length first_of_pair forallb map] in Es.
  exists (rx_list [q] 0). rewrite H, Pm, Es. unfold source_of. replace (closev (qa (row [q] 0)) (qb (row [q] 0))) with true; [reflexivity|]. symmetry. apply close_iff. unfold merged. cbn. constructor; [|constructor].
  cbn. replace (x + d - x) with d by ring. rewrite !Rabs_pos_eq by lra. lra.
Qed.
(** Concrete tables. *)
Lemma demo_apart : apart demo.
Proof.
  assert (G : forall x y : R, 1 <= Rabs (x - y) -> / 1000 <= distance [x] [y]).
  { intros x y H. unfold distance, dot, vsub. cbn. replace ((x - y) * (x - y) + 0) with (Rsqr (x - y)) by (unfold Rsqr; ring). rewrite sqrt_Rsqr_abs. lra. }
  intros p q Hp Hq D. cbn in Hp, Hq. destruct Hp as [<-|[<-|[<-|[]]]], Hq as [<-|[<-|[<-|[]]]]; cbn in *; try (exfalso; apply D; reflexivity); left; apply G; unfold Rabs; destruct (Rcase_abs _); lra.
Qed.
Lemma demo_ok : exists r, from_rows demo = Ok r.
Proof. apply accepted. split; [discriminate|exact demo_apart]. Qed.
Lemma demo_clear : Forall clear_poles demo.
Proof.
  assert (G : forall x y : R, 1 <= Rabs (x - y) -> Rabs y <= 100 -> ~ merged [x] [y]).
  { intros x y H H' M. inversion M as [|? ? M1]; subst. cbn in M1. lra. }
  assert (A : forall x y : R, 0 <= y <= 10 -> x = y - 1 -> ~ merged [x] [y]).
  { intros x y H ->. apply G; [replace (y - 1 - y) with (-1) by ring; unfold Rabs; destruct (Rcase_abs _); lra|rewrite Rabs_pos_eq; lra]. }
  unfold demo, clear_poles. repeat (apply Forall_cons; cbn; [split; first [right; apply A; lra|left; reflexivity]|]). constructor.
Qed.
