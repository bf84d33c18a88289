From Verif Require Import Py Vec VecDeriv Joint Dc SpecDc DcFacts DcFacts2 DcFacts3 DcFacts4 DcFacts5 DcFacts6.
From Coq Require Import Reals Lra Lia.
Local Open Scope R_scope.
Ltac comp := unfold dpred; cbn -[IZR Rplus Rmult Rinv Rminus Rdiv Ropp pow]; f_equal; repeat match goal with |- _ :: _ = _ :: _ => f_equal end; field; lra.

Lemma ex_unit : unit_survey ex_srcs.
Proof.
  split; [repeat constructor; cbn; intuition lia|]. constructor; [|constructor; [|constructor]].
  - split; [right; exists 0%nat, 1%nat; repeat split; discriminate|]. repeat constructor; cbn; discriminate.
  - split; [left; exists 1%nat; split; reflexivity|]. repeat constructor.
Qed.
Lemma ex_mini : mi_srcs (mini_pole_pole ex_srcs) = [pole_source 0 [0%nat; 1%nat]; pole_source 1 [1%nat]] /\
  mi_am (mini_pole_pole ex_srcs) = [0%nat; 1%nat; 1%nat] /\ mi_rx (mini_pole_pole ex_srcs) = [true; false; false].
Proof. repeat split. Qed.
Lemma c65_current : exists srcs, srcs = one_pole 0 2 /\ snd (dpred (full (two_nodes false false None)) (init srcs) [1] None) = Ok [4 / 3] /\ snd (dpred (miniaturized (two_nodes false false None) srcs) (init srcs) [1] None) = Ok [2 / 3].
Proof. eexists. split; [reflexivity|]. split; comp. Qed.
Lemma c65_apparent : setup_ok (full (two_nodes false false None)) app_pole /\ snd (dpred (full (two_nodes false false None)) (init app_pole) [1] None) = Ok [1 / 3] /\ snd (dpred (miniaturized (two_nodes false false None) app_pole) (init app_pole) [1] None) = Ok [2 / 3].
Proof.
  split; [|split; comp]. split; [apply two_nodes_sizes|]. cbn. split; [repeat constructor; cbn; intuition lia|]. repeat constructor; cbn. intros _. exists [2]. repeat split. intros x [<-|[]]. lra.
Qed.
Lemma c65_zero : snd (dpred (full (two_nodes false false None)) (init zero_dipole) [1] None) = Ok [0] /\ snd (dpred (miniaturized (two_nodes false false None) zero_dipole) (init zero_dipole) [1] None) = Ok [2 / 3].
Proof. split; comp. Qed.
Lemma c65_cell : exists s, sizes s /\ d_form s = Cell /\ regular s [1] /\ symmetric 2 (getA s [1]) /\ unit_survey cell_pole /\
  snd (dpred (full s) (init cell_pole) [1] None) = Ok [2] /\ snd (dpred (miniaturized s cell_pole) (init cell_pole) [1] None) = Ok [3 / 2].
Proof.
  exists (two_cells [1 / 2; 1 - 1 / 2] None). destruct (c64_cell_ex (1 / 2)) as (S1 & S2 & S3). split; [exact S1|]. split; [reflexivity|]. split; [exact S2|]. split; [exact S3|].
  split; [split; [repeat constructor; cbn; intuition lia|]; constructor; [|constructor]; split; [left; exists 2%nat; split; reflexivity|repeat constructor]|]. split; comp.
Qed.
Lemma c65_left s mi srcs m : d_mini s = Some mi -> length m <> d_p s -> st_srcs (fst (dpred s (init srcs) m None)) = mi_srcs mi /\ snd (dpred s (init srcs) m None) = Err ValueError.
Proof.
  intros M N. unfold dpred, used. rewrite M. cbn [given]. rewrite fields_bad by exact N. split; reflexivity.
Qed.
Lemma c65_adjoint s srcs : setup_ok s srcs -> forall d w, length d = survey_nD (used s (init srcs)) -> length w = data_size s srcs ->
  length (mini_data s 0 Rminus Rplus d) = data_size s srcs /\ length (mini_dataT s w) = survey_nD (used s (init srcs)) /\ dot w (mini_data s 0 Rminus Rplus d) = dot (mini_dataT s w) d.
Proof. intros SO d w. apply (mini_adjoint s srcs SO). Qed.
Lemma c65_small srcs : mini_ok (mini_pole_pole srcs) /\ NoDup (map s_id (mi_srcs (mini_pole_pole srcs))) /\
  forall src, In src (mi_srcs (mini_pole_pole srcs)) -> exists q, In q (abmn srcs) /\ (let '(a, b, m, n) := q in s_id src = a \/ s_id src = b \/ s_id src = m \/ s_id src = n).
Proof.
  pose proof (mini_mini_ok srcs) as H. split; [exact H|]. split; [apply H|]. rewrite mini_form. cbn [mi_srcs].
  assert (G : forall l cur src, In src (group cur l) -> (exists a ms, cur = Some (a, ms) /\ s_id src = a) \/ exists p, In p l /\ s_id src = fst p).
  { induction l as [|[x y] l IH]; intros [[a ms]|] src Hs; cbn [group] in Hs.
    - destruct Hs as [<-|[]]. left. eauto.
    - destruct Hs.
    - destruct (Nat.eqb_spec x a) as [->|N].
      + destruct (IH _ _ Hs) as [(a' & ms' & E & Q)|(p & Hp & Q)]; [injection E as <- <-; left; eauto|right; exists p; split; [right|]; assumption].
      + destruct Hs as [<-|Hs]; [left; eauto|]. destruct (IH _ _ Hs) as [(a' & ms' & E & Q)|(p & Hp & Q)]; [injection E as <- <-; right; exists (x, y); split; [left; reflexivity|exact Q]|right; exists p; split; [right|]; assumption].
    - destruct (IH _ _ Hs) as [(a' & ms' & E & Q)|(p & Hp & Q)]; [injection E as <- <-; right; exists (x, y); split; [left; reflexivity|exact Q]|right; exists p; split; [right|]; assumption]. }
  intros src Hs. destruct (G _ _ _ Hs) as [(a & ms & E & _)|(p & Hp & Q)]; [discriminate|]. rewrite unique_in, !in_app_iff in Hp.
  assert (SP : forall a b, fst (sorted_pair a b) = a \/ fst (sorted_pair a b) = b) by (intros a b; unfold sorted_pair; cbn; lia).
  repeat destruct Hp as [Hp|Hp]; apply in_map_iff in Hp; destruct Hp as (q & <- & Hq); try (apply filter_In in Hq; destruct Hq as [Hq _]); exists q; (split; [exact Hq|]); destruct q as [[[a b] m] k]; cbn [fA fB fM fN] in Q; rewrite Q.
  - destruct (SP a m); auto. - destruct (SP a k); auto. - destruct (SP b m); auto. - destruct (SP b k); auto.
Qed.
