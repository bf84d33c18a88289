From Coq Require Import Reals Lra Lia.
From Verif Require Import Py Vec VecDeriv Frechet Joint Richards RichardsFacts RichardsFacts2 RichardsFacts3 LinSimFacts SolveDeriv Dc SpecDc DcFacts DcFacts2 DcFacts3 DcFacts4 JointFacts SelfPot SpecSelfPot SelfPotFacts SelfPotFacts2.
Local Open Scope R_scope.

Section Hist2.
  Context (s : spot) (q : qmap) (rs : list receiver) (rho : vec) (SR : z_srcs s = [rs]) (HN : honest q).
  Let p := q_p q.
  Let B0 := base_init s q rho.
  Let F0 : fok rho (zinit rho q) None. Proof. intros N. destruct (N eq_refl). Qed.
  Definition inv (x : zstate * list (vec * vec)) : Prop :=
    base s q rho (fst x) /\ (snd x <> [] -> w_A (fst x) = Some rho) /\ forall m u, In (m, u) (snd x) -> length m = p /\ u = fP s q rho m.
  Lemma any_ok x g : inv x -> fok rho (fst x) (any_fields (snd x) g).
  Proof. intros (_ & A & _) N. apply A. intros E. rewrite E in N. unfold any_fields in N. destruct g as [[|k]|]; apply N; reflexivity. Qed.
  Lemma own_ok x m g : inv x -> fok rho (fst x) (own_fields (snd x) m g) /\ forall u, own_fields (snd x) m g = Some u -> length m = p /\ u = fP s q rho m.
  Proof.
    intros (_ & A & U). unfold own_fields. destruct g as [k|]; [|split; [intros N; destruct (N eq_refl)|discriminate]].
    destruct (nth_error (snd x) k) as [[m' u']|] eqn:E; [|split; [intros N; destruct (N eq_refl)|discriminate]].
    destruct (list_eq_dec Req_EM_T m' m) as [->|]; [|split; [intros N; destruct (N eq_refl)|discriminate]].
    split; [intros _; apply A; intros E'; rewrite E' in E; destruct k; discriminate|]. intros u Eu. injection Eu as <-. apply U. eapply nth_error_In. exact E.
  Qed.
  Lemma dpred_ok st m f : base s q rho st -> fok rho st f -> (forall u, f = Some u -> length m = p /\ u = fP s q rho m) ->
    snd (zdpred s st m f) = (if Nat.eqb (length m) p then Ok (mv (zP s) (fP s q rho m)) else Err ValueError) /\ base s q rho (fst (zdpred s st m f)) /\ (w_A st = Some rho -> w_A (fst (zdpred s st m f)) = Some rho).
  Proof.
    intros B F U. unfold zdpred. destruct (Nat.eqb (length m) p) eqn:EL.
    - apply Nat.eqb_eq in EL. destruct (given_ok s q rs rho SR st m f B F EL) as (st' & u & -> & B' & A' & _ & N & G). cbn [fst snd]. split; [|split; [exact B'|auto]]. f_equal.
      assert (Eu : u = fP s q rho m). { destruct f as [u'|]; [|apply N; reflexivity]. destruct (G ltac:(discriminate)) as [Ef _]. apply U. exact Ef. }
      rewrite (crs' s rs SR), Eu. unfold zP. rewrite (crs' s rs SR), mv_concat, map_map. reflexivity.
    - destruct f as [u|]; [destruct (U u eq_refl) as [L _]; rewrite L, Nat.eqb_refl in EL; discriminate|]. cbn [zgiven]. pose proof (fields_ok s q rs rho SR st m B) as H. fold p in H. rewrite EL in H. rewrite H. cbn. auto.
  Qed.
  Lemma jtj_ok st m W f : base s q rho st -> fok rho st f -> base s q rho (fst (zJtJ s st m W f)) /\ (w_A st = Some rho -> w_A (fst (zJtJ s st m W f)) = Some rho).
  Proof.
    intros B F. unfold zJtJ. destruct (w_gtg st); [cbn; auto|]. pose proof (getJ_ok s q rs rho SR HN st m f B F) as H. destruct (Nat.eqb (length m) (q_p q)).
    - destruct H as (st' & J & -> & (E1 & E2 & E3 & E4) & _ & A'). cbn [fst]. split; [split; [exact E1|split; [exact E2|split; [exact E3|exact E4]]]|exact A'].
    - rewrite H. cbn. auto.
  Qed.
  Lemma step_inv x c : inv x -> inv (zdo s x c).
  Proof.
    intros I. pose proof I as (B & A & U). destruct x as [st l]. cbn [fst snd] in *. destruct c as [m|m g|m v g|m w g|m g|m W g]; cbn [zdo].
    - pose proof (fields_ok s q rs rho SR st m B) as H. fold p in H. destruct (Nat.eqb (length m) p) eqn:EL.
      + destruct H as (st' & -> & B' & _ & A'). split; [exact B'|]. split; [intros _; exact A'|]. cbn [snd]. intros m' u' Hin. apply in_app_iff in Hin. destruct Hin as [Hin|[E|[]]]; [apply U; exact Hin|]. injection E as <- <-. split; [apply Nat.eqb_eq; exact EL|reflexivity].
      + rewrite H. exact I.
    - destruct (own_ok (st, l) m g I) as [F1 F2]. destruct (dpred_ok st m _ B F1 F2) as (_ & B' & A'). split; [exact B'|]. split; [intros N; apply A', A; exact N|exact U].
    - destruct (Jvec_ok s q rs rho SR HN st m v _ B (any_ok (st, l) g I)) as (_ & B' & A'). split; [exact B'|]. split; [intros N; apply A', A; exact N|exact U].
    - destruct (Jtvec_ok s q rs rho SR HN st m w _ B (any_ok (st, l) g I)) as (_ & B' & A'). split; [exact B'|]. split; [intros N; apply A', A; exact N|exact U].
    - pose proof (getJ_ok s q rs rho SR HN st m (any_fields l g) B (any_ok (st, l) g I)) as H. destruct (Nat.eqb (length m) (q_p q)).
      + destruct H as (st' & J & -> & B' & _ & A'). split; [exact B'|]. split; [intros N; apply A', A; exact N|exact U].
      + rewrite H. exact I.
    - destruct (jtj_ok st m W _ B (any_ok (st, l) g I)) as (B' & A'). split; [exact B'|]. split; [intros N; apply A', A; exact N|exact U].
  Qed.
  Lemma history_inv h : inv (zhistory s rho q h).
  Proof.
    unfold zhistory. assert (I : inv (zinit rho q, [])) by (split; [exact B0|split; [intros N; destruct (N eq_refl)|intros m u []]]). revert I. generalize (zinit rho q, @nil (vec * vec)). induction h as [|c h IH]; intros x I; [exact I|]. cbn [fold_left]. apply IH. apply step_inv. exact I.
  Qed.
  Lemma history_same h m v w g :
    let st := fst (zhistory s rho q h) in let l := snd (zhistory s rho q h) in
    snd (zfields s st m) = snd (zfields s (zinit rho q) m) /\
    snd (zdpred s st m (own_fields l m g)) = snd (zdpred s (zinit rho q) m None) /\
    snd (zJvec s st m v (any_fields l g)) = snd (zJvec s (zinit rho q) m v None) /\
    snd (zJtvec s st m w (any_fields l g)) = snd (zJtvec s (zinit rho q) m w None) /\
    (z_storeJ s = true \/ q_linear q = true -> snd (zgetJ s st m (any_fields l g)) = snd (zgetJ s (zinit rho q) m None)).
  Proof.
    cbn zeta. pose proof (history_inv h) as I. pose proof I as (B & _). split; [|split; [|split; [|split]]].
    - pose proof (fields_ok s q rs rho SR _ m B) as H1. pose proof (fields_ok s q rs rho SR _ m B0) as H2. destruct (Nat.eqb (length m) (q_p q)).
      + destruct H1 as (? & -> & _). destruct H2 as (? & -> & _). reflexivity.
      + rewrite H1, H2. reflexivity.
    - destruct (own_ok _ m g I) as [F1 F2]. rewrite (proj1 (dpred_ok _ m _ B F1 F2)). symmetry. apply (dpred_ok _ m None B0 F0). discriminate.
    - rewrite (proj1 (Jvec_ok s q rs rho SR HN _ m v _ B (any_ok _ g I))). symmetry. apply (Jvec_ok s q rs rho SR HN _ m v None B0 F0).
    - rewrite (proj1 (Jtvec_ok s q rs rho SR HN _ m w _ B (any_ok _ g I))). symmetry. apply (Jtvec_ok s q rs rho SR HN _ m w None B0 F0).
    - intros SU. pose proof (getJ_ok s q rs rho SR HN _ m _ B (any_ok _ g I)) as H1. pose proof (getJ_ok s q rs rho SR HN _ m None B0 F0) as H2. destruct (Nat.eqb (length m) (q_p q)).
      + destruct H1 as (? & J & -> & _ & Q & _). destruct H2 as (? & J' & -> & _ & Q' & _). cbn. rewrite Q, Q' by exact SU. reflexivity.
      + rewrite H1, H2. reflexivity.
  Qed.
End Hist2.

Section Main.
  Context (s : spot) (q : qmap) (rs : list receiver) (rho : vec) (OK : spot_ok s q rs) (HN : honest q) (Lr : length rho = d_p (z_dc s)).
  Let d := z_dc s.
  Let n := d_n d.
  Let p := q_p q.
  Let B0 := base_init s q rho.
  Let F0 : fok rho (zinit rho q) None. Proof. intros N. destruct (N eq_refl). Qed.
  Let SR' : z_srcs s = [rs]. Proof. apply OK. Qed.
  Lemma dpred_val m : length m = p -> snd (zdpred s (zinit rho q) m None) = Ok (mv (zP s) (fP s q rho m)).
  Proof. intros Lm. rewrite (proj1 (dpred_ok s q rs rho SR' _ m None B0 F0 ltac:(discriminate))). fold p. rewrite Lm, Nat.eqb_refl. reflexivity. Qed.
  Lemma Jvec_val m v : length m = p -> length v = p -> solves n (d_solve d) (getA d rho) -> (z_storeJ s = true -> symmetric n (getA d rho)) -> snd (zJvec s (zinit rho q) m v None) = Ok (jP s q rho m v).
  Proof.
    intros Lm Lv SV SY. rewrite (proj1 (Jvec_ok s q rs rho SR' HN _ m v None B0 F0)). unfold JvecR. fold p. rewrite Lm, Nat.eqb_refl. f_equal. destruct (z_storeJ s); [|reflexivity].
    apply (JP_mv s q rs OK); auto.
  Qed.
  Lemma getJ_val m : length m = p -> snd (zgetJ s (zinit rho q) m None) = Ok (JP s q rho m).
  Proof.
    intros Lm. unfold zgetJ. destruct (zset_fresh s q rho m Lm) as (st & E & Est). rewrite E. assert (EJ : w_J st = None) by (rewrite Est; reflexivity). rewrite EJ.
    pose proof (set_ok s q rho (zinit rho q) m B0) as H. fold p in H. rewrite Lm, Nat.eqb_refl in H. destruct H as (st1 & E1 & B & _). rewrite E in E1. assert (st1 = st) by congruence. subst st1.
    destruct (given_ok s q rs rho SR' st m None B ltac:(intros N; destruct (N eq_refl)) Lm) as (st2 & u & -> & B2 & A2 & _). rewrite (rows_ok s q rs rho SR' st2 m B2 A2). reflexivity.
  Qed.
  Lemma Jtvec_val m w : length m = p -> length w = sp_size rs -> solves n (d_solve d) (getA d rho) -> symmetric n (getA d rho) ->
    exists a, snd (zJtvec s (zinit rho q) m w None) = Ok a /\ length a = p /\ forall v, length v = p -> dot a v = dot w (jP s q rho m v).
  Proof.
    intros Lm Lw SV SY. rewrite (proj1 (Jtvec_ok s q rs rho SR' HN _ m w None B0 F0)). unfold JtvecR. fold p. rewrite Lm, Nat.eqb_refl. destruct (z_storeJ s).
    - eexists. split; [reflexivity|]. pose proof (JP_mat s q rs OK rho m Lm) as HJ. split; [eapply mtv_length; exact HJ|]. intros v Lv. rewrite <- (mv_mtv_adjoint (sp_size rs) p) by assumption. rewrite (JP_mv s q rs OK) by auto. reflexivity.
    - destruct (zjt_ok s q rs OK (mkZ rho q None (Some rho) None None) m eq_refl rho eq_refl Lr Lm SV SY rs w (vzero p)) as (a & Ea & La & Q); [apply OK|exact Lw|apply vzero_length|].
      exists a. split; [exact Ea|]. split; [exact La|]. intros v Lv. rewrite (Q v Lv). unfold jP, zP. rewrite (crs s q rs OK). rewrite dot_zero_l. ring.
  Qed.
End Main.
