From Verif Require Import Py Vec Joint Cplx Fdem SpecFdem.
From Coq Require Import Reals Lra Lia.
Local Open Scope R_scope.

Lemma mapM_ext {A B} (f g : A -> result B) l : (forall x, f x = g x) -> mapM f l = mapM g l.
Proof. intros E. induction l as [|x l IH]; cbn; [reflexivity|]. rewrite E, IH. reflexivity. Qed.
Lemma bind_ext {A B} (r : result A) (f g : A -> result B) : (forall x, f x = g x) -> bind r f = bind r g.
Proof. intros E. destruct r; cbn; auto. Qed.
Lemma over_ext {A} (g h : nat -> nat -> R -> source -> result A) gs : (forall i k fr src, g i k fr src = h i k fr src) -> over g gs = over h gs.
Proof. intros E. unfold over. f_equal. apply mapM_ext. intros [i [fr l]]. apply mapM_ext. intros src. rewrite E. reflexivity. Qed.
Lemma set_nth_app {A} (l1 : list A) x y l2 : set_nth (length l1) x (l1 ++ y :: l2) = l1 ++ x :: l2.
Proof. induction l1; cbn; [reflexivity|]. rewrite IHl1. reflexivity. Qed.
Lemma with_freq_in f srcs src : In src (with_freq f srcs) <-> In src srcs /\ s_freq src = f.
Proof. unfold with_freq. rewrite filter_In. destruct (Req_EM_T (s_freq src) f); intuition congruence. Qed.

Section Hist.
  Context (s : fdem) (srcs : list source).
  Definition G : list (R * list source) := sv_groups (make_survey srcs).
  Lemma G_in g : In g G -> snd g = with_freq (fst g) srcs.
  Proof. unfold G, make_survey. cbn. intros H. apply in_map_iff in H. destruct H as (f & <- & _). reflexivity. Qed.
  Lemma listed_ok src : In src srcs -> listed (make_survey srcs) src = true.
  Proof. intros H. unfold listed. apply existsb_exists. exists src. split; [exact H|apply Nat.eqb_refl]. Qed.
  Lemma group_listed g : In g G -> forallb (listed (make_survey srcs)) (snd g) = true.
  Proof. intros H. apply forallb_forall. intros x Hx. rewrite (G_in g H) in Hx. apply with_freq_in in Hx. apply listed_ok. apply Hx. Qed.
  Definition fieldsP (m : vec) : fobj := (m, concat (map (fun g => map (fun src => (s_id src, f_solve s (getA s (fst g) m) (getRHS s m src))) (snd g)) G)).
  Definition AP (m : vec) : list (option (vec * R)) := map (fun g => if f_fwd s then None else Some (m, fst g)) G.
  Definition stP (m : vec) : state := mkSt (make_survey srcs) (Some m) (Some (AP m)) None None.
  Definition dpred_of (st : state) (f : fobj) : result vec :=
    let mc := match st_model st with Some mc => mc | None => [] end in
    do parts <- mapM (fun src => do u <- lookup s (st_sv st) f src; do l <- mapM (fun r => rx_eval s (fst f) mc src r u) (s_rx src); Ok (concat l)) (sv_list (st_sv st));
    Ok (concat parts).
  Definition Jvec_of (st : state) (m v : vec) (f : fobj) : result vec :=
    do d <- over (fun i k fr src =>
      do u <- lookup s (st_sv st) f src;
      do q <- getRHSDeriv s k m src v;
      do du <- Ainv s st i (cadd (copp (getADeriv s fr m u v)) q);
      do l <- mapM (fun r => do _ <- in_slices (st_sv st) src; rx_deriv s (fst f) m src r u du v) (s_rx src);
      Ok (concat l)) (sv_groups (st_sv st));
    Ok (assemble (f_nan s) (st_sv st) d).
  Definition Jtvec_of (st : state) (m w : vec) (f : fobj) : result vec :=
    do d <- over (fun i k fr src =>
      match dict_get Nat.eqb (s_id src) (src_parts (sv_list (st_sv st)) w) with
      | None => Err KeyError
      | Some w => jt_src s st m f i k fr src w
      end) (sv_groups (st_sv st));
    Ok (fold_left vadd (map snd d) (vzero (length m))).
  Definition J_of (st : state) (m : vec) (f : fobj) : result mat :=
    match st_A st with
    | None => Err AttributeError
    | Some A => do d <- over (j_rows s st m f) (firstn (length A) (sv_groups (st_sv st))); Ok (assemble (vzero (f_p s)) (st_sv st) d)
    end.
  Definition ok_len {A} (m : vec) (r : result A) : result A := if Nat.eqb (length m) (f_p s) then r else Err ValueError.
  Definition dpredP (m : vec) : result vec := ok_len m (dpred_of (stP m) (fieldsP m)).
  Definition JvecP (m v : vec) : result vec := ok_len m (Jvec_of (stP m) m v (fieldsP m)).
  Definition JtvecP (m w : vec) : result vec := ok_len m (Jtvec_of (stP m) m w (fieldsP m)).
  Definition getJP (m : vec) : result mat := ok_len m (J_of (stP m) m (fieldsP m)).

  Definition InvS (st : state) : Prop :=
    st_sv st = make_survey srcs /\ (st_A st = None \/ exists m, st_A st = Some (AP m)) /\
    (forall J, st_J st = Some J -> exists m, st_model st = Some m /\ J_of (stP m) m (fieldsP m) = Ok J).
  Definition InvL (st : state) (l : last_fields) : Prop :=
    forall m f, l = Some (m, f) -> length m = f_p s /\ f = fieldsP m /\ st_A st = Some (AP m) /\ st_model st = Some m.
  Definition Inv (st : state) (l : last_fields) : Prop := InvS st /\ InvL st l.

  Lemma set_model_ok st m : InvS st -> length m = f_p s ->
    exists st', set_model s st m = (st', Ok tt) /\ InvS st' /\ st_A st' = st_A st /\ st_model st' = Some m /\ (st_model st = Some m -> st' = st).
  Proof.
    intros (IU & IA & IJ) Lm. unfold set_model. rewrite Lm, Nat.eqb_refl.
    assert (K : st_model st <> Some m -> exists st', (mkSt (st_sv st) (Some m) (st_A st) None None, Ok tt) = (st', Ok tt : result unit) /\ InvS st' /\ st_A st' = st_A st /\ st_model st' = Some m /\ (st_model st = Some m -> st' = st)).
    { intros N. eexists. split; [reflexivity|]. split; [|split; [reflexivity|split; [reflexivity|]]]. - split; [exact IU|]. split; [exact IA|]. cbn. discriminate. - intros E. contradiction. }
    destruct (st_model st) as [m'|] eqn:E; [|apply K; discriminate]. destruct (list_eq_dec Req_EM_T m' m) as [->|N].
    - exists st. split; [reflexivity|]. split; [split; [exact IU|split; [exact IA|rewrite E; exact IJ]]|]. split; [reflexivity|]. split; [exact E|reflexivity].
    - apply K. congruence.
  Qed.
  Lemma set_model_bad st m : length m <> f_p s -> set_model s st m = (st, Err ValueError).
  Proof. intros N. unfold set_model. destruct (Nat.eqb_spec (length m) (f_p s)); [contradiction|reflexivity]. Qed.
  Definition one (m : vec) (g : R * list source) : option (vec * R) := if f_fwd s then None else Some (m, fst g).
  Lemma loop_ok m gs : incl gs G -> forall done rest acc, length rest = length gs -> (f_fwd s = true -> rest = map (one m) gs) ->
    solve_loop s (make_survey srcs) m (length done) gs (done ++ rest) acc =
    (done ++ map (one m) gs, Ok (acc ++ concat (map (fun g => map (fun src => (s_id src, f_solve s (getA s (fst g) m) (getRHS s m src))) (snd g)) gs))).
  Proof.
    intros I. induction gs as [|[fr l] gs IH]; intros done rest acc L Hf; cbn [solve_loop map concat].
    - destruct rest; [|discriminate]. rewrite !app_nil_r. reflexivity.
    - pose proof (group_listed (fr, l) ltac:(apply I; left; reflexivity)) as E. cbn [snd] in E. rewrite E. destruct rest as [|o rest]; [discriminate|]. cbn in L. injection L as L.
      assert (I' : incl gs G) by (intros x Hx; apply I; right; exact Hx). destruct (f_fwd s) eqn:F.
      + specialize (Hf eq_refl). cbn [map] in Hf. injection Hf as H1 H2.
        assert (K : done ++ o :: rest = (done ++ [o]) ++ rest) by (rewrite <- app_assoc; reflexivity). rewrite K. replace (S (length done)) with (length (done ++ [o])) by (rewrite app_length; cbn; lia).
        rewrite IH by auto. rewrite <- !app_assoc. cbn [app]. unfold one at 2. rewrite F. replace o with (@None (vec * R)); [reflexivity|]. rewrite H1. unfold one. rewrite F. reflexivity.
      + rewrite app_length. cbn [length]. replace (length done <? length done + S (length rest))%nat with true by (symmetry; apply Nat.ltb_lt; lia). rewrite set_nth_app.
        assert (K : done ++ Some (m, fr) :: rest = (done ++ [Some (m, fr)]) ++ rest) by (rewrite <- app_assoc; reflexivity). rewrite K. replace (S (length done)) with (length (done ++ [Some (m, fr)])) by (rewrite app_length; cbn; lia).
        rewrite IH by (auto; discriminate). rewrite <- !app_assoc. cbn [app]. unfold one at 2. rewrite F. reflexivity.
  Qed.
  Lemma fields_ok st m : InvS st -> length m = f_p s -> exists st', fields s st m = (st', Ok (fieldsP m)) /\ InvS st' /\ st_A st' = Some (AP m) /\ st_model st' = Some m.
  Proof.
    intros I Lm. destruct (set_model_ok st m I Lm) as (st1 & E & (IU & IA & IJ) & EA & Em & _). unfold fields. rewrite E. cbv zeta. rewrite IU.
    set (A0 := match st_A st1 with Some A => A | None => map (fun _ => None) (sv_groups (make_survey srcs)) end).
    assert (HA : length A0 = length G /\ (f_fwd s = true -> A0 = map (one m) G)).
    { unfold A0. destruct IA as [-> | (m0 & ->)].
      - split; [apply map_length|]. intros F. fold G. apply map_ext. intros g. unfold one. rewrite F. reflexivity.
      - split; [unfold AP; apply map_length|]. intros F. unfold AP. apply map_ext. intros g. unfold one. rewrite F. reflexivity. }
    destruct HA as [LA FA]. pose proof (loop_ok m G (incl_refl G) [] A0 [] LA FA) as K. cbn [length app] in K. fold G. rewrite K. cbn [bind]. eexists. split; [reflexivity|].
    split; [|split; [reflexivity|exact Em]]. split; [reflexivity|]. split; [right; exists m; reflexivity|]. cbn. exact IJ.
  Qed.
  Lemma fields_bad st m : length m <> f_p s -> fields s st m = (st, Err ValueError).
  Proof. intros N. unfold fields. rewrite set_model_bad by exact N. reflexivity. Qed.
  Lemma given_ok st l m g : Inv st l -> length m = f_p s ->
    exists st', given s st m (pick l m g) = (st', Ok (fieldsP m)) /\ InvS st' /\ st_A st' = Some (AP m) /\ st_model st' = Some m /\ InvL st' (kept l (pick l m g)).
  Proof.
    intros [I IL] Lm. unfold pick. assert (K : exists st', given s st m None = (st', Ok (fieldsP m)) /\ InvS st' /\ st_A st' = Some (AP m) /\ st_model st' = Some m /\ InvL st' (kept l None)).
    { cbn [given kept]. destruct (fields_ok st m I Lm) as (st' & E & I' & EA & Em). exists st'. split; [exact E|]. split; [exact I'|]. split; [exact EA|]. split; [exact Em|]. intros ? ? ?. discriminate. }
    destruct g; [|exact K]. destruct l as [[m' f]|]; [|exact K]. destruct (list_eq_dec Req_EM_T m' m) as [->|]; [|exact K].
    destruct (IL m f eq_refl) as (_ & -> & EA & Em). exists st. cbn [given kept]. split; [reflexivity|]. split; [exact I|]. split; [exact EA|]. split; [exact Em|]. exact IL.
  Qed.
  Lemma given_bad st l m g : Inv st l -> length m <> f_p s -> pick l m g = None /\ given s st m None = (st, Err ValueError).
  Proof.
    intros [I IL] N. split; [|apply fields_bad; exact N]. unfold pick. destruct g; [|reflexivity]. destruct l as [[m' f]|]; [|reflexivity].
    destruct (list_eq_dec Req_EM_T m' m) as [->|]; [|reflexivity]. destruct (IL m f eq_refl). contradiction.
  Qed.
  Lemma ok_len_ok {A} m (r : result A) : length m = f_p s -> ok_len m r = r. Proof. intros L. unfold ok_len. rewrite L, Nat.eqb_refl. reflexivity. Qed.
  Lemma ok_len_bad {A} m (r : result A) : length m <> f_p s -> ok_len m r = Err ValueError. Proof. intros L. unfold ok_len. destruct (Nat.eqb_spec (length m) (f_p s)); [contradiction|reflexivity]. Qed.
  Lemma Ainv_eq st m i b : st_A st = Some (AP m) -> Ainv s st i b = Ainv s (stP m) i b.
  Proof. unfold Ainv. intros ->. reflexivity. Qed.
  Lemma dpred_ok st l m g : Inv st l -> Inv (fst (dpred s st m (pick l m g))) (kept l (pick l m g)) /\ snd (dpred s st m (pick l m g)) = dpredP m.
  Proof.
    intros II. unfold dpred, dpredP. destruct (Nat.eq_dec (length m) (f_p s)) as [Lm|N].
    - destruct (given_ok st l m g II Lm) as (st' & -> & I' & EA & Em & IL'). cbn [fst snd]. split; [split; assumption|]. rewrite ok_len_ok by exact Lm. unfold dpred_of. rewrite Em, (proj1 I'). reflexivity.
    - destruct (given_bad st l m g II N) as [-> ->]. cbn. split; [|rewrite ok_len_bad by exact N; reflexivity]. split; [apply II|]. intros ? ?. discriminate.
  Qed.
  Lemma Jvec_eq st m v f : st_sv st = make_survey srcs -> st_A st = Some (AP m) -> Jvec_of st m v f = Jvec_of (stP m) m v f.
  Proof.
    intros ES EA. unfold Jvec_of. rewrite ES. cbn [stP st_sv]. f_equal. apply over_ext. intros. apply bind_ext. intros u. apply bind_ext. intros q. rewrite (Ainv_eq st m) by exact EA. reflexivity.
  Qed.
  Lemma jt_src_eq st m f i k fr src w : st_sv st = make_survey srcs -> st_A st = Some (AP m) -> jt_src s st m f i k fr src w = jt_src s (stP m) m f i k fr src w.
  Proof. intros ES EA. unfold jt_src. rewrite ES. cbn [stP st_sv]. apply bind_ext. intros u. apply bind_ext. intros l. rewrite (Ainv_eq st m) by exact EA. reflexivity. Qed.
  Lemma Jtvec_eq st m w f : st_sv st = make_survey srcs -> st_A st = Some (AP m) -> Jtvec_of st m w f = Jtvec_of (stP m) m w f.
  Proof.
    intros ES EA. unfold Jtvec_of. rewrite ES. cbn [stP st_sv]. f_equal. apply over_ext. intros. destruct (dict_get _ _ _); [|reflexivity]. apply jt_src_eq; assumption.
  Qed.
  Lemma J_eq st m f : st_sv st = make_survey srcs -> st_A st = Some (AP m) -> J_of st m f = J_of (stP m) m f.
  Proof.
    intros ES EA. unfold J_of. rewrite ES, EA. cbn [stP st_sv st_A]. f_equal. apply over_ext. intros. unfold j_rows. rewrite ES. cbn [stP st_sv]. apply bind_ext. intros u. f_equal. apply mapM_ext. intros r. apply mapM_ext. intros c. apply bind_ext. intros z. rewrite (Ainv_eq st m) by exact EA. reflexivity.
  Qed.
  Lemma Jvec_ok st l m v g : Inv st l -> Inv (fst (Jvec s st m v (pick l m g))) (kept l (pick l m g)) /\ snd (Jvec s st m v (pick l m g)) = JvecP m v.
  Proof.
    intros II. unfold Jvec, JvecP. destruct (Nat.eq_dec (length m) (f_p s)) as [Lm|N].
    - destruct (given_ok st l m g II Lm) as (st' & -> & I' & EA & Em & IL'). destruct (set_model_ok st' m I' Lm) as (st1 & -> & _ & _ & _ & S). specialize (S Em). subst st1.
      cbn [fst snd]. split; [split; assumption|]. rewrite ok_len_ok by exact Lm. apply Jvec_eq; [apply I'|exact EA].
    - destruct (given_bad st l m g II N) as [-> ->]. cbn. split; [|rewrite ok_len_bad by exact N; reflexivity]. split; [apply II|]. intros ? ?. discriminate.
  Qed.
  Lemma Jtvec_ok st l m w g : Inv st l -> Inv (fst (Jtvec s st m w (pick l m g))) (kept l (pick l m g)) /\ snd (Jtvec s st m w (pick l m g)) = JtvecP m w.
  Proof.
    intros II. unfold Jtvec, JtvecP. destruct (Nat.eq_dec (length m) (f_p s)) as [Lm|N].
    - destruct (given_ok st l m g II Lm) as (st' & -> & I' & EA & Em & IL'). destruct (set_model_ok st' m I' Lm) as (st1 & -> & _ & _ & _ & S). specialize (S Em). subst st1.
      cbn [fst snd]. split; [split; assumption|]. rewrite ok_len_ok by exact Lm. apply Jtvec_eq; [apply I'|exact EA].
    - destruct (given_bad st l m g II N) as [-> ->]. cbn. split; [|rewrite ok_len_bad by exact N; reflexivity]. split; [apply II|]. intros ? ?. discriminate.
  Qed.
  Lemma getJ_ok st l m g : Inv st l -> Inv (fst (getJ s st m (pick l m g))) (kept l (pick l m g)) /\ snd (getJ s st m (pick l m g)) = getJP m /\
    (length m = f_p s -> st_model (fst (getJ s st m (pick l m g))) = Some m).
  Proof.
    intros II. pose proof II as [I IL]. unfold getJ, getJP. destruct (Nat.eq_dec (length m) (f_p s)) as [Lm|N].
    - rewrite ok_len_ok by exact Lm. destruct (set_model_ok st m I Lm) as (st1 & -> & I1 & EA1 & Em & S).
      assert (PN : pick l m g = None \/ st1 = st).
      { unfold pick. destruct g; [|left; reflexivity]. destruct l as [[m' f]|]; [|left; reflexivity]. destruct (list_eq_dec Req_EM_T m' m) as [->|]; [|left; reflexivity]. right. apply S. apply (IL m f eq_refl). }
      assert (II1 : Inv st1 (match pick l m g with Some _ => l | None => None end)).
      { destruct PN as [-> | ->]; [split; [exact I1|intros ? ? ?; discriminate]|]. split; [exact I|]. destruct (pick l m g); [exact IL|intros ? ? ?; discriminate]. }
      destruct (st_J st1) as [J|] eqn:EJ.
      + cbn [fst snd]. split; [exact II1|]. split; [|auto]. destruct (proj2 (proj2 I1) J EJ) as (m' & E' & <-). congruence.
      + assert (EG : exists st', given s st1 m (pick l m g) = (st', Ok (fieldsP m)) /\ InvS st' /\ st_A st' = Some (AP m) /\ st_model st' = Some m /\ InvL st' (kept l (pick l m g))).
        { destruct PN as [-> | ->]; [|apply given_ok; assumption]. cbn [given kept]. destruct (fields_ok st1 m I1 Lm) as (st' & E & I' & EA & Em'). exists st'. split; [exact E|]. split; [exact I'|]. split; [exact EA|]. split; [exact Em'|]. intros ? ? ?. discriminate. }
        destruct EG as (st' & -> & I' & EA & Em' & IL'). pose proof (J_eq st' m (fieldsP m) (proj1 I') EA) as JE. unfold J_of at 1 in JE. rewrite EA in JE |- *. destruct (over _ _) as [d|e]; cbn [bind] in JE; cbn [fst snd].
        * split; [|split; [exact JE|auto]]. split; [|intros m0 f0 E0; cbn [st_A st_model]; rewrite <- EA; apply IL'; exact E0]. split; [exact (proj1 I')|]. split; [right; exists m; reflexivity|]. cbn. intros J' E'. inversion E'; subst J'. exists m. auto.
        * split; [split; assumption|]. auto.
    - rewrite set_model_bad by exact N. cbn. split; [|split; [rewrite ok_len_bad by exact N; reflexivity|intros; contradiction]]. split; [exact I|]. destruct (given_bad st l m g II N) as [-> _]. intros ? ? ?. discriminate.
  Qed.
  Lemma jtj_ok st l m W g : Inv st l -> Inv (fst (getJtJdiag s st m W (pick l m g))) (kept l (pick l m g)).
  Proof.
    intros II. pose proof II as [I IL]. unfold getJtJdiag. destruct (Nat.eq_dec (length m) (f_p s)) as [Lm|N].
    - destruct (set_model_ok st m I Lm) as (st1 & -> & I1 & EA1 & Em & S).
      assert (PN : pick l m g = None \/ st1 = st).
      { unfold pick. destruct g; [|left; reflexivity]. destruct l as [[m' f]|]; [|left; reflexivity]. destruct (list_eq_dec Req_EM_T m' m) as [->|]; [|left; reflexivity]. right. apply S. apply (IL m f eq_refl). }
      assert (K : Inv st1 (kept l (pick l m g))). { unfold kept. destruct PN as [-> | ->]; [split; [exact I1|intros ? ? ?; discriminate]|]. split; [exact I|]. destruct (pick l m g); [exact IL|intros ? ? ?; discriminate]. }
      destruct (st_gtg st1); [exact K|].
      assert (KJ : Inv (fst (getJ s st1 m (pick l m g))) (kept l (pick l m g))).
      { destruct PN as [-> | ->]; [|apply getJ_ok; exact II]. assert (N1 : Inv st1 None) by (split; [exact I1|intros ? ? ?; discriminate]). pose proof (proj1 (getJ_ok st1 None m false N1)) as H. unfold pick, kept in H. unfold kept. exact H. }
      destruct (getJ s st1 m (pick l m g)) as [st2 [J|e]]; cbn [fst] in *; [|exact KJ]. destruct KJ as [(A & B & C) D]. split; [split; [exact A|split; [exact B|exact C]]|exact D].
    - rewrite set_model_bad by exact N. cbn. destruct (given_bad st l m g II N) as [-> _]. split; [exact I|]. intros ? ? ?. discriminate.
  Qed.
  Lemma init_inv : Inv (init srcs) None.
  Proof. split; [|intros ? ? ?; discriminate]. split; [reflexivity|]. split; [left; reflexivity|]. cbn. discriminate. Qed.
  Lemma step_inv st l c : Inv st l -> Inv (fst (do_call s (st, l) c)) (snd (do_call s (st, l) c)).
  Proof.
    intros II. pose proof II as [I IL]. destruct c; cbn [do_call].
    - destruct (Nat.eq_dec (length m) (f_p s)) as [Lm|N].
      + destruct (fields_ok st m I Lm) as (st' & -> & I' & EA & Em). cbn [fst snd]. split; [exact I'|]. intros m' f' E. inversion E; subst. auto.
      + rewrite fields_bad by exact N. cbn [fst snd]. split; [exact I|]. intros ? ? ?. discriminate.
    - cbn [fst snd]. apply dpred_ok; exact II.
    - cbn [fst snd]. apply Jvec_ok; exact II.
    - cbn [fst snd]. apply Jtvec_ok; exact II.
    - cbn [fst snd]. apply getJ_ok; exact II.
    - cbn [fst snd]. apply jtj_ok; exact II.
  Qed.
  Lemma history_inv h : Inv (fst (history s srcs h)) (snd (history s srcs h)).
  Proof.
    unfold history. assert (K : forall h stl, Inv (fst stl) (snd stl) -> Inv (fst (fold_left (do_call s) h stl)) (snd (fold_left (do_call s) h stl))).
    { clear h. induction h as [|c h IH]; intros [st l] HI; [exact HI|]. cbn [fold_left]. apply IH. apply step_inv. exact HI. }
    apply K. apply init_inv.
  Qed.
  Lemma history_free h m v w g :
    let st := fst (history s srcs h) in let l := snd (history s srcs h) in
    snd (dpred s st m (pick l m g)) = snd (dpred s (init srcs) m None) /\
    snd (Jvec s st m v (pick l m g)) = snd (Jvec s (init srcs) m v None) /\
    snd (Jtvec s st m w (pick l m g)) = snd (Jtvec s (init srcs) m w None) /\
    snd (getJ s st m (pick l m g)) = snd (getJ s (init srcs) m None) /\
    snd (fields s st m) = snd (fields s (init srcs) m).
  Proof.
    intros st l. pose proof (history_inv h) as HI. fold st l in HI. pose proof init_inv as I0.
    split; [|split; [|split; [|split]]].
    - rewrite (proj2 (dpred_ok st l m g HI)). symmetry. apply (dpred_ok (init srcs) None m false I0).
    - rewrite (proj2 (Jvec_ok st l m v g HI)). symmetry. apply (Jvec_ok (init srcs) None m v false I0).
    - rewrite (proj2 (Jtvec_ok st l m w g HI)). symmetry. apply (Jtvec_ok (init srcs) None m w false I0).
    - rewrite (proj1 (proj2 (getJ_ok st l m g HI))). symmetry. apply (getJ_ok (init srcs) None m false I0).
    - destruct (Nat.eq_dec (length m) (f_p s)) as [Lm|N].
      + destruct (fields_ok st m (proj1 HI) Lm) as (a & -> & _). destruct (fields_ok (init srcs) m (proj1 I0) Lm) as (b & -> & _). reflexivity.
      + rewrite !fields_bad by exact N. reflexivity.
  Qed.
  Lemma dpred_val m : length m = f_p s -> snd (dpred s (init srcs) m None) = dpred_of (stP m) (fieldsP m).
  Proof. intros L. pose proof (proj2 (dpred_ok (init srcs) None m false init_inv)) as H. unfold pick in H. rewrite H. apply ok_len_ok. exact L. Qed.
  Lemma Jvec_val m v : length m = f_p s -> snd (Jvec s (init srcs) m v None) = Jvec_of (stP m) m v (fieldsP m).
  Proof. intros L. pose proof (proj2 (Jvec_ok (init srcs) None m v false init_inv)) as H. unfold pick in H. rewrite H. apply ok_len_ok. exact L. Qed.
  Lemma Jtvec_val m w : length m = f_p s -> snd (Jtvec s (init srcs) m w None) = Jtvec_of (stP m) m w (fieldsP m).
  Proof. intros L. pose proof (proj2 (Jtvec_ok (init srcs) None m w false init_inv)) as H. unfold pick in H. rewrite H. apply ok_len_ok. exact L. Qed.
  Lemma getJ_val m : length m = f_p s -> snd (getJ s (init srcs) m None) = J_of (stP m) m (fieldsP m).
  Proof. intros L. pose proof (proj1 (proj2 (getJ_ok (init srcs) None m false init_inv))) as H. unfold pick in H. rewrite H. apply ok_len_ok. exact L. Qed.
End Hist.
