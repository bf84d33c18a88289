From Verif Require Import Py Vec VecDeriv Joint Cplx CplxFacts SolveDeriv RichardsFacts RichardsFacts2 DcFacts Fdem SpecFdem FdemFacts FdemFacts2 FdemFacts3 FdemFacts4 FdemFacts5 FdemFacts6 FdemFacts7 FdemFacts8 FdemFacts9.
From Verif Require LinSimFacts DcFacts5 EmpirFacts.
From Coq Require Import Reals Lra Lia.
Local Open Scope R_scope.

Lemma mapM_fail {A B} (f : A -> result B) e l : (forall x, In x l -> (exists y, f x = Ok y) \/ f x = Err e) -> (exists x, In x l /\ f x = Err e) -> mapM f l = Err e.
Proof.
  induction l as [|x l IH]; intros H (y & I & E); [destruct I|]. cbn [mapM]. destruct (H x (or_introl eq_refl)) as [[z Ez]|Ex]; [|rewrite Ex; reflexivity]. rewrite Ez. cbn [bind]. destruct I as [->|I]; [congruence|].
  rewrite IH; [reflexivity|intros; apply H; right; assumption|eauto].
Qed.
Lemma mapM_mix {A B} (f : A -> result B) e l : (forall x, In x l -> (exists y, f x = Ok y) \/ f x = Err e) -> (exists y, mapM f l = Ok y) \/ mapM f l = Err e.
Proof.
  induction l as [|x l IH]; intros H; [left; eexists; reflexivity|]. cbn [mapM]. destruct (H x (or_introl eq_refl)) as [[z Ez]|Ex]; [|right; rewrite Ex; reflexivity]. rewrite Ez. cbn [bind].
  destruct IH as [[y Ey]|Ey]; [intros; apply H; right; assumption|rewrite Ey; left; eexists; reflexivity|rewrite Ey; right; reflexivity].
Qed.
Lemma combine_seq_nth {A} (l : list A) i x : nth_error l i = Some x -> In (i, x) (combine (seq 0 (length l)) l).
Proof.
  assert (K : forall k i, nth_error l i = Some x -> In ((k + i)%nat, x) (combine (seq k (length l)) l)).
  { clear i. induction l as [|y l IH]; intros k [|i] H; try discriminate.
    - cbn in H. inversion H; subst. left. rewrite Nat.add_0_r. reflexivity.
    - right. replace (k + S i)%nat with (S k + i)%nat by lia. apply IH. exact H. }
  intros H. exact (K 0%nat i H).
Qed.
Lemma over_fail {A} srcs (g : nat -> nat -> R -> source -> result A) e :
  (forall i fr l src, nth_error (G srcs) i = Some (fr, l) -> l = with_freq fr srcs -> In src srcs -> s_freq src = fr -> (exists y, g i (length l) fr src = Ok y) \/ g i (length l) fr src = Err e) ->
  (exists src, In src srcs /\ forall i l, nth_error (G srcs) i = Some (s_freq src, l) -> l = with_freq (s_freq src) srcs -> g i (length l) (s_freq src) src = Err e) ->
  over g (G srcs) = Err e.
Proof.
  intros H (src & Is & E). unfold over. rewrite (mapM_fail _ e); [reflexivity| |].
  - intros [i [fr l]] I. pose proof (nth_error_combine_seq _ _ _ I) as En. pose proof (G_in srcs (fr, l) (nth_error_In _ _ En)) as E2. cbn in E2. apply mapM_mix. intros x Hx. rewrite E2 in Hx. apply with_freq_in in Hx. destruct (H i fr l x En E2 (proj1 Hx) (proj2 Hx)) as [[y ->]| ->]; [left; eexists; reflexivity|right; reflexivity].
  - assert (IG : In (s_freq src, with_freq (s_freq src) srcs) (G srcs)). { unfold G, make_survey. cbn. apply in_map_iff. exists (s_freq src). split; [reflexivity|]. apply freqs_in. apply in_map. exact Is. }
    destruct (In_nth_error _ _ IG) as [i En]. exists (i, (s_freq src, with_freq (s_freq src) srcs)). split; [apply combine_seq_nth; exact En|]. apply mapM_fail.
    + intros x Hx. apply with_freq_in in Hx. destruct (H i _ _ x En eq_refl (proj1 Hx) (proj2 Hx)) as [[y ->]| ->]; [left; eexists; reflexivity|right; reflexivity].
    + exists src. split; [apply with_freq_in; auto|]. rewrite (E i _ En eq_refl). reflexivity.
Qed.
Lemma two_or_nodup l : NoDup (map s_freq l) \/ exists src, In src l /\ (2 <= length (with_freq (s_freq src) l))%nat.
Proof.
  induction l as [|x l IH]; [left; constructor|]. destruct (in_dec Req_EM_T (s_freq x) (map s_freq l)) as [I|N].
  - right. exists x. split; [left; reflexivity|]. unfold with_freq. cbn [filter]. destruct (Req_EM_T (s_freq x) (s_freq x)) as [_|K]; [|exfalso; apply K; reflexivity]. cbn [length]. apply in_map_iff in I. destruct I as (y & Ey & Iy).
    assert (In y (with_freq (s_freq x) l)) by (apply with_freq_in; auto). unfold with_freq in H. destruct (filter _ l); [destruct H|cbn; lia].
  - destruct IH as [IH|(src & I & L)]; [left; constructor; assumption|]. right. exists src. split; [right; exact I|]. unfold with_freq in *. cbn [filter]. destruct (Req_EM_T (s_freq x) (s_freq src)); cbn [length]; lia.
Qed.
(** Two sources at one frequency and a map of the magnetic property *)
Lemma c66_stacked s srcs m v w : setup_ok s srcs -> f_fwd s = false -> length m = f_p s -> length w = data_size srcs ->
  match f_form s with FormE => mapped (f_face s) = true | FormJ => mapped (f_edge s) = true | _ => False end -> ~ NoDup (map s_freq srcs) ->
  snd (Jvec s (init srcs) m v None) = Err ValueError /\ snd (Jtvec s (init srcs) m w None) = Err ValueError /\ snd (dpred s (init srcs) m None) = Ok (val [] (snd (dpred s (init srcs) m None))).
Proof.
  intros SU FW Lm Lw MP ND'. destruct (two_or_nodup srcs) as [N|(src & Is & L2)]; [contradiction|]. split; [|split; [|rewrite (dpred_fin s srcs SU m Lm); reflexivity]].
  - rewrite Jvec_val by exact Lm. unfold Jvec_of. cbn [stP st_sv]. change (sv_groups (make_survey srcs)) with (G srcs). rewrite (over_fail srcs _ ValueError); [reflexivity| |].
    + intros i fr l x En El I Ef. rewrite lookup_ok by assumption. cbn [bind]. destruct (stacked s (length l)) eqn:ES; [right; unfold getRHSDeriv; rewrite ES; reflexivity|]. left. rewrite qval_ok by exact ES. cbn [bind]. rewrite (Ainv_ok s srcs m FW i fr l) by exact En. cbn [bind].
      rewrite (LinSimFacts.mapM_all _ (jrx s m v x)); [eexists; reflexivity|]. intros r J. pose proof (rx_good s srcs SU x r I J) as R. unfold in_slices. rewrite listed_ok by exact I. cbn [bind]. unfold rx_deriv. rewrite (proj1 (gloc_ok s r R)). cbn [bind]. rewrite (callable_ok s) by exact R. cbn [bind].
      rewrite fieldsP_eq. cbn [fst]. rewrite (part_ok s) by exact R. f_equal. unfold jrx, du, rhs. rewrite Ef. fold (P s r). unfold pt. destruct (r_comp r); reflexivity.
    + exists src. split; [exact Is|]. intros i l En El. rewrite lookup_ok by assumption. cbn [bind]. unfold getRHSDeriv. rewrite El. replace (stacked s (length (with_freq (s_freq src) srcs))) with true; [reflexivity|]. unfold stacked, mapped in *. destruct (length (with_freq (s_freq src) srcs)) as [|[|n]] eqn:EL; try lia.
      destruct (f_form s); try contradiction; [destruct (p_deriv (f_face s))|destruct (p_deriv (f_edge s))]; try discriminate; reflexivity.
  - rewrite Jtvec_val by exact Lm. unfold Jtvec_of. cbn [stP st_sv]. change (sv_groups (make_survey srcs)) with (G srcs). change (sv_list (make_survey srcs)) with srcs. destruct (src_parts_ok s m Lm srcs w (ND s srcs SU) Lw) as (f & E & Lf & _). rewrite E.
    assert (JT : forall i fr l x, nth_error (G srcs) i = Some (fr, l) -> In x srcs -> s_freq x = fr -> exists y, jt_src s (stP s srcs m) m (fieldsP s srcs m) i (length l) fr x (f x) = (do q <- getRHSDerivT s (length l) m x y; Ok (fst (cadd (fold_left cadd (map (fun rw => dmT s m x (fst rw) (snd rw)) (rx_parts (s_rx x) (f x))) (czero (f_p s))) (cadd (copp (getADerivT s fr m (sol s m x) y)) q))))).
    { intros i fr l x En I Ef. destruct (rx_parts_ok s m Lm (s_rx x) (f x) (Lf x I)) as [HP _]. unfold jt_src. cbn [stP st_sv]. rewrite lookup_ok by assumption. cbn [bind].
      rewrite (LinSimFacts.mapM_all _ (fun rw => (duT s m x (fst rw) (snd rw), dmT s m x (fst rw) (snd rw)))); [|intros rw Hrw; rewrite fieldsP_eq; cbn [fst]; apply (derivT_ok s srcs SU m x); [exact I|apply HP; exact Hrw]].
      cbn [bind]. rewrite !map_map. cbn [fst snd]. change {| st_sv := make_survey srcs; st_model := Some m; st_A := Some (AP s srcs m); st_J := None; st_gtg := None |} with (stP s srcs m).
      rewrite (Ainv_ok s srcs m FW i fr l) by exact En. cbn [bind]. eexists. reflexivity. }
    rewrite (over_fail srcs _ ValueError); [reflexivity| |].
    + intros i fr l x En El I Ef. rewrite (dict_map srcs) by (auto using incl_refl; apply (ND s srcs SU)). destruct (JT i fr l x En I Ef) as [y Ey]. rewrite Ey. unfold getRHSDerivT. destruct (stacked s (length l)); [right; reflexivity|left; eexists; reflexivity].
    + exists src. split; [exact Is|]. intros i l En El. rewrite (dict_map srcs) by (auto using incl_refl; apply (ND s srcs SU)). destruct (JT i (s_freq src) l src En Is eq_refl) as [y Ey]. rewrite Ey. unfold getRHSDerivT. rewrite El. replace (stacked s (length (with_freq (s_freq src) srcs))) with true; [reflexivity|].
      unfold stacked, mapped in *. destruct (length (with_freq (s_freq src) srcs)) as [|[|n]] eqn:EL; try lia.
      destruct (f_form s); try contradiction; [destruct (p_deriv (f_face s))|destruct (p_deriv (f_edge s))]; try discriminate; reflexivity.
Qed.
(** forward_only: no factorisation is kept *)
Lemma c66_forward s srcs m v : setup_ok s srcs -> f_fwd s = true -> length m = f_p s -> srcs <> [] -> NoDup (map s_freq srcs) ->
  (exists d, snd (dpred s (init srcs) m None) = Ok d) /\ snd (Jvec s (init srcs) m v None) = Err TypeError.
Proof.
  intros SU FW Lm NE ND'. split; [rewrite (dpred_fin s srcs SU m Lm); eauto|]. rewrite Jvec_val by exact Lm. unfold Jvec_of. cbn [stP st_sv]. change (sv_groups (make_survey srcs)) with (G srcs).
  assert (H : forall i l fr src, In src srcs -> nth_error (G srcs) i = Some (fr, l) -> l = with_freq fr srcs -> s_freq src = fr ->
    (do u <- lookup s (make_survey srcs) (fieldsP s srcs m) src; do q <- getRHSDeriv s (length l) m src v; do du <- Ainv s (stP s srcs m) i (cadd (copp (getADeriv s fr m u v)) q);
     do l <- mapM (fun r => do _ <- in_slices (make_survey srcs) src; rx_deriv s (fst (fieldsP s srcs m)) m src r u du v) (s_rx src); Ok (concat l)) = Err TypeError).
  { intros i l fr src I En El Ef. rewrite lookup_ok by assumption. cbn [bind]. rewrite El. rewrite <- Ef, one_group by assumption. rewrite qval_ok by (unfold stacked; destruct (f_form s); rewrite ?Bool.andb_false_r; reflexivity). cbn [bind].
    unfold Ainv, stP, AP. cbn [st_A]. rewrite nth_error_map, En. cbn. rewrite FW. reflexivity. }
  rewrite (over_fail srcs _ TypeError); [reflexivity| |].
  - intros i fr l src En El I Ef. right. apply H; assumption.
  - destruct srcs as [|src l0]; [contradiction|]. exists src. split; [left; reflexivity|]. intros i l En El. apply H; auto. left. reflexivity.
Qed.
(** More frequencies than the factorisations that were made room for *)
Lemma loop_short s sv m : f_fwd s = false -> forall gs i A acc, Forall (fun g => forallb (listed sv) (snd g) = true) gs -> (i <= length A)%nat -> (length A < i + length gs)%nat -> snd (solve_loop s sv m i gs A acc) = Err IndexError.
Proof.
  intros FW. induction gs as [|[fr l] gs IH]; intros i A acc F L1 L2; cbn [length] in L2; [lia|]. cbn [solve_loop]. rewrite FW. pose proof (Forall_inv F) as Hl. cbn [snd] in Hl. apply Forall_inv_tail in F.
  destruct (Nat.ltb_spec i (length A)); [|reflexivity]. rewrite Hl. assert (LS : forall {B} (x : B) k l, length (set_nth k x l) = length l) by (intros B x; induction k as [|k IHk]; intros [|y l']; cbn; auto).
  apply IH; [exact F| |]; rewrite LS; lia.
Qed.
Lemma c66_more s srcs srcs' m m' : f_fwd s = false -> length m = f_p s -> length m' = f_p s -> (length (freqs srcs) < length (freqs srcs'))%nat ->
  snd (fields s (set_survey (fst (fields s (init srcs) m)) (make_survey srcs')) m') = Err IndexError.
Proof.
  intros FW Lm Lm' LT. destruct (fields_ok s srcs (init srcs) m (proj1 (init_inv s srcs)) Lm) as (st & E & (SV & _ & _) & EA & EM). rewrite E. cbn [fst].
  unfold fields. assert (ES : exists J g, set_model s (set_survey st (make_survey srcs')) m' = (mkSt (make_survey srcs') (Some m') (Some (AP s srcs m)) J g, Ok tt)).
  { unfold set_model, set_survey. rewrite Lm', Nat.eqb_refl. cbn [st_model st_sv st_A]. rewrite EM, EA. destruct (list_eq_dec Req_EM_T m m') as [->|]; do 2 eexists; reflexivity. }
  destruct ES as (J & g & ->). cbv zeta. cbn [st_A st_sv]. destruct (solve_loop _ _ _ _ _ _ _) as [A r] eqn:EL. cbn [snd]. pose proof (f_equal snd EL) as H. cbn [snd] in H. rewrite loop_short in H; [subst r; reflexivity|exact FW| |lia|].
  - apply Forall_forall. intros x Hx. apply (group_listed srcs'). exact Hx.
  - unfold AP, G, make_survey. cbn [sv_groups]. rewrite !map_length. cbn. lia.
Qed.
(** A source taken out of the list *)
Lemma c66_removed s srcs srcs' m src : length m = f_p s -> In src srcs -> ~ In (s_id src) (map s_id srcs') ->
  snd (fields s (mkSt (set_source_list (make_survey srcs) srcs') None None None None) m) = Err KeyError.
Proof.
  intros Lm Is NI. unfold fields, set_model. rewrite Lm, Nat.eqb_refl. cbn [st_model st_A st_sv]. set (sv := set_source_list (make_survey srcs) srcs').
  assert (NL : listed sv src = false). { unfold listed. cbn. apply Bool.not_true_iff_false. intros H. apply existsb_exists in H. destruct H as (y & Iy & Ey). apply Nat.eqb_eq in Ey. apply NI. rewrite <- Ey. apply in_map. exact Iy. }
  assert (IG : In (s_freq src, with_freq (s_freq src) srcs) (sv_groups sv)). { cbn. apply in_map_iff. exists (s_freq src). split; [reflexivity|]. apply freqs_in. apply in_map. exact Is. }
  assert (K : forall gs i A acc, (exists g, In g gs /\ In src (snd g)) -> (i + length gs <= length A)%nat -> snd (solve_loop s sv m i gs A acc) = Err KeyError).
  { assert (LS : forall {B} (x : B) k l, length (set_nth k x l) = length l) by (intros B x; induction k as [|k IHk]; intros [|y l']; cbn; auto).
    induction gs as [|[fr l] gs IH]; intros i A acc (g & Ig & Il) L; [destruct Ig|]. cbn [solve_loop length] in *. destruct (forallb (listed sv) l) eqn:EF.
    - destruct Ig as [<-|Ig]; [exfalso; cbn [snd] in Il; rewrite forallb_forall in EF; rewrite (EF src Il) in NL; discriminate|]. destruct (f_fwd s); [apply IH; [eauto|lia]|]. destruct (Nat.ltb_spec i (length A)); [|lia]. apply IH; [eauto|rewrite LS; lia].
    - destruct (f_fwd s); [reflexivity|]. destruct (Nat.ltb_spec i (length A)); [reflexivity|lia]. }
  destruct (solve_loop _ _ _ _ _ _ _) as [A r] eqn:EL. cbn [snd]. pose proof (f_equal snd EL) as H. cbn [snd] in H. rewrite K in H; [subst r; reflexivity| |rewrite map_length; cbn; lia]. eexists. split; [exact IG|]. apply with_freq_in. auto.
Qed.
(** One source *)
Lemma G1 src : G [src] = [(s_freq src, [src])].
Proof. unfold G, make_survey. cbn. destruct (Req_EM_T (s_freq src) (s_freq src)) as [_|K]; [reflexivity|exfalso; apply K; reflexivity]. Qed.
Lemma tiny_sol k bf be m src : sol (tiny k bf be) m src = solve1 (getA (tiny k bf be) (s_freq src) m) (getRHS (tiny k bf be) m src). Proof. reflexivity. Qed.
Lemma wpos fr : 0 < fr -> 0 < omega fr. Proof. apply omega_pos. Qed.
Lemma c66_cols : exists s srcs m f us, setup_ok s srcs /\ regular s srcs m /\ snd (fields s (init srcs) m) = Ok f /\ mapM (lookup s (make_survey srcs) f) srcs = Ok us /\
  field_cols s m m srcs Fb us <> map (fun su => getfield s m m (fst su) Fb (snd su)) (combine srcs us) /\
  field_cols s m m srcs Fh us <> map (fun su => getfield s m m (fst su) Fh (snd su)) (combine srcs us).
Proof.
  set (s := tiny FormE false true). set (srcs := [raw 0 1 0 1 []; raw 1 1 0 1 []]). set (m := [1; 1]).
  assert (SU : setup_ok s srcs) by (apply tiny_setup; [repeat constructor; cbn; intuition lia|]; repeat (constructor; [split; [do 5 eexists; left; split; [|reflexivity]; lra|constructor]|]); constructor).
  assert (RG : regular s srcs m) by (apply tiny_regular; lra).
  exists s, srcs, m, (fieldsP s srcs m), (map (sol s m) srcs). split; [exact SU|]. split; [exact RG|]. split; [apply fields_fin; reflexivity|]. split; [apply LinSimFacts.mapM_all; intros src I; apply lookup_ok; assumption|].
  set (u := sol s m (raw 1 1 0 1 [])). assert (Eu : exists x y, u = ([x], [y])).
  { pose proof (len_sol s (proj1 SU) m (raw 1 1 0 1 []) (src_good s srcs SU (raw 1 1 0 1 []) (or_intror (or_introl eq_refl)))) as [L1 L2]. fold u in L1, L2. unfold s in L1, L2. rewrite tiny_dim in L1, L2. destruct u as [a b]. cbn [fst snd] in L1, L2. destruct a as [|a [|]]; try discriminate. destruct b as [|b [|]]; try discriminate. eauto. }
  destruct Eu as (x & y & Eu). assert (NZ : ~ (x = 0 /\ y = 0)).
  { intros [-> ->]. pose proof (sol_ok s (proj1 SU) srcs m (raw 1 1 0 1 []) (proj2 (proj2 (proj2 RG))) (or_intror (or_introl eq_refl)) (src_good s srcs SU (raw 1 1 0 1 []) (or_intror (or_introl eq_refl)))) as H. fold u in H. rewrite Eu in H. unfold s, m in H. rewrite tiny_A in H.
    revert H. calc. intros H. injection H as _ H. pose proof (wpos 1 ltac:(lra)). lra. }
  pose proof (wpos 1 ltac:(lra)) as W.
  assert (FIN : forall p q, x = - (/ p * y) -> y = - (- / p * x) -> 0 < p -> q -> False).
  { intros p q E1 E2 Hp _. pose proof (Rinv_0_lt_compat p Hp). assert (x * (1 + / p * / p) = 0) by (rewrite E2 in E1; lra). assert (0 < / p * / p) by (apply Rmult_lt_0_compat; assumption). assert (x = 0) by (apply Rmult_integral in H0; destruct H0; lra). apply NZ. split; [exact H2|]. rewrite H2 in E2. lra. }
  cbn [map srcs field_cols combine]. fold u. rewrite Eu. split; calc; intros H; injection H; intros; eapply (FIN (omega 1) True); try exact W; try exact I; lra.
Qed.
