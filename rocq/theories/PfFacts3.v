(** The magnetic rows. *)
From Verif Require Import Pf SpecPf PfFacts PfFacts2.
Local Open Scope R_scope.

Lemma mkeqb_ok a b : mkeqb a b = true <-> a = b.
Proof. split; [destruct a, b; cbn; congruence|intros ->; destruct b; reflexivity]. Qed.
Lemma hasm_in c cs : In c cs -> hasm c cs = true.
Proof. intros H. apply existsb_exists. exists c. split; [exact H|destruct c; reflexivity]. Qed.

(** The function filed under each key. *)
Definition kfun (K : gkern) (k : mkey) : R -> R -> R -> R :=
  match k with
  | Kxx => fun x y z => fzz K y z x | Kxy => fun x y z => fzx K y z x | Kxz => fun x y z => fzy K y z x
  | Kyy => fun x y z => fzz K z x y | Kyz => fun x y z => fzy K x y z | Kzz => fun x y z => fzz K x y z
  | Kxxx => fun x y z => fzzz K y z x | Kxxy => fun x y z => fxxy K x y z | Kxxz => fun x y z => fxxz K x y z
  | Kyyx => fun x y z => fxxz K y z x | Kxyz => fun x y z => fxyz K x y z | Kzzx => fun x y z => fxxy K z x y
  | Kyyy => fun x y z => fzzz K z x y | Kyyz => fun x y z => fxxy K y z x | Kzzy => fun x y z => fxxz K z x y
  | Kzzz => fun x y z => fzzz K x y z
  end.
Section Dict.
  Context (K : gkern) (dr : list pt).
  Definition mright (d : list (mkey * vec)) : Prop := forall k v, dict_get mkeqb k d = Some v -> v = ev (kfun K k) dr.
  Definition mpres (k : mkey) (d : list (mkey * vec)) : Prop := dict_get mkeqb k d <> None.
  Lemma mget_set k k' v (d : list (mkey * vec)) : dict_get mkeqb k (dict_set mkeqb k' v d) = if mkeqb k k' then Some v else dict_get mkeqb k d.
  Proof.
    destruct (mkeqb k k') eqn:E.
    - apply mkeqb_ok in E; subst. apply dict_get_set_eq. exact mkeqb_ok.
    - apply dict_get_set_neq; [exact mkeqb_ok|]. intros ->. destruct k'; discriminate.
  Qed.
  Lemma mput_right k f d : f = kfun K k -> mright d -> mright (mput dr k f d).
  Proof.
    intros -> H k' v'. unfold mput. rewrite mget_set. destruct (mkeqb k' k) eqn:Ek; [|apply H].
    apply mkeqb_ok in Ek; subst k'. injection 1 as <-. reflexivity.
  Qed.
  Lemma mputn_right k f d : f = kfun K k -> mright d -> mright (mputn dr k f d).
  Proof. intros E H. unfold mputn. destruct (dict_get mkeqb k d); [exact H|]. apply mput_right; assumption. Qed.
  Lemma mwhen_right b f d : (forall d, mright d -> mright (f d)) -> mright d -> mright (mwhen b f d).
  Proof. intros Hf H. destruct b; cbn; auto. Qed.
  Lemma mput_here k f d : mpres k (mput dr k f d).
  Proof. unfold mpres, mput. rewrite mget_set. destruct k; discriminate. Qed.
  Lemma mput_mono k k' f d : mpres k d -> mpres k (mput dr k' f d).
  Proof. unfold mpres, mput. rewrite mget_set. destruct (mkeqb k k'); [discriminate|auto]. Qed.
  Lemma mputn_here k f d : mpres k (mputn dr k f d).
  Proof. unfold mputn. destruct (dict_get mkeqb k d) eqn:E; [unfold mpres; rewrite E; discriminate|apply mput_here]. Qed.
  Lemma mputn_mono k k' f d : mpres k d -> mpres k (mputn dr k' f d).
  Proof. unfold mputn. destruct (dict_get mkeqb k' d); [auto|apply mput_mono]. Qed.
  Lemma mwhen_here k b f d : b = true -> (forall d, mpres k (f d)) -> mpres k (mwhen b f d).
  Proof. intros -> H. apply H. Qed.
  Lemma mwhen_mono k b f d : (forall d, mpres k d -> mpres k (f d)) -> mpres k d -> mpres k (mwhen b f d).
  Proof. intros Hf H. destruct b; cbn; auto. Qed.

  Lemma mag_right cs : mright (mag_node_evals K cs dr).
  Proof.
    unfold mag_node_evals. cbv zeta.
    repeat (apply mwhen_right; [intros d H; repeat first [apply mput_right; [reflexivity|] | apply mputn_right; [reflexivity|]]; exact H|]).
    intros k v H; discriminate.
  Qed.
  Ltac here := intros ?; repeat first [apply mput_here | apply mputn_here | apply mput_mono | apply mputn_mono].
  Ltac mono := intros ? HH; repeat first [apply mput_mono | apply mputn_mono]; exact HH.
  Ltac tb H := rewrite H; rewrite ?orb_true_r; reflexivity.
  Ltac pres H := repeat first [apply mwhen_here; [solve [tb H]|solve [here]] | apply mwhen_mono; [solve [mono]|]].
  Definition needs (c : mcomp) : list mkey :=
    match c with
    | Bx => [Kxx; Kxy; Kxz] | By => [Kxy; Kyy; Kyz] | Bz => [Kxz; Kyz; Kzz]
    | Bxx => [Kxxx; Kxxy; Kxxz] | Byy => [Kyyx; Kyyy; Kyyz] | Bzz => [Kzzx; Kzzy; Kzzz]
    | Bxy => [Kxxy; Kyyx; Kxyz] | Bxz => [Kxxz; Kxyz; Kzzx] | Byz => [Kxyz; Kyyz; Kzzy]
    | Tmi => [Kxx; Kxy; Kxz; Kyy; Kyz; Kzz]
    | TmiX => [Kxxx; Kxxy; Kxxz; Kyyx; Kxyz; Kzzx]
    | TmiY => [Kxxy; Kyyx; Kxyz; Kyyy; Kyyz; Kzzy]
    | TmiZ => [Kxxz; Kxyz; Kzzx; Kyyz; Kzzy; Kzzz]
    end.
  Lemma mag_pres cs c : In c cs -> Forall (fun k => mpres k (mag_node_evals K cs dr)) (needs c).
  Proof.
    intros Hc. apply hasm_in in Hc. unfold mag_node_evals. cbv zeta.
    destruct c; cbn [needs]; repeat (apply Forall_cons; [pres Hc|]); apply Forall_nil.
  Qed.
  Lemma mag_get cs c k : In c cs -> In k (needs c) -> get mkeqb k (mag_node_evals K cs dr) = Ok (ev (kfun K k) dr).
  Proof.
    intros Hc Hk. pose proof (mag_pres cs c Hc) as P. rewrite Forall_forall in P. specialize (P _ Hk).
    unfold get, mpres in *. destruct (dict_get mkeqb k _) as [v|] eqn:E; [|contradiction].
    rewrite (mag_right cs _ _ E). reflexivity.
  Qed.
  Lemma lin3_ev t f g h : lin3 t (ev f dr) (ev g dr) (ev h dr) = ev (fun x y z => px t * f x y z + py t * g x y z + pz t * h x y z) dr.
  Proof. unfold lin3, ev. induction dr as [|d l IH]; [reflexivity|]. cbn [map vscale vadd zipw]. f_equal. exact IH. Qed.
  Lemma mag_vals_ok cs t c : In c cs ->
    mag_vals (mag_node_evals K cs dr) t c
    = Ok (ev (magnetic_function K t c AX) dr, ev (magnetic_function K t c AY) dr, ev (magnetic_function K t c AZ) dr).
  Proof.
    intros Hc.
    destruct c; cbn [mag_vals]; unfold get3, proj3;
      repeat (rewrite (mag_get cs _ _ Hc) by (cbn; tauto); cbn [bind]); rewrite ?lin3_ev; reflexivity.
  Qed.
End Dict.

Lemma map_div_scale (l : vec) a : map (fun t => t / a) (map (fun v => v) l) = map (fun t => t / a) l.
Proof. rewrite map_id. reflexivity. Qed.
Definition mag_response (K : gkern) (mm : mmodel) (t : pt) (mesh : pmesh) (c : mcomp) (loc : pt) : vec :=
  match mm with
  | MVector a => magnetic_vector_response K t a mesh c loc
  | MScalar Ms => magnetic_scalar_response K t Ms mesh c loc
  end.
Lemma mag_cellvals_ok K mm t (mesh : pmesh) c loc :
  map (fun x => x / (4 * PI)) (mag_cellvals mm (map (cell_value (magnetic_function K t c AX) mesh loc) (snd mesh))
     (map (cell_value (magnetic_function K t c AY) mesh loc) (snd mesh)) (map (cell_value (magnetic_function K t c AZ) mesh loc) (snd mesh)))
  = mag_response K mm t mesh c loc.
Proof.
  assert (HPI : PI <> 0) by (apply Rgt_not_eq, PI_RGT_0).
  destruct mm as [Ms|a]; cbn [mag_cellvals mag_response].
  - unfold magnetic_scalar_response. generalize (snd mesh) as cells. induction Ms as [|m Ms IH]; intros [|cell cells]; try reflexivity.
    cbn [map vmul vadd zipw combine fst snd]. f_equal; [|apply IH].
    unfold along. field. exact HPI.
  - unfold magnetic_vector_response. cbn [flat_map]. rewrite app_nil_r.
    rewrite !map_app. rewrite !map_map. f_equal; [|f_equal]; apply map_ext; intros; field; exact HPI.
Qed.
Lemma dot_div (l chi : vec) a : dot (map (fun x => x / a) l) chi = dot l chi / a.
Proof. revert chi; induction l as [|x l IH]; intros [|y chi]; cbn; try (unfold Rdiv; ring). rewrite IH. unfold Rdiv. ring. Qed.
Lemma mag_integral_ok K mm t (mesh : pmesh) loc cs : good_mesh mesh ->
  mag_integral K mm t mesh loc cs = Ok (map (fun c => mag_response K mm t mesh c loc) cs).
Proof.
  intros Hg. unfold mag_integral. apply mapM_ok_in. intros c Hc. unfold mag_row.
  rewrite mag_vals_ok by exact Hc. cbn [bind]. rewrite !gcells_ev by exact Hg. rewrite mag_cellvals_ok. reflexivity.
Qed.
Lemma mag_integral_fwd_ok K mm t (mesh : pmesh) chi loc cs : good_mesh mesh ->
  mag_integral_fwd K mm t mesh chi loc cs = Ok (map (fun c => dot (mag_response K mm t mesh c loc) chi) cs).
Proof.
  intros Hg. unfold mag_integral_fwd. apply mapM_ok_in. intros c Hc. unfold mag_fwd.
  rewrite mag_vals_ok by exact Hc. cbn [bind]. rewrite !gcells_ev by exact Hg. rewrite <- dot_div, mag_cellvals_ok. reflexivity.
Qed.

(** Choclo. *)
Lemma amplitude_scaled a d : 0 < a -> is_unit d -> amplitude_of (times a d) = a.
Proof.
  intros Ha Hd. unfold amplitude_of, times; cbn [px py pz].
  replace (a * px d * (a * px d) + a * py d * (a * py d) + a * pz d * (a * pz d)) with (a * a) by (unfold is_unit in Hd; nra).
  apply sqrt_square. lra.
Qed.
Lemma direction_scaled a d : 0 < a -> is_unit d -> direction_of (times a d) = d.
Proof.
  intros Ha Hd. unfold direction_of. rewrite amplitude_scaled by assumption. unfold times; cbn [px py pz].
  destruct d as [x y z]; cbn [px py pz]. f_equal; field; lra.
Qed.
Lemma combine_map2 {A B C} (f : A -> B) (g : A -> C) l : combine (map f l) (map g l) = map (fun x => (f x, g x)) l.
Proof. induction l as [|x l IH]; cbn; [reflexivity|]. f_equal. exact IH. Qed.
Lemma cell_value_lin d f g h (mesh : pmesh) loc cell :
  cell_value (fun x y z => px d * f x y z + py d * g x y z + pz d * h x y z) mesh loc cell
  = px d * cell_value f mesh loc cell + py d * cell_value g mesh loc cell + pz d * cell_value h mesh loc cell.
Proof. unfold cell_value; cbv zeta. ring. Qed.
Lemma mag_cvals_ok K C a d (mesh : pmesh) c loc : 0 < a -> is_unit d -> good_mesh mesh -> magnetic_libraries_agree K C mesh loc ->
  mag_cvals C (times a d) mesh c loc
  = map (fun cell => mkpt (cell_value (magnetic_function K d c AX) mesh loc cell) (cell_value (magnetic_function K d c AY) mesh loc cell) (cell_value (magnetic_function K d c AZ) mesh loc cell)) (snd mesh).
Proof.
  intros Ha Hd Hg (H1 & H2 & H3 & H4 & H5 & H6 & T1 & T2 & T3 & T4 & T5 & T6 & T7 & T8 & T9 & T10).
  unfold mag_cvals. rewrite direction_scaled by assumption. cbv zeta.
  destruct c; cbn [mag_kernels];
    rewrite ?(ccells_cev _ _ mesh loc Hg H1), ?(ccells_cev _ _ mesh loc Hg H2), ?(ccells_cev _ _ mesh loc Hg H3),
      ?(ccells_cev _ _ mesh loc Hg H4), ?(ccells_cev _ _ mesh loc Hg H5), ?(ccells_cev _ _ mesh loc Hg H6),
      ?(ccells_cev _ _ mesh loc Hg T1), ?(ccells_cev _ _ mesh loc Hg T2), ?(ccells_cev _ _ mesh loc Hg T3),
      ?(ccells_cev _ _ mesh loc Hg T4), ?(ccells_cev _ _ mesh loc Hg T5), ?(ccells_cev _ _ mesh loc Hg T6),
      ?(ccells_cev _ _ mesh loc Hg T7), ?(ccells_cev _ _ mesh loc Hg T8), ?(ccells_cev _ _ mesh loc Hg T9), ?(ccells_cev _ _ mesh loc Hg T10);
    rewrite !combine_map2, map_map; apply map_ext; intros cell; cbn [fst snd];
    try reflexivity;
    unfold magnetic_function, along, cell_value; cbv zeta; cbn [tensor2 tensor3]; f_equal; ring.
Qed.
Lemma mag_crow_scalar K C a d (mesh : pmesh) c loc : 0 < a -> is_unit d -> good_mesh mesh -> magnetic_libraries_agree K C mesh loc ->
  mag_crow C true (times a d) mesh c loc = magnetic_scalar_response K d (repeat (times a d) (length (snd mesh))) mesh c loc.
Proof.
  intros Ha Hd Hg Hl. unfold mag_crow. rewrite (mag_cvals_ok K) by assumption.
  rewrite amplitude_scaled, direction_scaled by assumption. rewrite map_map. cbn [px py pz].
  unfold magnetic_scalar_response. generalize (snd mesh) as cells. induction cells as [|cell cells IH]; [reflexivity|].
  cbn [map length repeat combine fst snd]. f_equal; [|exact IH].
  unfold along, times; cbn [px py pz]. field. apply Rgt_not_eq, PI_RGT_0.
Qed.
Lemma mag_crow_vector K C a d (mesh : pmesh) c loc : 0 < a -> is_unit d -> good_mesh mesh -> magnetic_libraries_agree K C mesh loc ->
  mag_crow C false (times a d) mesh c loc = magnetic_vector_response K d a mesh c loc.
Proof.
  intros Ha Hd Hg Hl. unfold mag_crow. rewrite (mag_cvals_ok K) by assumption.
  rewrite amplitude_scaled by assumption. rewrite !map_map. cbn [px py pz].
  unfold magnetic_vector_response. cbn [flat_map]. rewrite app_nil_r.
  f_equal; [|f_equal]; apply map_ext; intros; field; apply Rgt_not_eq, PI_RGT_0.
Qed.
(** Forward modelling without the matrix. *)
Lemma fold_add2 {B} (f : R -> B -> R) (h : B -> R) : (forall a x, f a x = a + h x) -> forall (l : list B) a, fold_left f l a = a + vsum (map h l).
Proof. intros E. induction l as [|x l IH]; intros a; cbn; [ring|]. rewrite IH, E. ring. Qed.
Lemma mag_cvals_length C b0 (mesh : pmesh) c loc : length (mag_cvals C b0 mesh c loc) = length (snd mesh).
Proof.
  unfold mag_cvals. cbv zeta. unfold ccells.
  destruct c; cbn [mag_kernels]; rewrite map_length, !combine_length, !map_length; rewrite ?Nat.min_id; reflexivity.
Qed.
Lemma vsum_seq_nth {A} (h : A -> R -> R) : forall (us : list A) (chi : vec) n0, (forall u, h u 0 = 0) ->
  vsum (map (fun ku => h (snd ku) (nth (fst ku) chi 0)) (combine (seq n0 (length us)) us))
  = vsum (map (fun uc => h (fst uc) (snd uc)) (combine us (skipn n0 chi))).
Proof.
  induction us as [|u us IH]; intros chi n0 H0; [reflexivity|].
  cbn [length seq combine map vsum fst snd]. rewrite IH by exact H0.
  destruct (Nat.lt_ge_cases n0 (length chi)) as [Hl|Hl].
  - assert (E : skipn n0 chi = nth n0 chi 0 :: skipn (S n0) chi).
    { clear -Hl. revert n0 Hl. induction chi as [|x chi IH]; intros [|n0] Hl; cbn in *; try lia; auto.
      rewrite IH by lia. reflexivity. }
    rewrite E. reflexivity.
  - rewrite nth_overflow by exact Hl. rewrite !skipn_all2 by lia.
    rewrite H0. destruct us; cbn; ring.
Qed.
Lemma dot_map_combine {A} (h : A -> R) : forall (us : list A) (v : vec), dot (map h us) v = vsum (map (fun uc => h (fst uc) * snd uc) (combine us v)).
Proof. induction us as [|u us IH]; intros [|x v]; cbn; auto. rewrite IH. reflexivity. Qed.
Lemma dot_nth {A} (h : A -> R) (us : list A) chi off :
  dot (map h us) (skipn off chi) = vsum (map (fun ku => h (snd ku) * nth (fst ku + off) chi 0) (combine (seq 0 (length us)) us)).
Proof.
  rewrite dot_map_combine.
  pose proof (vsum_seq_nth (fun u x => h u * x) us (skipn off chi) 0 ltac:(intros; apply Rmult_0_r)) as E. cbn [skipn] in E. rewrite <- E. clear E.
  f_equal. apply map_ext. intros [k u]; cbn [fst snd]. f_equal.
  rewrite <- (firstn_skipn off chi) at 2.
  destruct (Nat.lt_ge_cases (length chi) off) as [H|H].
  - rewrite skipn_all2 by lia. rewrite app_nil_r, firstn_all2 by lia. rewrite !nth_overflow by (cbn; lia). reflexivity.
  - rewrite app_nth2 by (rewrite firstn_length; lia). rewrite firstn_length. f_equal. lia.
Qed.
Lemma dot_app_skip (a b v : vec) : dot (a ++ b) v = dot a v + dot b (skipn (length a) v).
Proof.
  revert v; induction a as [|x a IH]; intros v; cbn [app length skipn]; [cbn; ring|].
  destruct v as [|y v]; cbn [dot skipn]; [destruct b; cbn; ring|]. rewrite IH. ring.
Qed.
Lemma vsum_map_add {A} (f g : A -> R) l : vsum (map (fun x => f x + g x) l) = vsum (map f l) + vsum (map g l).
Proof. induction l as [|x l IH]; cbn; [ring|]. rewrite IH. ring. Qed.
Lemma skipn_skipn' {A} a b (l : list A) : skipn a (skipn b l) = skipn (a + b) l.
Proof.
  revert l; induction b as [|b IH]; intros l; [rewrite Nat.add_0_r; reflexivity|].
  destruct l as [|x l]; [rewrite !skipn_nil; reflexivity|]. cbn [skipn]. rewrite IH. replace (a + S b)%nat with (S (a + b)) by lia. reflexivity.
Qed.
Lemma mag_cfwd_ok C scalar b0 (mesh : pmesh) chi c loc : mag_cfwd C scalar b0 mesh chi c loc 0 = dot (mag_crow C scalar b0 mesh c loc) chi.
Proof.
  unfold mag_cfwd, mag_crow. cbv zeta. rewrite <- (mag_cvals_length C b0 mesh c loc).
  set (us := mag_cvals C b0 mesh c loc). set (f := direction_of b0). set (A := amplitude_of b0).
  destruct scalar.
  - rewrite (fold_add2 _ (fun ku => (fun u => 1 / 4 / PI * A * (px u * px f + py u * py f + pz u * pz f)) (snd ku) * nth (fst ku + 0) chi 0)).
    + rewrite Rplus_0_l, <- (dot_nth (fun u => 1 / 4 / PI * A * (px u * px f + py u * py f + pz u * pz f)) us chi 0). reflexivity.
    + intros a [k u]. cbn [fst snd]. rewrite Nat.add_0_r. ring.
  - rewrite (fold_add2 _ (fun ku => (1 / 4 / PI * A * px (snd ku)) * nth (fst ku + 0) chi 0
       + ((1 / 4 / PI * A * py (snd ku)) * nth (fst ku + length us) chi 0 + (1 / 4 / PI * A * pz (snd ku)) * nth (fst ku + 2 * length us) chi 0))).
    + rewrite Rplus_0_l, !vsum_map_add.
      rewrite <- (dot_nth (fun u => 1 / 4 / PI * A * px u) us chi 0), <- (dot_nth (fun u => 1 / 4 / PI * A * py u) us chi (length us)), <- (dot_nth (fun u => 1 / 4 / PI * A * pz u) us chi (2 * length us)).
      rewrite !dot_app_skip, !map_length, skipn_skipn'. cbn [skipn].
      replace (length us + length us)%nat with (2 * length us)%nat by lia. reflexivity.
    + intros a [k u]. cbn [fst snd]. rewrite Nat.add_0_r. ring.
Qed.
