From Verif Require Import Py Vec VecDeriv SensW Scaling EffMed SpecEffMed EffMedFacts.
From Coq Require Import Lra.
Local Open Scope R_scope.

(** ** The derivative along exact solutions *)
Section Deriv.
  Context (c : emt) (HC : sensible_emt c) (phi d : R) (S : R -> R) (HP : 0 < phi < 1) (Hd : 0 < d) (HS : forall p, Rabs (p - phi) < d -> exact c p (S p)).
  Notation s := (S phi). Notation G := (GG c).
  Notation k1 := (fun x => hh (sig1 c) (alpha1 c) x - hh (sig0 c) (alpha0 c) x).
  Lemma here : exact c phi s. Proof. apply HS. rewrite Rminus_diag_eq, Rabs_R0 by reflexivity. assumption. Qed.
  Lemma s_pos : 0 < s. Proof. apply here. Qed.
  Lemma G_affine p x : G p x = G phi x + (p - phi) * k1 x. Proof. unfold GG. ring. Qed.
  Lemma small_sign x : G phi x <> 0 -> exists e, 0 < e /\ forall p, Rabs (p - phi) < e -> 0 < G p x * G phi x.
  Proof.
    intros N. pose proof (Rabs_pos_lt _ N) as PG. exists (Rabs (G phi x) / (Rabs (k1 x) + 1)). pose proof (Rabs_pos (k1 x)) as PK. split; [apply Rdiv_lt_0_compat; lra|].
    intros p Hp. rewrite (G_affine p x). set (g := G phi x) in *. set (k := k1 x) in *. assert (B : Rabs ((p - phi) * k) < Rabs g).
    { rewrite Rabs_mult. apply Rle_lt_trans with (Rabs (p - phi) * (Rabs k + 1)); [apply Rmult_le_compat_l; [apply Rabs_pos|lra]|].
      apply (Rmult_lt_compat_r (Rabs k + 1)) in Hp; [|lra]. unfold Rdiv in Hp. rewrite Rmult_assoc, Rinv_l, Rmult_1_r in Hp by lra. assumption. }
    set (u := (p - phi) * k) in *. unfold Rabs in B. destruct (Rcase_abs u); destruct (Rcase_abs g); nra.
  Qed.
  Lemma S_cont : continuity_pt S phi.
  Proof.
    pose proof s_pos as PS. pose proof here as HE. apply (exact_G c HC phi s PS) in HE. unfold continuity_pt, continue_in, limit1_in, limit_in. cbn. unfold R_dist. intros eps He.
    assert (HF : fraction phi) by (unfold fraction; lra). set (e := Rmin (eps / 2) (s / 2)). assert (E1 : e <= eps / 2) by apply Rmin_l. assert (E2 : e <= s / 2) by apply Rmin_r. assert (E0 : 0 < e) by (apply Rmin_glb_lt; lra).
    pose proof (GG_mono c HC phi s (s + e) HF PS ltac:(lra)) as MU. pose proof (GG_mono c HC phi (s - e) s HF ltac:(lra) ltac:(lra)) as ML. rewrite HE in MU, ML.
    destruct (small_sign (s + e) ltac:(lra)) as (e1 & P1 & B1). destruct (small_sign (s - e) ltac:(lra)) as (e2 & P2 & B2).
    set (m := Rmin (Rmin e1 e2) (Rmin d (Rmin phi (1 - phi)))). assert (PM : 0 < m) by (repeat apply Rmin_glb_lt; lra). exists m. split; [assumption|]. intros p [_ Hp].
    assert (M1 : m <= e1) by (unfold m; eapply Rle_trans; [apply Rmin_l|apply Rmin_l]). assert (M2 : m <= e2) by (unfold m; eapply Rle_trans; [apply Rmin_l|apply Rmin_r]). assert (M3 : m <= d) by (unfold m; eapply Rle_trans; [apply Rmin_r|apply Rmin_l]).
    assert (M4 : m <= phi /\ m <= 1 - phi) by (split; unfold m; (eapply Rle_trans; [apply Rmin_r|]; eapply Rle_trans; [apply Rmin_r|]); [apply Rmin_l|apply Rmin_r]).
    assert (FP : fraction p) by (unfold fraction; apply Rabs_def2 in Hp; lra). pose proof (HS p ltac:(lra)) as HEp. pose proof (proj1 HEp) as PSp. apply (exact_G c HC p (S p) PSp) in HEp.
    specialize (B1 p ltac:(lra)). specialize (B2 p ltac:(lra)). assert (U : S p < s + e).
    { destruct (Rlt_le_dec (S p) (s + e)) as [|L]; [assumption|]. exfalso. assert (G p (s + e) <= 0). { destruct L as [L|L]; [pose proof (GG_mono c HC p (s + e) (S p) FP ltac:(lra) L); lra|rewrite L; lra]. } nra. }
    assert (V : s - e < S p).
    { destruct (Rlt_le_dec (s - e) (S p)) as [|L]; [assumption|]. exfalso. assert (0 <= G p (s - e)). { destruct L as [L|L]; [pose proof (GG_mono c HC p (S p) (s - e) FP PSp L); lra|rewrite <- L; lra]. } nra. }
    apply Rabs_def1; lra.
  Qed.
  Definition psi (x : R) : R := - k1 x / DD c phi s x.
  Lemma psi_cont : continuity_pt psi s.
  Proof.
    pose proof s_pos as PS. pose proof HC as (P0 & P1 & A0 & A1 & _). assert (HF : fraction phi) by (unfold fraction; lra). pose proof (DD_pos c HC phi s s HF PS PS) as PD. unfold psi.
    apply (continuity_pt_div (fun x => - k1 x) (DD c phi s)); [| |lra].
    - apply (continuity_pt_opp k1). apply (continuity_pt_minus (hh (sig1 c) (alpha1 c)) (hh (sig0 c) (alpha0 c))); apply hh_cont; assumption.
    - unfold DD. assert (K : forall sj al, 0 < al -> 0 < sj -> continuity_pt (dd sj al s) s).
      { intros sj al HA HJ. destruct (dAB_pos (getQ al) sj s (getQ_range al HA) HJ PS) as [PA PB]. unfold dd. set (q := getQ al) in *. generalize (dA q sj s) PA (dB q sj s) PB. intros a Ha b Hb. unfold dA, dB in *. 
        assert (a * ((1 - q) * s + q * sj) <> 0) by (apply Rmult_integral_contrapositive; split; lra). assert (b * (2 * q * s + (1 - 2 * q) * sj) <> 0) by (apply Rmult_integral_contrapositive; split; lra). reg; assumption. }
      apply (continuity_pt_plus (fun x => (1 - phi) * dd (sig0 c) (alpha0 c) s x) (fun x => phi * dd (sig1 c) (alpha1 c) s x)); apply continuity_pt_scal; apply K; assumption.
  Qed.
  Lemma quotient h : h <> 0 -> Rabs h < d -> fraction (phi + h) -> (S (phi + h) - s) / h = psi (S (phi + h)).
  Proof.
    intros NH Hh FP. pose proof s_pos as PS. pose proof here as HE. apply (exact_G c HC phi s PS) in HE. assert (HF : fraction phi) by (unfold fraction; lra).
    pose proof (HS (phi + h) ltac:(replace (phi + h - phi) with h by ring; assumption)) as HEp. pose proof (proj1 HEp) as PSp. apply (exact_G c HC (phi + h) _ PSp) in HEp. set (t := S (phi + h)) in *.
    rewrite G_affine in HEp. replace (phi + h - phi) with h in HEp by ring. pose proof (GG_diff c HC phi s t PS PSp) as GD. rewrite HE in GD. pose proof (DD_pos c HC phi s t HF PS PSp) as PD. unfold psi.
    apply (Rmult_eq_reg_r (h * DD c phi s t)); [|apply Rmult_integral_contrapositive; split; lra]. unfold Rdiv. replace ((t - s) * / h * (h * DD c phi s t)) with ((t - s) * DD c phi s t) by (field; assumption).
    replace (- k1 t * / DD c phi s t * (h * DD c phi s t)) with (- (h * k1 t)) by (field; lra). lra.
  Qed.
  Lemma deriv_psi : sc_deriv c s phi = psi s.
  Proof.
    pose proof s_pos as PS. pose proof here as HE. apply (exact_G c HC phi s PS) in HE. pose proof HC as (P0 & P1 & A0 & A1 & _). assert (HF : fraction phi) by (unfold fraction; lra). pose proof (DD_pos c HC phi s s HF PS PS) as PD.
    assert (K : forall sj al, 0 < al -> 0 < sj -> getR sj s al + (s - sj) * getdR sj s al = hh sj al s + s * dd sj al s s).
    { intros sj al HA HJ. pose proof (c56_dR sj s al HA HJ PS) as D1.
      assert (D2 : derivable_pt_lim (fun x => (x - sj) * getR sj x al) s (1 * getR sj s al + (s - sj) * getdR sj s al)).
      { apply (derivable_pt_lim_mult (fun x => x - sj) (fun x => getR sj x al)); [|exact D1]. eapply dpl_eq'; [apply (derivable_pt_lim_minus id (fun _ => sj)); [apply derivable_pt_lim_id|apply derivable_pt_lim_const]|ring]. }
      assert (D3 : derivable_pt_lim (fun x => (x - sj) * getR sj x al) s (hh sj al s + s * dd sj al s s)).
      { intros eps He. assert (CD : continuity_pt (fun x => hh sj al x + s * dd sj al s x) s).
        { destruct (dAB_pos (getQ al) sj s (getQ_range al HA) HJ PS) as [PA PB]. apply (continuity_pt_plus (hh sj al) (fun x => s * dd sj al s x)); [apply hh_cont; assumption|]. apply continuity_pt_scal. unfold dd. set (q := getQ al) in *. generalize (dA q sj s) PA (dB q sj s) PB. intros a Ha b Hb. unfold dA, dB in *.
          assert (a * ((1 - q) * s + q * sj) <> 0) by (apply Rmult_integral_contrapositive; split; lra). assert (b * (2 * q * s + (1 - 2 * q) * sj) <> 0) by (apply Rmult_integral_contrapositive; split; lra). reg; assumption. }
        unfold continuity_pt, continue_in, limit1_in, limit_in in CD. cbn in CD. unfold R_dist in CD. destruct (CD eps He) as (al' & PA & HA'). assert (PM : 0 < Rmin al' s) by (apply Rmin_glb_lt; assumption). exists (mkposreal _ PM). cbn. intros h NH Hh.
        pose proof (Rmin_l al' s). pose proof (Rmin_r al' s). assert (PT : 0 < s + h) by (apply Rabs_def2 in Hh; lra). rewrite !hh_R by assumption. pose proof (hh_diff sj al s (s + h) HA HJ PS PT) as E.
        replace (((s + h) * hh sj al (s + h) - s * hh sj al s) / h) with (hh sj al (s + h) + s * dd sj al s (s + h)) by (replace (hh sj al s) with (hh sj al (s + h) - (s + h - s) * dd sj al s (s + h)) by lra; field; assumption).
        apply HA'. split; [split; [exact I|intros C; apply NH; lra]|]. replace (s + h - s) with h by ring. lra. }
      rewrite <- (Rmult_1_l (getR sj s al)). apply (uniqueness_limite (fun x => (x - sj) * getR sj x al) s); assumption. }
    unfold sc_deriv. cbv zeta. rewrite (K _ _ A0 P0), (K _ _ A1 P1), !hh_R by assumption. unfold psi, GG, DD in *.
    set (a := hh (sig0 c) (alpha0 c) s) in *. set (b := hh (sig1 c) (alpha1 c) s) in *. set (u := dd (sig0 c) (alpha0 c) s s) in *. set (v := dd (sig1 c) (alpha1 c) s s) in *.
    replace ((1 - phi) * (a + s * u) + phi * (b + s * v)) with (s * ((1 - phi) * u + phi * v)) by (replace ((1 - phi) * (a + s * u) + phi * (b + s * v)) with (((1 - phi) * a + phi * b) + s * ((1 - phi) * u + phi * v)) by ring; rewrite HE; ring). field. split; lra.
  Qed.
  Lemma c56_deriv : derivable_pt_lim S phi (sc_deriv c s phi).
  Proof.
    rewrite deriv_psi. intros eps He. pose proof (continuity_pt_comp S psi phi S_cont psi_cont) as CC. unfold continuity_pt, continue_in, limit1_in, limit_in in CC. cbn in CC. unfold R_dist, comp in CC.
    destruct (CC eps He) as (a & PA & HA). set (m := Rmin a (Rmin d (Rmin phi (1 - phi)))). assert (PM : 0 < m) by (repeat apply Rmin_glb_lt; lra). exists (mkposreal _ PM). cbn. intros h NH Hh.
    assert (M1 : m <= a) by apply Rmin_l. assert (M3 : m <= d) by (unfold m; eapply Rle_trans; [apply Rmin_r|apply Rmin_l]).
    assert (M4 : m <= phi /\ m <= 1 - phi) by (split; unfold m; (eapply Rle_trans; [apply Rmin_r|]; eapply Rle_trans; [apply Rmin_r|]); [apply Rmin_l|apply Rmin_r]).
    rewrite quotient; [|assumption|lra|unfold fraction; apply Rabs_def2 in Hh; lra]. apply HA. split; [split; [exact I|intros C; apply NH; lra]|]. replace (phi + h - phi) with h by ring. lra.
  Qed.
End Deriv.

(** ** Iterations *)
Definition between (c : emt) (v : vec) : Prop := Forall (fun x => low c <= x <= high c) v.
Lemma zip_range c phi : forall s, sensible_emt c -> Forall fraction phi -> Forall (fun x => 0 < x) s -> between c (zipw (sc_step c) phi s).
Proof.
  induction phi as [|p phi IH]; intros [|x s] HC HF HP; try constructor; inversion HF; inversion HP; subst; [apply step_range; assumption|apply IH; assumption].
Qed.
Lemma between_pos c v : sensible_emt c -> between c v -> Forall (fun x => 0 < x) v.
Proof. intros HC H. destruct (low_high c HC) as (LP & _). eapply Forall_impl; [|exact H]. cbn. intros; lra. Qed.
Lemma loop_range k c tol : forall phi s, sensible_emt c -> Forall fraction phi -> Forall (fun x => 0 < x) s -> length phi = length s -> (0 < k)%nat ->
  between c (fst (sc_loop k c tol phi s)) /\ length (fst (sc_loop k c tol phi s)) = length phi.
Proof.
  induction k as [|k IH]; intros phi s HC HF HP HL HK; [lia|]. cbn [sc_loop]. pose proof (zip_range c phi s HC HF HP) as B. assert (L : length (zipw (sc_step c) phi s) = length phi) by (apply zipw_length; assumption).
  match goal with |- context [if ?b then _ else _] => destruct b end; [cbn [fst]; auto|]. destruct k as [|k]; [cbn [sc_loop fst]; auto|]. apply IH; auto; [apply between_pos with c; assumption|lia].
Qed.
Lemma unit_true phi : Forall fraction phi -> forallb in_unit phi = true.
Proof. intros H. apply forallb_forall. intros x Hx. rewrite Forall_forall in H. destruct (H x Hx). unfold in_unit. destruct (Rle_dec 0 x); [|lra]. destruct (Rle_dec x 1); [reflexivity|lra]. Qed.
Definition start_of (st : emst) (phi : vec) : vec :=
  match em_start st with Some s => s | None => [(vsum (map (fun p => fst (wiener_bounds (em_c st) p)) phi) + vsum (map (fun p => snd (wiener_bounds (em_c st) p)) phi)) / (2 * INR (length phi))] end.
Definition tol_of (st : emst) : R := match em_tol st with Some t => t | None => rel_tol (em_c st) * Rmin (sig0 (em_c st)) (sig1 (em_c st)) end.
Lemma transform_eq st phi p s : Forall fraction phi -> (0 < max_iter (em_c st))%nat -> bcast2 phi (start_of st phi) = Ok (p, s) ->
  sc_transform st phi = (mkEmst (em_c st) (Some (tol_of st)) (match em_start st with Some s => Some s | None => if snd (sc_loop (max_iter (em_c st)) (em_c st) (tol_of st) p s) then Some (fst (sc_loop (max_iter (em_c st)) (em_c st) (tol_of st) p s)) else None end),
    Ok (fst (sc_loop (max_iter (em_c st)) (em_c st) (tol_of st) p s))).
Proof.
  intros HF HK HB. unfold sc_transform. rewrite unit_true by assumption. fold (start_of st phi). fold (tol_of st). rewrite HB. destruct (max_iter (em_c st)) as [|k] eqn:E; [lia|]. destruct (sc_loop (S k) (em_c st) (tol_of st) p s) as [r cv]. reflexivity.
Qed.
Lemma transform_err st phi e : Forall fraction phi -> (0 < max_iter (em_c st))%nat -> bcast2 phi (start_of st phi) = Err e -> sc_transform st phi = (st, Err e).
Proof. intros HF HK HB. unfold sc_transform. rewrite unit_true by assumption. fold (start_of st phi). rewrite HB. destruct (max_iter (em_c st)) as [|k] eqn:E; [lia|reflexivity]. Qed.
Lemma vsum_pos' (f : R -> R) l : l <> [] -> (forall x, In x l -> 0 < f x) -> 0 < vsum (map f l).
Proof. destruct l as [|x l]; [congruence|]. intros _. revert x. induction l as [|y l IH]; intros x H; cbn; [pose proof (H x (or_introl eq_refl)); lra|]. pose proof (H x (or_introl eq_refl)). pose proof (IH y ltac:(intros; apply H; right; assumption)). cbn in *. lra. Qed.
Definition start_ok (st : emst) : Prop := match em_start st with None => True | Some s => Forall (fun x => 0 < x) s end.
Lemma start_pos st phi : sensible_emt (em_c st) -> start_ok st -> Forall fraction phi -> phi <> [] -> Forall (fun x => 0 < x) (start_of st phi).
Proof.
  intros HC HS HF HN. unfold start_of, start_ok in *. destruct (em_start st) as [s|]; [assumption|]. constructor; [|constructor]. destruct HC as (P0 & P1 & _).
  assert (N : 0 < INR (length phi)) by (apply lt_0_INR; destruct phi; [congruence|cbn; lia]). rewrite Forall_forall in HF.
  apply Rdiv_lt_0_compat; [|lra]. assert (LP : 0 < low (em_c st)) by (apply Rmin_glb_lt; assumption).
  pose proof (vsum_pos' (fun p => fst (wiener_bounds (em_c st) p)) phi HN). pose proof (vsum_pos' (fun p => snd (wiener_bounds (em_c st) p)) phi HN).
  assert (forall x, In x phi -> 0 < fst (wiener_bounds (em_c st) x) /\ 0 < snd (wiener_bounds (em_c st) x)).
  { intros x Hx. destruct (c49_wiener (em_c st) x P0 P1 (HF x Hx)) as (A & B & _). split; lra. }
  assert (0 < vsum (map (fun p => fst (wiener_bounds (em_c st) p)) phi)) by (apply H; intros x Hx; apply H1; assumption). assert (0 < vsum (map (fun p => snd (wiener_bounds (em_c st) p)) phi)) by (apply H0; intros x Hx; apply H1; assumption). lra.
Qed.
Lemma bcast_props (Pa Pb : R -> Prop) a b p s : Forall Pa a -> Forall Pb b -> bcast2 a b = Ok (p, s) -> Forall Pa p /\ Forall Pb s /\ length p = length s.
Proof.
  intros HA HB. unfold bcast2. destruct (Nat.eqb_spec (length a) (length b)) as [E|N]; [intros H; injection H as <- <-; auto|].
  assert (RP : forall (Pq : R -> Prop) n x, Pq x -> Forall Pq (vconst n x)) by (intros Pq n x Hx; apply Forall_forall; intros y Hy; apply repeat_spec in Hy; subst; assumption).
  destruct a as [|x [|x' a]].
  - destruct b as [|y [|y' b]]; try discriminate. intros H; injection H as <- <-. auto.
  - intros H; injection H as <- <-. inversion HA; subst. split; [apply RP; assumption|]. split; [assumption|apply vconst_length].
  - destruct b as [|y [|y' b]]; try discriminate. intros H; injection H as <- <-. inversion HB; subst. split; [assumption|]. split; [apply (RP Pb (S (S (length a)))); assumption|symmetry; apply (vconst_length (S (S (length a))) y)].
Qed.
Lemma transform_range st phi r : sensible_emt (em_c st) -> start_ok st -> Forall fraction phi -> phi <> [] -> snd (sc_transform st phi) = Ok r -> between (em_c st) r.
Proof.
  intros HC HS HF HN HR. assert (HK : (0 < max_iter (em_c st))%nat) by apply HC. destruct (bcast2 phi (start_of st phi)) as [[p s]|e] eqn:HB; [|rewrite (transform_err st phi e) in HR by assumption; discriminate].
  rewrite (transform_eq st phi p s) in HR by assumption. cbn [snd] in HR. injection HR as <-. destruct (bcast_props fraction (fun x => 0 < x) _ _ _ _ HF (start_pos st phi HC HS HF HN) HB) as (A & B & L). apply loop_range; assumption.
Qed.
Lemma step_inv st o : sensible_emt (em_c st) -> start_ok st -> good_op o -> sensible_emt (em_c (em_step st o)) /\ start_ok (em_step st o).
Proof.
  intros HC HS HG. destruct o as [phi|x|x|x|x]; cbn [em_step].
  - destruct HG as [HF HN]. assert (HK : (0 < max_iter (em_c st))%nat) by apply HC. destruct (bcast2 phi (start_of st phi)) as [[p s]|e] eqn:HB; [|rewrite (transform_err st phi e) by assumption; auto].
    rewrite (transform_eq st phi p s) by assumption. cbn [fst em_c]. split; [assumption|]. unfold start_ok in *. cbn [em_start]. destruct (em_start st) as [s'|] eqn:ES; [assumption|]. destruct (snd _); [|exact I].
    destruct (bcast_props fraction (fun x => 0 < x) _ _ _ _ HF (start_pos st phi HC ltac:(unfold start_ok; rewrite ES; exact I) HF HN) HB) as (A & B & L). apply between_pos with (em_c st); [assumption|]. apply loop_range; assumption.
  - destruct HC as (? & ? & ? & ? & ?). split; [split; [exact HG|]; cbn; auto|exact HS].
  - destruct HC as (? & ? & ? & ? & ?). split; [split; [|split; [exact HG|]]; cbn; auto|exact HS].
  - split; [exact HC|exact HS].
  - split; [exact HC|]. destruct x as [x|]; cbn; [constructor; [exact HG|constructor]|exact I].
Qed.
Lemma run_inv l : forall st, sensible_emt (em_c st) -> start_ok st -> Forall good_op l -> sensible_emt (em_c (em_run st l)) /\ start_ok (em_run st l).
Proof.
  induction l as [|o l IH]; intros st HC HS HG; [auto|]. inversion HG; subst. destruct (step_inv st o HC HS H1) as [A B]. unfold em_run. cbn [fold_left]. apply IH; assumption.
Qed.
Lemma c56_range c l phi r : sensible_emt c -> Forall good_op l -> Forall fraction phi -> phi <> [] ->
  let st := em_run (em_new c) l in snd (sc_transform st phi) = Ok r -> Forall (fun x => low (em_c st) <= x <= high (em_c st)) r.
Proof. intros HC HG HF HN. cbv zeta. destruct (run_inv l (em_new c) HC I HG) as [A B]. apply transform_range; assumption. Qed.
(** ** Spheres *)
Section Spheres.
  Context (c : emt) (HC : sensible_emt c) (HSp : spheres c) (phi : R) (HF : fraction phi).
  Notation s0 := (sig0 c). Notation s1 := (sig1 c).
  Notation wu := ((1 - phi) * s0 + phi * s1). Notation tl := ((1 - phi) * s1 + phi * s0).
  Lemma tl_range : low c <= tl <= high c. Proof. apply tilde_range; assumption. Qed.
  Lemma step_mobius s : 0 < s -> sc_step c phi s = (2 * wu * s + s0 * s1) / (2 * s + tl).
  Proof.
    intros HS. pose proof HC as (P0 & P1 & _). pose proof tl_range. destruct (low_high c HC) as (LP & _). destruct HSp as [E0 E1]. unfold sc_step, getR. rewrite E0, E1. destruct (Req_EM_T 1 1); [|lra]. cbv zeta.
    assert (D : (1 - phi) * (3 * s / (2 * s + s0)) + phi * (3 * s / (2 * s + s1)) = 3 * s * (2 * s + tl) / ((2 * s + s0) * (2 * s + s1))) by (field; lra).
    assert (N : (1 - phi) * s0 * (3 * s / (2 * s + s0)) + phi * s1 * (3 * s / (2 * s + s1)) = 3 * s * (2 * wu * s + s0 * s1) / ((2 * s + s0) * (2 * s + s1))) by (field; lra).
    rewrite D, N. field. repeat split; lra.
  Qed.
  Context (x : R) (HX : exact c phi x).
  Definition q : R := 1 - s0 * s1 / (tl * x).
  Lemma x_pos : 0 < x. Proof. apply HX. Qed.
  Lemma x_fixed : 2 * wu * x + s0 * s1 = x * (2 * x + tl).
  Proof.
    pose proof x_pos as PX. destruct HX as [_ E]. apply (step_fixed c HC phi x HF PX) in E. rewrite step_mobius in E by assumption. pose proof tl_range. destruct (low_high c HC) as (LP & _).
    apply (f_equal (fun y => y * (2 * x + tl))) in E. unfold Rdiv in E. rewrite Rmult_assoc, Rinv_l, Rmult_1_r in E by lra. assumption.
  Qed.
  Lemma gap_ge : s0 * s1 <= wu * tl.
  Proof. destruct HF as [F0 F1]. pose proof (pow2_ge_0 (s0 - s1)) as G. assert (E : wu * tl - s0 * s1 = (1 - phi) * phi * (s0 - s1) ^ 2) by ring. assert (0 <= (1 - phi) * phi) by nra. assert (0 <= (1 - phi) * phi * (s0 - s1) ^ 2) by (apply Rmult_le_pos; assumption). lra. Qed.
  Lemma q_eq : q = (2 * wu * tl - 2 * (s0 * s1)) / (tl * (2 * x + tl)).
  Proof.
    unfold q. pose proof x_pos as PX. pose proof tl_range. destruct (low_high c HC) as (LP & _). pose proof x_fixed as FX. apply (Rmult_eq_reg_r (tl * x * (2 * x + tl))); [|repeat (apply Rmult_integral_contrapositive; split); lra].
    replace ((1 - s0 * s1 / (tl * x)) * (tl * x * (2 * x + tl))) with ((tl * x - s0 * s1) * (2 * x + tl)) by (field; lra). replace ((2 * wu * tl - 2 * (s0 * s1)) / (tl * (2 * x + tl)) * (tl * x * (2 * x + tl))) with ((2 * wu * tl - 2 * (s0 * s1)) * x) by (field; lra).
    assert (E : 2 * wu * x = x * (2 * x + tl) - s0 * s1) by lra. replace ((2 * wu * tl - 2 * (s0 * s1)) * x) with (tl * (2 * wu * x) - 2 * (s0 * s1) * x) by ring. rewrite E. ring.
  Qed.
  Lemma q_range : 0 <= q < 1.
  Proof.
    pose proof x_pos as PX. pose proof tl_range. destruct (low_high c HC) as (LP & _). pose proof HC as (P0 & P1 & _). split.
    - rewrite q_eq. apply Rmult_le_pos; [pose proof gap_ge; lra|]. left. apply Rinv_0_lt_compat. apply Rmult_lt_0_compat; lra.
    - unfold q. assert (0 < s0 * s1 / (tl * x)); [|lra]. apply Rdiv_lt_0_compat; apply Rmult_lt_0_compat; lra.
  Qed.
  Lemma contract s : 0 < s -> Rabs (sc_step c phi s - x) <= q * Rabs (s - x).
  Proof.
    intros HS. pose proof x_pos as PX. pose proof tl_range. destruct (low_high c HC) as (LP & _). rewrite step_mobius by assumption. pose proof x_fixed as FX.
    assert (E : (2 * wu * s + s0 * s1) / (2 * s + tl) - x = (s - x) * ((2 * wu * tl - 2 * (s0 * s1)) / ((2 * s + tl) * (2 * x + tl)))).
    { apply (Rmult_eq_reg_r ((2 * s + tl) * (2 * x + tl))); [|apply Rmult_integral_contrapositive; split; lra].
      replace (((2 * wu * s + s0 * s1) / (2 * s + tl) - x) * ((2 * s + tl) * (2 * x + tl))) with ((2 * wu * s + s0 * s1) * (2 * x + tl) - (x * (2 * x + tl)) * (2 * s + tl)) by (field; lra).
      replace ((s - x) * ((2 * wu * tl - 2 * (s0 * s1)) / ((2 * s + tl) * (2 * x + tl))) * ((2 * s + tl) * (2 * x + tl))) with ((s - x) * (2 * wu * tl - 2 * (s0 * s1))) by (field; lra).
      rewrite <- FX. ring. }
    rewrite E, Rabs_mult, Rmult_comm. apply Rmult_le_compat_r; [apply Rabs_pos|]. pose proof gap_ge as GG. assert (D1 : 0 < tl * (2 * x + tl)) by (apply Rmult_lt_0_compat; lra).
    assert (D2 : tl * (2 * x + tl) <= (2 * s + tl) * (2 * x + tl)) by (apply Rmult_le_compat_r; lra). rewrite Rabs_pos_eq; [|apply Rmult_le_pos; [lra|left; apply Rinv_0_lt_compat; lra]]. rewrite q_eq. unfold Rdiv. apply Rmult_le_compat_l; [lra|]. apply Rinv_le_contravar; assumption.
  Qed.
  (** A step shorter than the tolerance ends near the solution. *)
  Lemma stop_error s tol : 0 < s -> Rabs (sc_step c phi s - s) <= tol -> Rabs (sc_step c phi s - x) <= tol * (high c / low c - 1).
  Proof.
    intros HS HT. pose proof (contract s HS) as CT. pose proof q_range as QR. set (t := sc_step c phi s) in *.
    assert (TR : Rabs (s - x) <= Rabs (t - s) + Rabs (t - x)). { replace (s - x) with (- (t - s) + (t - x)) by ring. eapply Rle_trans; [apply Rabs_triang|]. rewrite Rabs_Ropp. lra. }
    pose proof x_pos as PX. pose proof tl_range as TL. destruct (low_high c HC) as (LP & _). pose proof HC as (P0 & P1 & _).
    assert (XR : low c <= x <= high c). { destruct HX as [_ E]. apply (step_fixed c HC phi x HF PX) in E. rewrite <- E. apply step_range; assumption. }
    assert (LH : s0 * s1 = low c * high c) by (unfold low, high, Rmin, Rmax; destruct (Rle_dec s0 s1); ring).
    assert (Q1 : (1 - q) * (high c / low c) >= 1).
    { unfold q. replace (1 - (1 - s0 * s1 / (tl * x))) with (s0 * s1 / (tl * x)) by ring. rewrite LH. replace (low c * high c / (tl * x) * (high c / low c)) with (high c * high c / (tl * x)) by (field; lra).
      apply Rle_ge. apply (Rmult_le_reg_r (tl * x)); [apply Rmult_lt_0_compat; lra|]. unfold Rdiv. rewrite Rmult_assoc, Rinv_l, Rmult_1_r, Rmult_1_l by (apply Rmult_integral_contrapositive; split; lra). apply Rmult_le_compat; lra. }
    assert (K : (1 - q) * Rabs (t - x) <= q * tol) by (pose proof (Rmult_le_compat_l q _ _ (proj1 QR) TR); pose proof (Rmult_le_compat_l q _ _ (proj1 QR) HT); lra).
    assert (T0 : 0 <= tol) by (pose proof (Rabs_pos (t - s)); lra). set (rho := high c / low c) in *.
    assert (K2 : (1 - q) * Rabs (t - x) <= (1 - q) * (tol * (rho - 1))). { assert (tol * q <= tol * ((1 - q) * (rho - 1))) by (apply Rmult_le_compat_l; lra). lra. }
    apply (Rmult_le_reg_l (1 - q)); [lra|assumption].
  Qed.
  Fixpoint sc_iter (k : nat) (s : R) : R := match k with O => s | S k' => sc_iter k' (sc_step c phi s) end.
  Lemma step_pos s : 0 < s -> 0 < sc_step c phi s.
  Proof. intros HS. pose proof (step_range c HC phi s HF HS). destruct (low_high c HC) as (LP & _). lra. Qed.
  Lemma iter_pos k : forall s, 0 < s -> 0 < sc_iter k s.
  Proof. induction k as [|k IH]; intros s HS; [assumption|]. cbn. apply IH, step_pos. assumption. Qed.
  Lemma iter_error k : forall s, 0 < s -> Rabs (sc_iter k s - x) <= q ^ k * Rabs (s - x).
  Proof.
    induction k as [|k IH]; intros s HS; [cbn; lra|]. cbn [sc_iter pow]. eapply Rle_trans; [apply IH, step_pos, HS|]. pose proof (contract s HS). pose proof q_range as [Q0 _]. pose proof (pow_le q k Q0).
    replace (q * q ^ k * Rabs (s - x)) with (q ^ k * (q * Rabs (s - x))) by ring. apply Rmult_le_compat_l; assumption.
  Qed.
  Lemma iter_S k : forall s, sc_iter (S k) s = sc_step c phi (sc_iter k s).
  Proof. induction k as [|k IH]; intros s; [reflexivity|]. cbn [sc_iter] in *. apply IH. Qed.
  Lemma iter_settles s tol : 0 < s -> 0 < tol -> exists K, forall k, (K <= k)%nat -> Rabs (sc_step c phi (sc_iter k s) - sc_iter k s) <= tol.
  Proof.
    intros HS HT. pose proof q_range as [Q0 Q1]. set (D := Rabs (s - x)). assert (PD : 0 <= D) by apply Rabs_pos.
    destruct (pow_lt_1_zero q ltac:(rewrite Rabs_pos_eq; assumption) (tol / (2 * D + 1)) ltac:(apply Rdiv_lt_0_compat; lra)) as [K HK]. exists K. intros k Hk. specialize (HK k Hk). pose proof (pow_le q k Q0) as PQ. rewrite Rabs_pos_eq in HK by assumption.
    pose proof (iter_error k s HS) as E1. pose proof (iter_error (S k) s HS) as E2. rewrite iter_S in E2. fold D in E1, E2. set (u := sc_iter k s) in *. set (v := sc_step c phi u) in *.
    assert (B : Rabs (v - u) <= Rabs (v - x) + Rabs (u - x)). { replace (v - u) with ((v - x) + - (u - x)) by ring. eapply Rle_trans; [apply Rabs_triang|]. rewrite Rabs_Ropp. lra. }
    assert (E3 : q ^ S k * D <= q ^ k * D) by (apply Rmult_le_compat_r; [assumption|]; cbn; nra).
    apply (Rmult_lt_compat_r (2 * D + 1)) in HK; [|lra]. unfold Rdiv in HK. rewrite Rmult_assoc, Rinv_l, Rmult_1_r in HK by lra. nra.
  Qed.
End Spheres.
(** The whole loop. *)
Lemma loop_settles c tol : sensible_emt c -> spheres c -> 0 < tol -> forall phi s, Forall fraction phi -> Forall (fun x => 0 < x) s -> length phi = length s ->
  exists K, forall k i, (K <= k)%nat -> (i < length phi)%nat -> Rabs (sc_step c (nth i phi 0) (sc_iter c (nth i phi 0) k (nth i s 0)) - sc_iter c (nth i phi 0) k (nth i s 0)) <= tol.
Proof.
  intros HC HSp HT. induction phi as [|p phi IH]; intros [|y s] HF HP HL; cbn in HL; try lia; [exists 0%nat; intros k i _ Hi; cbn in Hi; lia|].
  inversion HF; inversion HP; subst. destruct (IH s H2 H6 ltac:(lia)) as [K1 HK1]. destruct (c56_exists c HC p H1) as (x & HX & _). destruct (iter_settles c HC HSp p H1 x HX y tol H5 HT) as [K2 HK2].
  exists (Nat.max K1 K2). intros k [|i] Hk Hi; cbn [nth]; [apply HK2; lia|apply HK1; [lia|cbn in Hi; lia]].
Qed.
Lemma nth_zipw (f : R -> R -> R) a : forall b i, length a = length b -> (i < length a)%nat -> nth i (zipw f a b) 0 = f (nth i a 0) (nth i b 0).
Proof. induction a as [|x a IH]; intros [|y b] i L Hi; cbn in L, Hi; try lia. destruct i as [|i]; [reflexivity|]. cbn. apply IH; lia. Qed.
Lemma loop_stop c tol : sensible_emt c -> forall k phi s, Forall fraction phi -> Forall (fun x => 0 < x) s -> length phi = length s ->
  snd (sc_loop k c tol phi s) = true -> exists u, length u = length phi /\ Forall (fun x => 0 < x) u /\ fst (sc_loop k c tol phi s) = zipw (sc_step c) phi u /\
    forall i, (i < length phi)%nat -> Rabs (sc_step c (nth i phi 0) (nth i u 0) - nth i u 0) <= tol.
Proof.
  intros HC. induction k as [|k IH]; intros phi s HF HP HL HT; [discriminate|]. cbn [sc_loop] in *. match goal with |- context [if ?b then _ else _] => destruct b eqn:EB end.
  - exists s. split; [congruence|]. split; [assumption|]. split; [reflexivity|]. intros i Hi. rewrite forallb_forall in EB. assert (LZ : length (zipw (sc_step c) phi s) = length phi) by (apply zipw_length; assumption).
    specialize (EB (nth i (vsub (zipw (sc_step c) phi s) s) 0)). rewrite nth_vsub in EB by (rewrite ?LZ; congruence). rewrite nth_zipw in EB by congruence. destruct (Rle_dec _ tol) in EB; [assumption|]. discriminate EB.
    rewrite <- (nth_zipw (sc_step c)) by congruence. rewrite <- nth_vsub by (rewrite ?LZ; congruence). apply nth_In. unfold vsub. rewrite zipw_length; congruence.
  - apply IH; try assumption; [apply between_pos with c; [assumption|]; apply zip_range; assumption|rewrite zipw_length; [reflexivity|assumption]].
Qed.
Lemma loop_ends c tol : forall k phi s, length phi = length s ->
  (forall i, (i < length phi)%nat -> Rabs (sc_step c (nth i phi 0) (sc_iter c (nth i phi 0) k (nth i s 0)) - sc_iter c (nth i phi 0) k (nth i s 0)) <= tol) -> snd (sc_loop (S k) c tol phi s) = true.
Proof.
  induction k as [|k IH]; intros phi s HL H; [|remember (S k) as k' eqn:Ek]; cbn [sc_loop]; (match goal with |- context [if ?b then _ else _] => destruct b eqn:EB end; [reflexivity|]).
  - exfalso. rewrite <- not_true_iff_false in EB. apply EB, forallb_forall. intros y Hy. destruct (In_nth _ _ 0 Hy) as (i & Hi & <-). assert (LZ : length (zipw (sc_step c) phi s) = length phi) by (apply zipw_length; assumption).
    assert (Hi' : (i < length phi)%nat) by (unfold vsub in Hi; rewrite zipw_length in Hi by congruence; lia). rewrite nth_vsub by (rewrite ?LZ; congruence). rewrite nth_zipw by assumption. specialize (H i Hi'). cbn in H. destruct (Rle_dec _ tol); [reflexivity|contradiction].
  - subst k'. assert (LZ : length (zipw (sc_step c) phi s) = length phi) by (apply zipw_length; assumption). apply IH; [congruence|]. intros i Hi. rewrite nth_zipw by assumption. apply (H i Hi).
Qed.
Lemma c56_spheres c phi : sensible_emt c -> spheres c -> 0 < rel_tol c -> Forall fraction phi -> phi <> [] ->
  exists K, forall k, (K <= k)%nat -> exists r, snd (sc_transform (em_new (mkEmt (sig0 c) (sig1 c) (alpha0 c) (alpha1 c) (rel_tol c) k)) phi) = Ok r /\ length r = length phi /\
    forall i x, (i < length phi)%nat -> exact c (nth i phi 0) x -> Rabs (nth i r 0 - x) <= rel_tol c * (high c - low c).
Proof.
  intros HC HSp HT HF HN. destruct (low_high c HC) as (LP & _). set (tol := rel_tol c * low c). assert (PT : 0 < tol) by (apply Rmult_lt_0_compat; assumption).
  set (start := vconst (length phi) (nth 0 (start_of (em_new c) phi) 0)). assert (SP := start_pos (em_new c) phi HC I HF HN). cbn [start_of em_new em_start em_c] in SP.
  assert (PS : Forall (fun x => 0 < x) start). { apply Forall_forall. intros y Hy. apply repeat_spec in Hy. subst y. unfold start_of, em_new. cbn [em_start em_c nth]. inversion SP; subst; assumption. }
  assert (LS : length phi = length start) by (unfold start; rewrite vconst_length; reflexivity).
  destruct (loop_settles c tol HC HSp PT phi start HF PS LS) as [K HK]. exists (S K). intros k Hk. set (ck := mkEmt (sig0 c) (sig1 c) (alpha0 c) (alpha1 c) (rel_tol c) k).
  assert (HB : bcast2 phi (start_of (em_new ck) phi) = Ok (phi, start)).
  { unfold bcast2. change (start_of (em_new ck) phi) with (start_of (em_new c) phi). unfold start, start_of, em_new. cbn [em_start em_c nth length]. destruct (Nat.eqb_spec (length phi) 1) as [E|N].
    - destruct phi as [|p [|]]; try discriminate. reflexivity.
    - destruct phi as [|p [|]]; try congruence; try (cbn in N; lia); reflexivity. }
  rewrite (transform_eq (em_new ck) phi phi start HF ltac:(cbn; lia) HB). cbn [snd]. eexists. split; [reflexivity|]. cbn [em_new em_c]. change (tol_of (em_new ck)) with tol. change (max_iter ck) with k.
  assert (EL : forall k' s, sc_loop k' ck tol phi s = sc_loop k' c tol phi s). { assert (ES : forall p s, sc_step ck p s = sc_step c p s) by reflexivity. induction k' as [|k' IH]; intros s; [reflexivity|]. cbn [sc_loop]. change (zipw (sc_step ck) phi s) with (zipw (sc_step c) phi s). rewrite IH. reflexivity. }
  unfold em_new. cbn [em_c]. rewrite EL. destruct k as [|k]; [lia|]. destruct (loop_range (S k) c tol phi start HC HF PS LS ltac:(lia)) as [_ LR]. split; [assumption|].
  assert (ST : snd (sc_loop (S k) c tol phi start) = true) by (apply loop_ends; [assumption|]; intros i Hi; apply HK; [lia|assumption]).
  destruct (loop_stop c tol HC (S k) phi start HF PS LS ST) as (u & Lu & Pu & Eu & Hu). intros i x Hi HX. rewrite Eu, nth_zipw by (try assumption; congruence). rewrite Forall_forall in HF, Pu.
  assert (PUI : 0 < nth i u 0) by (apply Pu, nth_In; lia).
  pose proof (stop_error c HC HSp (nth i phi 0) (HF _ (nth_In _ 0 Hi)) x HX (nth i u 0) tol PUI (Hu i Hi)) as B. eapply Rle_trans; [exact B|]. unfold tol. right. field. lra.
Qed.
(** ** Boundary values and findings *)
Lemma c56_ends c s : sensible_emt c -> 0 < s -> sc_step c 0 s = sig0 c /\ sc_step c 1 s = sig1 c.
Proof. intros HC. apply step_ends. assumption. Qed.
Lemma loop1_stop k c tol p s : Rabs (sc_step c p s - s) <= tol -> sc_loop (S k) c tol [p] [s] = ([sc_step c p s], true).
Proof. intros H. cbn. destruct (Rle_dec _ tol); [reflexivity|contradiction]. Qed.
Lemma loop1_go k c tol p s : tol < Rabs (sc_step c p s - s) -> sc_loop (S k) c tol [p] [s] = sc_loop k c tol [p] [sc_step c p s].
Proof. intros H. cbn. destruct (Rle_dec _ tol); [lra|reflexivity]. Qed.
Definition c12 : emt := mkEmt 1 2 1 1 1 50.
Lemma c12_ok : sensible_emt c12 /\ spheres c12.
Proof. split; [unfold sensible_emt, c12; cbn; repeat split; lra || lia|split; reflexivity]. Qed.
Lemma half_fraction : Forall fraction [1 / 2]. Proof. constructor; [unfold fraction; lra|constructor]. Qed.
Lemma zero_fraction : Forall fraction [0]. Proof. constructor; [unfold fraction; lra|constructor]. Qed.
Lemma step12 s : 0 < s -> sc_step c12 (1 / 2) s = (3 * s + 2) / (2 * s + 3 / 2).
Proof. intros H. destruct c12_ok as [A B]. rewrite (step_mobius c12 A B) by (try assumption; unfold fraction; lra). cbn [sig0 sig1 c12]. f_equal; lra. Qed.
Lemma c56_history : exists c phi phi' r r', sensible_emt c /\ Forall good_op [EmT phi'] /\ Forall fraction phi /\
  snd (sc_transform (em_new c) phi) = Ok r /\ snd (sc_transform (em_run (em_new c) [EmT phi']) phi) = Ok r' /\ r <> r'.
Proof.
  destruct c12_ok as [HC _]. exists c12, [1 / 2], [0], [75 / 52], [10 / 7]. split; [assumption|]. split; [repeat constructor; try discriminate; unfold fraction; lra|]. split; [apply half_fraction|].
  assert (T1 : tol_of (em_new c12) = 1) by (unfold tol_of, em_new, c12; cbn; rewrite Rmin_left by lra; lra).
  split; [|split].
  - rewrite (transform_eq _ _ [1 / 2] [17 / 12]); [|apply half_fraction|cbn; lia|].
    + change (max_iter (em_c (em_new c12))) with 50%nat. change (em_c (em_new c12)) with c12. rewrite T1. assert (E : sc_step c12 (1 / 2) (17 / 12) = 75 / 52) by (rewrite step12 by lra; field). rewrite loop1_stop; rewrite E; [reflexivity|]. apply Rabs_le. lra.
    + unfold start_of, em_new, wiener_bounds. cbn. unfold bcast2. cbn. do 3 f_equal. field.
  - assert (EZ : em_run (em_new c12) [EmT [0]] = mkEmst c12 (Some 1) (Some [1])).
    { cbn [em_run fold_left em_step]. rewrite (transform_eq _ _ [0] [1]); [|apply zero_fraction|cbn; lia|].
      - change (max_iter (em_c (em_new c12))) with 50%nat. change (em_c (em_new c12)) with c12. rewrite T1. destruct (step_ends c12 HC 1 ltac:(lra)) as [E _]. cbn [c12 sig0] in E. rewrite loop1_stop; rewrite E; [reflexivity|]. rewrite Rminus_diag_eq, Rabs_R0 by reflexivity. lra.
      - unfold start_of, em_new, wiener_bounds. cbn. unfold bcast2. cbn. do 3 f_equal. field. }
    rewrite EZ, (transform_eq _ _ [1 / 2] [1]); [|apply half_fraction|cbn; lia|reflexivity]. cbn [tol_of em_tol em_c snd]. change (max_iter c12) with 50%nat. assert (E : sc_step c12 (1 / 2) 1 = 10 / 7) by (rewrite step12 by lra; field). rewrite loop1_stop; rewrite E; [reflexivity|]. apply Rabs_le. lra.
  - intros H. injection H as H. lra.
Qed.
Definition c100 : emt := mkEmt 100 100 1 1 (/ 1000) 50.
Lemma c56_tolerance : exists c l phi r x, sensible_emt c /\ spheres c /\ Forall good_op l /\ fraction phi /\
  let st := em_run (em_new c) l in snd (sc_transform st [phi]) = Ok r /\ exact (em_c st) phi x /\ rel_tol (em_c st) * (high (em_c st) - low (em_c st)) < Rabs (nth 0 r 0 - x).
Proof.
  set (cc := mkEmt 1 2 1 1 (/ 1000) 50). assert (HC : sensible_emt cc /\ spheres cc) by (split; [unfold sensible_emt, cc; cbn; repeat split; lra || lia|split; reflexivity]). destruct HC as [HC HSp].
  assert (H100 : sensible_emt c100) by (unfold sensible_emt, c100; cbn; repeat split; lra || lia). assert (HF : fraction (1 / 2)) by (unfold fraction; lra).
  destruct (c56_exists cc HC (1 / 2) HF) as (x & HX & XR). exists c100, [EmT [0]; EmSig0 1; EmSig1 2], (1 / 2), [5236 / 3625], x. split; [assumption|]. split; [split; reflexivity|]. split; [repeat constructor; try discriminate; try (unfold fraction); cbn; lra|]. split; [assumption|]. cbv zeta.
  assert (ER : em_run (em_new c100) [EmT [0]; EmSig0 1; EmSig1 2] = mkEmst cc (Some (1 / 10)) (Some [100])).
  { cbn [em_run fold_left em_step]. assert (T1 : tol_of (em_new c100) = 1 / 10) by (unfold tol_of, em_new, c100; cbn; rewrite Rmin_left by lra; lra). rewrite (transform_eq _ _ [0] [100]); [|apply zero_fraction|cbn; lia|].
    - change (max_iter (em_c (em_new c100))) with 50%nat. change (em_c (em_new c100)) with c100. rewrite T1. destruct (step_ends c100 H100 100 ltac:(lra)) as [E _]. cbn [c100 sig0] in E. rewrite loop1_stop; rewrite E; [reflexivity|]. rewrite Rminus_diag_eq, Rabs_R0 by reflexivity. lra.
    - unfold start_of, em_new, wiener_bounds. cbn. unfold bcast2. cbn. do 3 f_equal. field. }
  rewrite ER. cbn [em_c]. assert (SM : forall s, 0 < s -> sc_step cc (1 / 2) s = (3 * s + 2) / (2 * s + 3 / 2)) by (intros s Hs; rewrite (step_mobius cc HC HSp) by assumption; cbn [sig0 sig1 cc]; f_equal; lra).
  split; [|split; [assumption|]].
  - rewrite (transform_eq _ _ [1 / 2] [100]); [|apply half_fraction|cbn; lia|reflexivity]. cbn [tol_of em_tol em_c snd]. change (max_iter cc) with 50%nat.
    assert (E1 : sc_step cc (1 / 2) 100 = 604 / 403) by (rewrite SM by lra; field). assert (E2 : sc_step cc (1 / 2) (604 / 403) = 5236 / 3625) by (rewrite SM by lra; field).
    rewrite loop1_go; rewrite E1; [|rewrite Rabs_left; lra]. rewrite loop1_stop; rewrite E2; [reflexivity|]. apply Rabs_le. lra.
  - pose proof (x_fixed cc HC HSp (1 / 2) HF x HX) as FX. cbn [cc sig0 sig1] in FX. unfold low, high in *. cbn [cc sig0 sig1 rel_tol nth] in *. rewrite Rmin_left, Rmax_right in * by lra.
    assert (X2 : x < 14433 / 10000) by (destruct (Rlt_le_dec x (14433 / 10000)); [assumption|exfalso; nra]). rewrite Rabs_pos_eq by lra. lra.
Qed.
Lemma c56_outside st phi : forallb in_unit phi = false -> (0 < max_iter (em_c st))%nat -> em_start st = None -> exists r, snd (sc_transform st phi) = Ok r /\ length r = 1%nat.
Proof.
  intros HU HK HS. unfold sc_transform. rewrite HU, HS. destruct (max_iter (em_c st)) as [|k] eqn:E; [lia|]. cbn [bcast2 length Nat.eqb]. match goal with |- context [sc_loop ?a ?b ?t ?p ?s] => assert (L : forall k' s', length s' = 1%nat -> length (fst (sc_loop k' b t p s')) = 1%nat) end.
  { induction k' as [|k' IH]; intros s' L; [assumption|]. cbn [sc_loop]. destruct s' as [|y [|]]; try discriminate. match goal with |- context [if ?b then _ else _] => destruct b end; [reflexivity|]. apply IH. reflexivity. }
  match goal with |- context [sc_loop ?a ?b ?t ?p ?s] => specialize (L a s eq_refl); destruct (sc_loop a b t p s) as [r cv] end. eexists. split; [reflexivity|exact L].
Qed.
Lemma c56_no_iterations c phi : max_iter c = 0%nat -> snd (sc_transform (em_new c) phi) = Err GenericException.
Proof. intros H. unfold sc_transform, em_new. cbn [em_c]. rewrite H. reflexivity. Qed.
Lemma bcast_len n a b : length a = n -> (length b = 1 \/ length b = n)%nat -> (0 < n)%nat -> exists p s, bcast2 a b = Ok (p, s) /\ length p = n /\ length s = n.
Proof.
  intros HA HB HN. unfold bcast2. destruct (Nat.eqb_spec (length a) (length b)) as [E|N]; [exists a, b; split; [reflexivity|lia]|]. destruct HB as [HB|HB]; [|lia]. destruct b as [|y [|]]; try discriminate.
  destruct a as [|x [|x' a]]; cbn in HA, N; try lia. exists (x :: x' :: a), (vconst n y). rewrite vconst_length. cbn [length]. rewrite HA. split; [reflexivity|]. split; reflexivity.
Qed.

Definition start_len (n : nat) (st : emst) : Prop := match em_start st with None => True | Some s => (length s = 1 \/ length s = n)%nat end.
Lemma start_of_len n st phi : start_len n st -> (length (start_of st phi) = 1 \/ length (start_of st phi) = n)%nat.
Proof. unfold start_len, start_of. destruct (em_start st); [auto|]. intros _. left. reflexivity. Qed.
Lemma loop_len k c tol : forall phi s, length phi = length s -> length (fst (sc_loop k c tol phi s)) = length phi.
Proof.
  induction k as [|k IH]; intros phi s L; [symmetry; exact L|]. cbn [sc_loop]. assert (LZ : length (zipw (sc_step c) phi s) = length phi) by (apply zipw_length; assumption).
  match goal with |- context [if ?b then _ else _] => destruct b end; [exact LZ|]. apply IH. congruence.
Qed.
Lemma c56_total c l phi n : sensible_emt c -> Forall good_op l -> Forall (sized n) l -> Forall fraction phi -> length phi = n -> (0 < n)%nat ->
  exists r, snd (sc_transform (em_run (em_new c) l) phi) = Ok r /\ length r = n.
Proof.
  intros HC HG HZ HF HL HN. assert (INV : forall l st, sensible_emt (em_c st) -> start_ok st -> start_len n st -> Forall good_op l -> Forall (sized n) l -> start_len n (em_run st l)).
  { clear l HG HZ. induction l as [|o l IH]; intros st SC SO SL G Z; [exact SL|]. inversion G; inversion Z; subst. destruct (step_inv st o SC SO H1) as [A B]. unfold em_run. cbn [fold_left]. apply IH; try assumption. clear A B IH.
    destruct o as [p|x|x|x|x]; cbn [em_step]; try exact SL; [|destruct x; [left; reflexivity|exact I]]. destruct H1 as [F1 N1]. cbn in H5. destruct (bcast_len (length phi) p (start_of st p) H5 (start_of_len _ st p SL) HN) as (p' & s' & EB & L1 & L2).
    rewrite (transform_eq st p p' s' F1 ltac:(apply SC) EB). cbn [fst]. unfold start_len in *. cbn [em_start]. destruct (em_start st) eqn:ES; [assumption|]. destruct (snd _); [|exact I]. right. rewrite loop_len; congruence. }
  destruct (run_inv l (em_new c) HC I HG) as [A _]. specialize (INV l (em_new c) HC I I HG HZ). set (st := em_run (em_new c) l) in *. destruct (bcast_len n phi (start_of st phi) HL (start_of_len _ st phi INV) HN) as (p' & s' & EB & L1 & L2).
  rewrite (transform_eq st phi p' s' HF ltac:(apply A) EB). cbn [snd]. eexists. split; [reflexivity|]. rewrite loop_len; congruence.
Qed.
Lemma c56_fixed c phi s : sensible_emt c -> 0 < rel_tol c -> fraction phi -> exact c phi s -> snd (sc_transform (em_run (em_new c) [EmStart (Some s)]) [phi]) = Ok [s].
Proof.
  intros HC HT HF HX. pose proof (proj1 HX) as PS. destruct (low_high c HC) as (LP & _). cbn [em_run fold_left em_step option_map em_new em_c em_tol]. rewrite (transform_eq _ _ [phi] [s]); [|constructor; [assumption|constructor]|apply HC|reflexivity]. cbn [snd em_c tol_of em_tol].
  pose proof (proj2 HX) as E. apply (step_fixed c HC phi s HF PS) in E. destruct HC as (_ & _ & _ & _ & HK). destruct (max_iter c) as [|k]; [lia|]. rewrite loop1_stop; rewrite E; [reflexivity|]. rewrite Rminus_diag_eq, Rabs_R0 by reflexivity. apply Rmult_le_pos; [lra|]. unfold low in LP. lra.
Qed.
Lemma c56_bruggeman c phi s : sensible_emt c -> spheres c -> 0 < s ->
  (exact c phi s <-> (1 - phi) * ((sig0 c - s) / (sig0 c + 2 * s)) + phi * ((sig1 c - s) / (sig1 c + 2 * s)) = 0).
Proof.
  intros (P0 & P1 & _) [E0 E1] HS. unfold exact, defect, getR. rewrite E0, E1. destruct (Req_EM_T 1 1); [|lra].
  replace ((1 - phi) * (s - sig0 c) * (3 * s / (2 * s + sig0 c)) + phi * (s - sig1 c) * (3 * s / (2 * s + sig1 c))) with (- (3 * s) * ((1 - phi) * ((sig0 c - s) / (sig0 c + 2 * s)) + phi * ((sig1 c - s) / (sig1 c + 2 * s)))) by (field; lra).
  split; [intros [_ H]|intros ->; split; [assumption|ring]]. apply Rmult_integral in H. destruct H as [H|H]; [lra|exact H].
Qed.
Lemma loop_last k c tol : forall phi s, sensible_emt c -> Forall fraction phi -> Forall (fun x => 0 < x) s -> length phi = length s -> (0 < k)%nat ->
  exists u, Forall (fun x => 0 < x) u /\ length u = length phi /\ fst (sc_loop k c tol phi s) = zipw (sc_step c) phi u.
Proof.
  induction k as [|k IH]; intros phi s HC HF HP HL HK; [lia|]. cbn [sc_loop]. pose proof (zip_range c phi s HC HF HP) as B. assert (L : length (zipw (sc_step c) phi s) = length phi) by (apply zipw_length; assumption).
  match goal with |- context [if ?b then _ else _] => destruct b end; [exists s; cbn [fst]; auto|]. destruct k as [|k]; [exists s; cbn [sc_loop fst]; auto|]. apply IH; auto; [apply between_pos with c; assumption|lia].
Qed.
Lemma c56_pure c l phi r i : sensible_emt c -> Forall good_op l -> Forall (sized (length phi)) l -> Forall fraction phi -> (i < length phi)%nat ->
  let st := em_run (em_new c) l in snd (sc_transform st phi) = Ok r ->
  (nth i phi 0 = 0 -> nth i r 0 = sig0 (em_c st)) /\ (nth i phi 0 = 1 -> nth i r 0 = sig1 (em_c st)).
Proof.
  intros HC HG HZ HF HI. cbv zeta. intros HR. destruct (run_inv l (em_new c) HC I HG) as [A B]. destruct (c56_total c l phi (length phi) HC HG HZ HF eq_refl ltac:(lia)) as (r' & E' & L'). rewrite HR in E'. injection E' as <-.
  set (st := em_run (em_new c) l) in *. destruct (bcast2 phi (start_of st phi)) as [[p s]|e] eqn:HB; [|rewrite (transform_err st phi e HF ltac:(apply A) HB) in HR; discriminate].
  assert (HN : phi <> []) by (intros ->; cbn in HI; lia). destruct (bcast_props fraction (fun x => 0 < x) _ _ _ _ HF (start_pos st phi A B HF HN) HB) as (Fp & Ps & L).
  rewrite (transform_eq st phi p s HF ltac:(apply A) HB) in HR. cbn [snd] in HR. injection HR as HR. destruct (loop_last (max_iter (em_c st)) (em_c st) (tol_of st) p s A Fp Ps L ltac:(apply A)) as (u & Pu & Lu & Eu). rewrite Eu in HR. subst r.
  rewrite zipw_length in L' by congruence. assert (EP : p = phi).
  { unfold bcast2 in HB. destruct (Nat.eqb_spec (length phi) (length (start_of st phi))); [congruence|]. destruct phi as [|x [|x' phi]].
    - cbn in HI. lia.
    - injection HB as <- <-. cbn in L'. rewrite vconst_length in L'. rewrite L'. reflexivity.
    - destruct (start_of st (x :: x' :: phi)) as [|y [|]]; try discriminate. injection HB as <- <-. reflexivity. }
  subst p. rewrite nth_zipw by (congruence || assumption). assert (PU : 0 < nth i u 0) by (rewrite Forall_forall in Pu; apply Pu, nth_In; lia). destruct (step_ends (em_c st) A (nth i u 0) PU). split; intros ->; assumption.
Qed.
