(** The rows computed by each engine are the documented responses. *)
From Verif Require Import Pf SpecPf PfFacts.
Local Open Scope R_scope.

Notation pmesh := (list pt * list (list nat))%type.

Lemma nth_map_in {A B} (f : A -> B) l i d d' : (i < length l)%nat -> nth i (map f l) d' = f (nth i l d).
Proof.
  intros H. rewrite (nth_indep (map f l) d' (f d)) by (rewrite map_length; exact H). apply map_nth.
Qed.
Lemma good_corner (mesh : pmesh) cell j : good_mesh mesh -> In cell (snd mesh) -> (j < 8)%nat -> (nth j cell 0 < length (fst mesh))%nat.
Proof.
  intros Hg Hc Hj. unfold good_mesh in Hg. rewrite Forall_forall in Hg. destruct (Hg _ Hc) as [L F].
  rewrite Forall_forall in F. apply F. apply nth_In. lia.
Qed.
Lemma ev_nth (f : R -> R -> R -> R) (mesh : pmesh) loc cell j : good_mesh mesh -> In cell (snd mesh) -> (j < 8)%nat ->
  nth (nth j cell 0%nat) (ev f (map (fun n => pdiff n loc) (fst mesh))) 0
  = f (px (corner mesh cell j) - px loc) (py (corner mesh cell j) - py loc) (pz (corner mesh cell j) - pz loc).
Proof.
  intros Hg Hc Hj. unfold ev. rewrite map_map.
  rewrite (nth_map_in _ _ _ (mkpt 0 0 0)) by (apply good_corner; assumption). reflexivity.
Qed.
Lemma cev_nth k (mesh : pmesh) loc cell j : good_mesh mesh -> In cell (snd mesh) -> (j < 8)%nat ->
  nth (nth j cell 0%nat) (cev k (map (fun n => pdiff n loc) (fst mesh))) 0
  = (let q := corner mesh cell j in
     let x := px q - px loc in let y := py q - py loc in let z := pz q - pz loc in
     k x y z (sqrt (x * x + y * y + z * z))).
Proof.
  intros Hg Hc Hj. unfold cev. rewrite map_map.
  rewrite (nth_map_in _ _ _ (mkpt 0 0 0)) by (apply good_corner; assumption). reflexivity.
Qed.
Lemma gcells_ev f (mesh : pmesh) loc : good_mesh mesh ->
  gcells (snd mesh) (ev f (map (fun n => pdiff n loc) (fst mesh))) = map (cell_value f mesh loc) (snd mesh).
Proof.
  intros Hg. unfold gcells. apply map_ext_in. intros cell Hc. unfold sum8g, cell_value.
  rewrite !ev_nth by (try assumption; lia). reflexivity.
Qed.
Lemma ccells_cev f k (mesh : pmesh) loc : good_mesh mesh -> same_prism f k mesh loc ->
  ccells (snd mesh) (cev k (map (fun n => pdiff n loc) (fst mesh))) = map (cell_value f mesh loc) (snd mesh).
Proof.
  intros Hg Hs. unfold ccells. apply map_ext_in. intros cell Hc. rewrite <- (Hs cell Hc).
  unfold sum8c. rewrite !cev_nth by (try assumption; lia). reflexivity.
Qed.

(** *** Gravity. *)
Lemma gceqb_ok a b : gceqb a b = true <-> a = b.
Proof. split; [destruct a, b; cbn; congruence|intros ->; destruct b; reflexivity]. Qed.
Lemma hasg_in c cs : In c cs -> hasg c cs = true.
Proof. intros H. apply existsb_exists. exists c. split; [exact H|destruct c; reflexivity]. Qed.

Definition gright (K : gkern) (dr : list pt) (d : list (gcomp * vec)) : Prop :=
  forall k v, dict_get gceqb k d = Some v -> v = ev (gravity_function K k) dr.
Definition gpres (d : list (gcomp * vec)) (k : gcomp) : Prop := dict_get gceqb k d <> None.
Lemma gget_set k k' v (d : list (gcomp * vec)) : dict_get gceqb k (dict_set gceqb k' v d) = if gceqb k k' then Some v else dict_get gceqb k d.
Proof.
  destruct (gceqb k k') eqn:E.
  - apply gceqb_ok in E; subst. apply dict_get_set_eq. exact gceqb_ok.
  - apply dict_get_set_neq; [exact gceqb_ok|]. intros ->. destruct k'; discriminate.
Qed.
Lemma gright_set K dr k v d : v = ev (gravity_function K k) dr -> gright K dr d -> gright K dr (dict_set gceqb k v d).
Proof.
  intros E H k' v'. rewrite gget_set. destruct (gceqb k' k) eqn:Ek; [|apply H].
  apply gceqb_ok in Ek; subst k'. injection 1 as <-. exact E.
Qed.
Lemma gpres_set k k' v d : (k = k' \/ gpres d k) -> gpres (dict_set gceqb k' v d) k.
Proof. unfold gpres. rewrite gget_set. intros [->|H]; [destruct k'; discriminate|]. destruct (gceqb k k'); [discriminate|exact H]. Qed.
Definition gput (dr : list pt) (b : bool) k f (d : list (gcomp * vec)) := if b then dict_set gceqb k (ev f dr) d else d.
Lemma gput_right K dr b k f d : f = gravity_function K k -> gright K dr d -> gright K dr (gput dr b k f d).
Proof. intros -> H. destruct b; [apply gright_set; auto|exact H]. Qed.
Lemma gput_pres dr b k k' f d : (k = k' /\ b = true) \/ gpres d k -> gpres (gput dr b k' f d) k.
Proof.
  intros [[-> ->]|H]; [apply gpres_set; auto|]. destruct b; [apply gpres_set; auto|exact H].
Qed.
Lemma ev_guv K dr : map (fun t => t * / 2) (vsub (ev (gravity_function K Gyy) dr) (ev (gravity_function K Gxx) dr)) = ev (gravity_function K Guv) dr.
Proof. induction dr as [|d dr IH]; [reflexivity|]. cbn [ev map vsub zipw]. f_equal. exact IH. Qed.

Lemma grav_node_evals_ok K cs dr : exists d, grav_node_evals K cs dr = Ok d /\ forall c, In c cs -> dict_get gceqb c d = Some (ev (gravity_function K c) dr).
Proof.
  unfold grav_node_evals. cbv zeta.
  fold (gput dr (hasg Gx cs) Gx (fun x y z => fz K y z x) []).
  set (d1 := gput dr (hasg Gx cs) Gx _ _).
  fold (gput dr (hasg Gy cs) Gy (fun x y z => fz K z x y) d1). set (d2 := gput dr (hasg Gy cs) _ _ _).
  fold (gput dr (hasg Gz cs) Gz (fun x y z => fz K x y z) d2). set (d3 := gput dr (hasg Gz cs) _ _ _).
  fold (gput dr (hasg Gxy cs) Gxy (fun x y z => fzx K y z x) d3). set (d4 := gput dr (hasg Gxy cs) _ _ _).
  fold (gput dr (hasg Gxz cs) Gxz (fun x y z => fzx K x y z) d4). set (d5 := gput dr (hasg Gxz cs) _ _ _).
  fold (gput dr (hasg Gyz cs) Gyz (fun x y z => fzy K x y z) d5). set (d6 := gput dr (hasg Gyz cs) _ _ _).
  fold (gput dr (hasg Gxx cs || hasg Guv cs) Gxx (fun x y z => fzz K y z x) d6). set (d7 := gput dr (hasg Gxx cs || hasg Guv cs) _ _ _).
  fold (gput dr (hasg Gyy cs || hasg Guv cs) Gyy (fun x y z => fzz K z x y) d7). set (d8 := gput dr (hasg Gyy cs || hasg Guv cs) _ _ _).
  assert (R0 : gright K dr []) by (intros k v H; discriminate).
  assert (R8 : gright K dr d8) by (unfold d8, d7, d6, d5, d4, d3, d2, d1; repeat (apply gput_right; [reflexivity|]); exact R0).
  assert (P8 : forall c, In c cs -> c <> Guv -> c <> Gzz -> gpres d8 c).
  { intros c Hc N1 N2. apply hasg_in in Hc.
    unfold d8, d7, d6, d5, d4, d3, d2, d1.
    destruct c; try contradiction;
      repeat first [apply gput_pres; left; split; [reflexivity|rewrite Hc; reflexivity] | apply gput_pres; right]. }
  assert (P8u : hasg Guv cs = true -> gpres d8 Gxx /\ gpres d8 Gyy).
  { intros Hu. unfold d8, d7. split.
    - apply gput_pres. right. apply gput_pres. left. rewrite Hu, orb_true_r; auto.
    - apply gput_pres. left. rewrite Hu, orb_true_r; auto. }
  assert (Fin : forall d, gright K dr d -> (forall c, In c cs -> c <> Gzz -> gpres d c) ->
    exists d', Ok (if hasg Gzz cs then dict_set gceqb Gzz (ev (fun x y z => fzz K x y z) dr) d else d) = Ok d' /\
      forall c, In c cs -> dict_get gceqb c d' = Some (ev (gravity_function K c) dr)).
  { intros d Rd Pd. eexists; split; [reflexivity|].
    fold (gput dr (hasg Gzz cs) Gzz (fun x y z => fzz K x y z) d).
    intros c Hc.
    assert (RR : gright K dr (gput dr (hasg Gzz cs) Gzz (fun x y z => fzz K x y z) d)) by (apply gput_right; [reflexivity|exact Rd]).
    assert (PP : gpres (gput dr (hasg Gzz cs) Gzz (fun x y z => fzz K x y z) d) c).
    { apply gput_pres. destruct (gceqb c Gzz) eqn:E.
      - apply gceqb_ok in E. subst c. left. split; [reflexivity|apply hasg_in; exact Hc].
      - right. apply Pd; [exact Hc|]. intros ->. discriminate. }
    unfold gpres in PP. destruct (dict_get gceqb c _) as [v|] eqn:E; [|contradiction].
    rewrite (RR _ _ E). reflexivity. }
  destruct (hasg Guv cs) eqn:Hu.
  - destruct (P8u eq_refl) as [Px Py]. unfold gpres in Px, Py. unfold get.
    destruct (dict_get gceqb Gyy d8) as [a|] eqn:Ea; [|contradiction].
    destruct (dict_get gceqb Gxx d8) as [b|] eqn:Eb; [|contradiction].
    cbn [bind]. apply Fin.
    + apply gright_set; [|exact R8]. rewrite (R8 _ _ Ea), (R8 _ _ Eb). apply ev_guv.
    + intros c Hc N. apply gpres_set. destruct (gceqb c Guv) eqn:E; [left; apply gceqb_ok; exact E|].
      right. apply P8; [exact Hc| |exact N]. intros ->. discriminate.
  - cbn [bind]. apply Fin; [exact R8|]. intros c Hc N. apply P8; [exact Hc| |exact N].
    intros ->. apply hasg_in in Hc. congruence.
Qed.
Lemma mapM_ok_in {A B} (f : A -> result B) g l : (forall x, In x l -> f x = Ok (g x)) -> mapM f l = Ok (map g l).
Proof.
  induction l as [|x l IH]; intros H; [reflexivity|]. cbn [mapM map]. rewrite H by (left; reflexivity). cbn [bind].
  rewrite IH by (intros; apply H; right; assumption). reflexivity.
Qed.
Lemma units_eq c : (if (gclen c =? 3)%nat then 10 ^ 12 else 10 ^ 8) = gravity_units c.
Proof. destruct c; cbn [gclen Nat.eqb gravity_units]; ring. Qed.
Lemma units_conv c : conversion_factor c = gravity_units c.
Proof. destruct c; cbn [conversion_factor gravity_units]; ring. Qed.
Lemma grav_integral_ok K Gn (mesh : pmesh) loc cs : good_mesh mesh ->
  grav_integral K Gn mesh loc cs = Ok (map (fun c => gravity_response K Gn mesh c loc) cs).
Proof.
  intros Hg. unfold grav_integral.
  destruct (grav_node_evals_ok K cs (map (fun n => pdiff n loc) (fst mesh))) as (d & -> & Hd). cbn [bind].
  apply mapM_ok_in. intros c Hc. unfold grav_row, get. rewrite (Hd c Hc). cbn [bind].
  rewrite gcells_ev by exact Hg. unfold gravity_response. rewrite map_map, units_eq. f_equal. apply map_ext. intros. ring.
Qed.
Lemma dot_map_scale (f : list nat -> R) a (cells : list (list nat)) v : dot (map (fun c => a * f c) cells) v = dot (map f cells) v * a.
Proof. revert v; induction cells as [|c cells IH]; intros [|x v]; cbn; try ring. rewrite IH. ring. Qed.
Lemma grav_integral_fwd_ok K Gn (mesh : pmesh) rho loc cs : good_mesh mesh ->
  grav_integral_fwd K Gn mesh rho loc cs = Ok (map (fun c => dot (gravity_response K Gn mesh c loc) rho) cs).
Proof.
  intros Hg. unfold grav_integral_fwd.
  destruct (grav_node_evals_ok K cs (map (fun n => pdiff n loc) (fst mesh))) as (d & -> & Hd). cbn [bind].
  apply mapM_ok_in. intros c Hc. unfold grav_fwd, get. rewrite (Hd c Hc). cbn [bind].
  rewrite gcells_ev by exact Hg. unfold gravity_response. rewrite dot_map_scale, units_eq. reflexivity.
Qed.
Lemma same_prism_guv K C (mesh : pmesh) loc : same_prism (gravity_function K Gxx) (cee C) mesh loc -> same_prism (gravity_function K Gyy) (cnn C) mesh loc ->
  same_prism (gravity_function K Guv) (grav_kernel C Guv) mesh loc.
Proof.
  intros H1 H2 cell Hc. specialize (H1 cell Hc). specialize (H2 cell Hc).
  unfold sum8c, cell_value in *. cbn [gravity_function grav_kernel] in *. cbv zeta in *. lra.
Qed.
Lemma grav_same K C (mesh : pmesh) loc c : gravity_libraries_agree K C mesh loc -> same_prism (gravity_function K c) (grav_kernel C c) mesh loc.
Proof.
  intros (H1 & H2 & H3 & H4 & H5 & H6 & H7 & H8 & H9). destruct c; try assumption. apply same_prism_guv; assumption.
Qed.
Lemma grav_crow_ok K C Gn (mesh : pmesh) c loc : good_mesh mesh -> gravity_libraries_agree K C mesh loc ->
  grav_crow C Gn mesh c loc = gravity_response K Gn mesh c loc.
Proof.
  intros Hg Ha. unfold grav_crow. rewrite (ccells_cev (gravity_function K c)) by (try apply grav_same; assumption).
  unfold gravity_response. rewrite map_map, units_conv. reflexivity.
Qed.
Lemma fold_add {B} (h : B -> R) (l : list B) a : fold_left (fun f x => f + h x) l a = a + vsum (map h l).
Proof. revert a; induction l as [|x l IH]; intros a; cbn; [ring|]. rewrite IH. ring. Qed.
Lemma grav_cfwd_ok C Gn (mesh : pmesh) rho c loc : grav_cfwd C Gn mesh rho c loc 0 = dot (grav_crow C Gn mesh c loc) rho.
Proof.
  unfold grav_cfwd, grav_crow. rewrite fold_add. rewrite Rplus_0_l.
  generalize (ccells (snd mesh) (cev (grav_kernel C c) (map (fun n => pdiff n loc) (fst mesh)))).
  induction rho as [|r rho IH]; intros [|v l]; cbn; try reflexivity. rewrite IH. ring.
Qed.
