From Verif Require Import Py Vec VecDeriv PropsM PropsFacts ParamFacts SpecMass MassFacts2 Empir SpecEmpir EmpirFacts EmpirFacts2 EmpirFacts3 EmpirFacts4 EmpirFacts5 EmpirFacts6.
From Coq Require Import Lra.
Local Open Scope R_scope.

Lemma int_part_0 k : 0 <= k < 1 -> IZR (Int_part k) = 0.
Proof.
  intros H. destruct (base_Int_part k) as [A B]. assert (Int_part k = 0%Z) as ->; [|reflexivity].
  apply Z.le_antisymm; [apply Z.lt_succ_r; apply lt_IZR; rewrite succ_IZR; lra|apply Z.lt_succ_r with (m := Int_part k); apply lt_IZR; rewrite succ_IZR; lra].
Qed.
Lemma c62_integer P x u i : u_int u = true -> (i < length (u_val u))%nat -> 0 <= nth i (u_val u) 0 -> 0 <= val (length (u_val u)) (hk_k P) x i < 1 ->
  nth i (hk_call P x u) 0 = 0.
Proof.
  intros E Hi Hu Hk. unfold hk_call. rewrite cells3_nth by exact Hi. unfold hk_cell, proj_p, proj_n, full_like, trunc. rewrite E, !over_nonneg by exact Hu.
  destruct (Rle_dec 0 _) as [|N]; [|lra]. rewrite int_part_0 by exact Hk. ring.
Qed.
Lemma c62_integer_vk P x u i : u_int u = true -> (i < length (u_val u))%nat -> 0 <= nth i (u_val u) 0 -> 0 <= val (length (u_val u)) (vk_k P) x i < 1 ->
  nth i (vk_call P x u) 0 = 0.
Proof.
  intros E Hi Hu Hk. unfold vk_call. rewrite cells4_nth by exact Hi. unfold vk_cell, proj_p, proj_n, full_like, trunc. rewrite E, !over_nonneg by exact Hu.
  destruct (Rle_dec 0 _) as [|N]; [|lra]. rewrite int_part_0 by exact Hk. ring.
Qed.
Lemma c62_ex_int : nth 1 (hk_call (new_hk []) [] (mkField [-2; 0] true)) 0 = 0 /\ nth 1 (hk_call (new_hk []) [] (floats [-2; 0])) 0 = 0.00944.
Proof.
  split.
  - apply c62_integer; [reflexivity|cbn; lia|cbn; lra|]. unfold val. cbn. lra.
  - unfold hk_call. rewrite cells3_nth by (cbn; lia). rewrite (proj1 (proj2 (proj2 (saturated (floats [-2; 0]) _ 0 0 _ 0 0 _ 0 _ eq_refl (Rle_refl 0))))). reflexivity.
Qed.
(** ** Keyword arguments *)
Lemma pname_eqb_eq a b : pname_eqb a b = true <-> a = b.
Proof.
  split; [|intros ->; destruct b; cbn; auto; apply Nat.eqb_refl].
  destruct a, b; cbn; try discriminate; try reflexivity. intros H. apply Nat.eqb_eq in H. congruence.
Qed.
Lemma kwarg_names l kw nm d : In nm l -> kwarg (names_in l kw) nm d = kwarg kw nm d.
Proof.
  intros H. unfold kwarg. assert (E : dict_get pname_eqb nm (names_in l kw) = dict_get pname_eqb nm kw); [|rewrite E; reflexivity].
  induction kw as [|[a v] kw IH]; [reflexivity|]. unfold names_in in *. cbn [filter fst]. destruct (existsb (pname_eqb a) l) eqn:X; cbn [dict_get].
  - destruct (pname_eqb nm a) eqn:Y; [reflexivity|exact IH].
  - destruct (pname_eqb nm a) eqn:Y; [|exact IH]. apply pname_eqb_eq in Y. subst a. exfalso.
    assert (existsb (pname_eqb nm) l = true) by (apply existsb_exists; exists nm; split; [exact H|apply pname_eqb_eq; reflexivity]). congruence.
Qed.
Lemma partition_ok hc th kw : (forall e, In e kw -> In (fst e) (hc ++ th)) -> partition_args hc th kw = Ok (names_in hc kw, names_in th kw).
Proof.
  intros H. unfold partition_args. destruct (filter _ kw) as [|e l] eqn:F; [reflexivity|]. exfalso.
  assert (K : In e (e :: l)) by (left; reflexivity). rewrite <- F in K. apply filter_In in K. destruct K as [K1 K2].
  assert (X : existsb (pname_eqb (fst e)) (hc ++ th) = true) by (apply existsb_exists; exists (fst e); split; [apply H; exact K1|apply pname_eqb_eq; reflexivity]).
  rewrite X in K2. discriminate.
Qed.
Lemma partition_err hc th kw e : In e kw -> ~ In (fst e) (hc ++ th) -> partition_args hc th kw = Err GenericException.
Proof.
  intros H N. unfold partition_args. destruct (filter _ kw) as [|e' l] eqn:F; [|reflexivity]. exfalso.
  assert (K : In e (filter (fun e => negb (existsb (pname_eqb (fst e)) (hc ++ th))) kw)).
  { apply filter_In. split; [exact H|]. destruct (existsb (pname_eqb (fst e)) (hc ++ th)) eqn:X; [|reflexivity]. exfalso. apply existsb_exists in X.
    destruct X as (y & Y1 & Y2). apply pname_eqb_eq in Y2. subst y. contradiction. }
  rewrite F in K. destruct K.
Qed.
Lemma c62_haverkamp kw :
  ((forall e, In e kw -> In (fst e) [NKs; NA; Ngamma; Nalpha; Nbeta; Ntheta_r; Ntheta_s]) -> haverkamp kw = Ok (new_hk kw, new_ht kw)) /\
  ((exists e, In e kw /\ ~ In (fst e) [NKs; NA; Ngamma; Nalpha; Nbeta; Ntheta_r; Ntheta_s]) -> haverkamp kw = Err GenericException).
Proof.
  split.
  - intros H. unfold haverkamp. rewrite partition_ok by exact H. cbn [bind fst snd]. unfold new_hk, new_ht. rewrite !kwarg_names by (cbn; tauto). reflexivity.
  - intros (e & H & N). unfold haverkamp. rewrite (partition_err [NKs; NA; Ngamma] [Nalpha; Nbeta; Ntheta_r; Ntheta_s] kw e H N). reflexivity.
Qed.
Lemma c62_van_genuchten kw :
  ((forall e, In e kw -> In (fst e) [Nalpha; Nn; NKs; NI; Nalpha; Nn; Ntheta_r; Ntheta_s]) -> van_genuchten kw = Ok (new_vk kw, new_vt kw)) /\
  ((exists e, In e kw /\ ~ In (fst e) [Nalpha; Nn; NKs; NI; Nalpha; Nn; Ntheta_r; Ntheta_s]) -> van_genuchten kw = Err GenericException).
Proof.
  split.
  - intros H. unfold van_genuchten. rewrite partition_ok by exact H. cbn [bind fst snd]. unfold new_vk, new_vt. rewrite !kwarg_names by (cbn; tauto). reflexivity.
  - intros (e & H & N). unfold van_genuchten. rewrite (partition_err [Nalpha; Nn; NKs; NI] [Nalpha; Nn; Ntheta_r; Ntheta_s] kw e H N). reflexivity.
Qed.
(** A case for the derivative theorems: one cell below and one at saturation, two mapped parameters. *)
Lemma c62_jac2 (a b : R) : jac_at 2 2 idmap [a; b].
Proof.
  split; [reflexivity|]. split; [intros y Ly; exact Ly|]. split; [split; [reflexivity|repeat constructor]|].
  intros h Lh. destruct h as [|c [|d [|e h]]]; cbn in Lh; try lia.
  replace (mv (pm_deriv idmap [a; b]) [c; d]) with [c; d] by (cbn; f_equal; [ring|f_equal; ring]).
  apply (vderiv_line 2 [a; b] [c; d]); reflexivity.
Qed.
Lemma c62_ex : let P := mkVk (Mapped idmap) (Scal 0.036) (Arr [0.5; 0.6]) (Mapped idmap) in let x := [3; 4] in let u := [-2; 0] in
  par_ok 2 2 (vk_k P) x /\ par_ok 2 2 (vk_a P) x /\ par_ok 2 2 (vk_i P) x /\ par_ok 2 2 (vk_n P) x /\
  forall i, (i < 2)%nat -> 0 < val 2 (vk_a P) x i /\ 1 < val 2 (vk_n P) x i /\ (nth i u 0 = 0 -> 2 < val 2 (vk_n P) x i /\ 0 <= val 2 (vk_i P) x i).
Proof.
  cbv zeta. cbn [vk_k vk_a vk_i vk_n par_ok]. split; [apply c62_jac2|]. split; [exact I|]. split; [reflexivity|]. split; [apply c62_jac2|].
  intros [|[|i]] Hi; [| |lia]; unfold val; cbn; repeat split; lra.
Qed.
(** ** Statements about the arrays *)
Lemma c62_values Ht Hk Vt Vk x u i : let k := length u in (i < k)%nat ->
  (0 <= nth i u 0 -> nth i (ht_call Ht x (floats u)) 0 = val k (ht_s Ht) x i /\ nth i (vt_call Vt x (floats u)) 0 = val k (vt_s Vt) x i /\
     nth i (hk_call Hk x (floats u)) 0 = val k (hk_k Hk) x i /\ nth i (vk_call Vk x (floats u)) 0 = val k (vk_k Vk) x i) /\
  (nth i u 0 < 0 -> let h := - nth i u 0 in
     nth i (ht_call Ht x (floats u)) 0 = haverkamp_theta_lit (val k (ht_r Ht) x i) (val k (ht_s Ht) x i) (val k (ht_a Ht) x i) (val k (ht_b Ht) x i) h /\
     nth i (hk_call Hk x (floats u)) 0 = haverkamp_k_lit (val k (hk_k Hk) x i) (val k (hk_a Hk) x i) (val k (hk_g Hk) x i) h /\
     (0 < val k (vt_a Vt) x i -> nth i (vt_call Vt x (floats u)) 0 = van_genuchten_theta_lit (val k (vt_r Vt) x i) (val k (vt_s Vt) x i) (val k (vt_a Vt) x i) (val k (vt_n Vt) x i) h) /\
     (0 < val k (vk_a Vk) x i -> nth i (vk_call Vk x (floats u)) 0 = mualem_k_lit (val k (vk_k Vk) x i) (val k (vk_a Vk) x i) (val k (vk_i Vk) x i) (val k (vk_n Vk) x i) h)).
Proof.
  cbv zeta. intros Hi. unfold ht_call, vt_call, hk_call, vk_call. cbn [u_val floats]. rewrite !cells4_nth, cells3_nth by exact Hi. split.
  - intros H. split; [|split; [|split]].
    + exact (proj1 (saturated (floats u) _ _ _ _ _ 0 0 0 0 eq_refl H)).
    + exact (proj1 (proj2 (saturated (floats u) _ _ _ _ 0 _ 0 0 0 eq_refl H))).
    + exact (proj1 (proj2 (proj2 (saturated (floats u) _ 0 0 _ 0 0 _ 0 _ eq_refl H)))).
    + exact (proj2 (proj2 (proj2 (saturated (floats u) _ 0 0 _ 0 _ _ _ 0 eq_refl H)))).
  - intros H. rewrite <- (Ropp_involutive (nth i u 0)) at 1 3 5 7. split; [|split; [|split; intros]].
    + apply lit_ht; lra.
    + apply lit_hk; lra.
    + apply lit_vt; lra.
    + apply lit_vk; lra.
Qed.
Lemma c62_theta_range Ht Vt x u i : let k := length u in (i < k)%nat ->
  (val k (ht_r Ht) x i <= val k (ht_s Ht) x i -> 0 < val k (ht_a Ht) x i -> val k (ht_r Ht) x i <= nth i (ht_call Ht x (floats u)) 0 <= val k (ht_s Ht) x i) /\
  (val k (vt_r Vt) x i <= val k (vt_s Vt) x i -> 0 < val k (vt_a Vt) x i -> 1 <= val k (vt_n Vt) x i -> val k (vt_r Vt) x i <= nth i (vt_call Vt x (floats u)) 0 <= val k (vt_s Vt) x i).
Proof.
  cbv zeta. intros Hi. unfold ht_call, vt_call. cbn [u_val floats]. rewrite !cells4_nth by exact Hi. split; intros; [apply ht_bounds|apply vt_bounds]; assumption.
Qed.
Lemma c62_k_range Hk Vk x u i : let k := length u in (i < k)%nat ->
  (0 <= val k (hk_k Hk) x i -> 0 < val k (hk_a Hk) x i -> 0 <= nth i (hk_call Hk x (floats u)) 0 <= val k (hk_k Hk) x i) /\
  (0 <= val k (vk_k Vk) x i -> 0 < val k (vk_a Vk) x i -> 0 <= val k (vk_i Vk) x i -> 1 < val k (vk_n Vk) x i -> 0 <= nth i (vk_call Vk x (floats u)) 0 <= val k (vk_k Vk) x i).
Proof.
  cbv zeta. intros Hi. unfold hk_call, vk_call. cbn [u_val floats]. rewrite cells4_nth, cells3_nth by exact Hi. split; intros; [apply hk_bounds|apply vk_bounds]; try assumption; reflexivity.
Qed.
Lemma c62_monotone Ht Hk Vt Vk x u v i : let k := length u in length v = k -> (i < k)%nat -> nth i u 0 <= nth i v 0 ->
  (val k (ht_r Ht) x i <= val k (ht_s Ht) x i -> 0 < val k (ht_a Ht) x i -> 0 <= val k (ht_b Ht) x i -> nth i (ht_call Ht x (floats u)) 0 <= nth i (ht_call Ht x (floats v)) 0) /\
  (val k (vt_r Vt) x i <= val k (vt_s Vt) x i -> 0 < val k (vt_a Vt) x i -> 1 <= val k (vt_n Vt) x i -> nth i (vt_call Vt x (floats u)) 0 <= nth i (vt_call Vt x (floats v)) 0) /\
  (0 <= val k (hk_k Hk) x i -> 0 < val k (hk_a Hk) x i -> 0 <= val k (hk_g Hk) x i -> nth i (hk_call Hk x (floats u)) 0 <= nth i (hk_call Hk x (floats v)) 0) /\
  (0 <= val k (vk_k Vk) x i -> 0 < val k (vk_a Vk) x i -> 0 <= val k (vk_i Vk) x i -> 1 < val k (vk_n Vk) x i -> nth i (vk_call Vk x (floats u)) 0 <= nth i (vk_call Vk x (floats v)) 0).
Proof.
  cbv zeta. intros Lv Hi L. unfold ht_call, vt_call, hk_call, vk_call. cbn [u_val floats]. rewrite !cells4_nth, !cells3_nth by congruence. rewrite !Lv.
  split; [|split; [|split]]; intros; [apply ht_mono|apply vt_mono|apply (hk_mono (floats u))|apply (vk_mono (floats u))]; try assumption; reflexivity.
Qed.
