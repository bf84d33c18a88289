(** C62: Haverkamp and van Genuchten relations of Richards' equation. *)
From Verif Require Import Py Vec VecDeriv PropsM SpecMass Empir SpecEmpir EmpirFacts EmpirFacts2 EmpirFacts3 EmpirFacts4 EmpirFacts5 EmpirFacts6 EmpirFacts7.
From Coq Require Import Lra.
Local Open Scope R_scope.

(** Below saturation the formulas of the literature, above it the saturated values. *)
Theorem C62_values Ht Hk Vt Vk x u i : let k := length u in (i < k)%nat ->
  (0 <= nth i u 0 -> nth i (ht_call Ht x (floats u)) 0 = val k (ht_s Ht) x i /\ nth i (vt_call Vt x (floats u)) 0 = val k (vt_s Vt) x i /\
     nth i (hk_call Hk x (floats u)) 0 = val k (hk_k Hk) x i /\ nth i (vk_call Vk x (floats u)) 0 = val k (vk_k Vk) x i) /\
  (nth i u 0 < 0 -> let h := - nth i u 0 in
     nth i (ht_call Ht x (floats u)) 0 = haverkamp_theta_lit (val k (ht_r Ht) x i) (val k (ht_s Ht) x i) (val k (ht_a Ht) x i) (val k (ht_b Ht) x i) h /\
     nth i (hk_call Hk x (floats u)) 0 = haverkamp_k_lit (val k (hk_k Hk) x i) (val k (hk_a Hk) x i) (val k (hk_g Hk) x i) h /\
     (0 < val k (vt_a Vt) x i -> nth i (vt_call Vt x (floats u)) 0 = van_genuchten_theta_lit (val k (vt_r Vt) x i) (val k (vt_s Vt) x i) (val k (vt_a Vt) x i) (val k (vt_n Vt) x i) h) /\
     (0 < val k (vk_a Vk) x i -> nth i (vk_call Vk x (floats u)) 0 = mualem_k_lit (val k (vk_k Vk) x i) (val k (vk_a Vk) x i) (val k (vk_i Vk) x i) (val k (vk_n Vk) x i) h)).
Proof. exact (c62_values Ht Hk Vt Vk x u i). Qed.
Print Assumptions C62_values.
(** Water content stays between residual and saturated content, conductivity between 0 and
    its saturated value, and both grow with the head. *)
Theorem C62_theta_range Ht Vt x u i : let k := length u in (i < k)%nat ->
  (val k (ht_r Ht) x i <= val k (ht_s Ht) x i -> 0 < val k (ht_a Ht) x i -> val k (ht_r Ht) x i <= nth i (ht_call Ht x (floats u)) 0 <= val k (ht_s Ht) x i) /\
  (val k (vt_r Vt) x i <= val k (vt_s Vt) x i -> 0 < val k (vt_a Vt) x i -> 1 <= val k (vt_n Vt) x i -> val k (vt_r Vt) x i <= nth i (vt_call Vt x (floats u)) 0 <= val k (vt_s Vt) x i).
Proof. exact (c62_theta_range Ht Vt x u i). Qed.
Print Assumptions C62_theta_range.
Theorem C62_k_range Hk Vk x u i : let k := length u in (i < k)%nat ->
  (0 <= val k (hk_k Hk) x i -> 0 < val k (hk_a Hk) x i -> 0 <= nth i (hk_call Hk x (floats u)) 0 <= val k (hk_k Hk) x i) /\
  (0 <= val k (vk_k Vk) x i -> 0 < val k (vk_a Vk) x i -> 0 <= val k (vk_i Vk) x i -> 1 < val k (vk_n Vk) x i -> 0 <= nth i (vk_call Vk x (floats u)) 0 <= val k (vk_k Vk) x i).
Proof. exact (c62_k_range Hk Vk x u i). Qed.
Print Assumptions C62_k_range.
Theorem C62_monotone Ht Hk Vt Vk x u v i : let k := length u in length v = k -> (i < k)%nat -> nth i u 0 <= nth i v 0 ->
  (val k (ht_r Ht) x i <= val k (ht_s Ht) x i -> 0 < val k (ht_a Ht) x i -> 0 <= val k (ht_b Ht) x i -> nth i (ht_call Ht x (floats u)) 0 <= nth i (ht_call Ht x (floats v)) 0) /\
  (val k (vt_r Vt) x i <= val k (vt_s Vt) x i -> 0 < val k (vt_a Vt) x i -> 1 <= val k (vt_n Vt) x i -> nth i (vt_call Vt x (floats u)) 0 <= nth i (vt_call Vt x (floats v)) 0) /\
  (0 <= val k (hk_k Hk) x i -> 0 < val k (hk_a Hk) x i -> 0 <= val k (hk_g Hk) x i -> nth i (hk_call Hk x (floats u)) 0 <= nth i (hk_call Hk x (floats v)) 0) /\
  (0 <= val k (vk_k Vk) x i -> 0 < val k (vk_a Vk) x i -> 0 <= val k (vk_i Vk) x i -> 1 < val k (vk_n Vk) x i -> nth i (vk_call Vk x (floats u)) 0 <= nth i (vk_call Vk x (floats v)) 0).
Proof. exact (c62_monotone Ht Hk Vt Vk x u v i). Qed.
Print Assumptions C62_monotone.
(** derivM is the Jacobian with respect to the model, whichever parameters are mapped. *)
Theorem C62_haverkamp_theta_derivM n k P x u : length x = n -> length u = k -> par_ok n k (ht_r P) x -> par_ok n k (ht_s P) x -> par_ok n k (ht_a P) x -> par_ok n k (ht_b P) x ->
  (forall i, (i < k)%nat -> nth i u 0 < 0 -> 0 < val k (ht_a P) x i) ->
  has_jacobian n k (fun x => ht_call P x (floats u)) x (applied0 k (ht_derivM P x (floats u))).
Proof. exact (ht_jac n k P x u). Qed.
Print Assumptions C62_haverkamp_theta_derivM.
Theorem C62_haverkamp_k_derivM n k P x u : length x = n -> length u = k -> par_ok n k (hk_k P) x -> par_ok n k (hk_a P) x -> par_ok n k (hk_g P) x ->
  (forall i, (i < k)%nat -> nth i u 0 < 0 -> 0 < val k (hk_a P) x i) ->
  has_jacobian n k (fun x => hk_call P x (floats u)) x (applied0 k (hk_derivM P x (floats u))).
Proof. exact (hk_jac n k P x u). Qed.
Print Assumptions C62_haverkamp_k_derivM.
Theorem C62_van_genuchten_theta_derivM n k P x u : length x = n -> length u = k -> par_ok n k (vt_r P) x -> par_ok n k (vt_s P) x -> par_ok n k (vt_a P) x -> par_ok n k (vt_n P) x ->
  (forall i, (i < k)%nat -> nth i u 0 < 0 -> 0 < val k (vt_a P) x i /\ val k (vt_n P) x i <> 0) ->
  has_jacobian n k (fun x => vt_call P x (floats u)) x (applied0 k (vt_derivM P x (floats u))).
Proof. exact (vt_jac n k P x u). Qed.
Print Assumptions C62_van_genuchten_theta_derivM.
Theorem C62_van_genuchten_k_derivM n k P x u : length x = n -> length u = k -> par_ok n k (vk_k P) x -> par_ok n k (vk_a P) x -> par_ok n k (vk_i P) x -> par_ok n k (vk_n P) x ->
  (forall i, (i < k)%nat -> nth i u 0 < 0 -> 0 < val k (vk_a P) x i /\ 1 < val k (vk_n P) x i) ->
  has_jacobian n k (fun x => vk_call P x (floats u)) x (applied0 k (vk_derivM P x (floats u))).
Proof. exact (vk_jac n k P x u). Qed.
Print Assumptions C62_van_genuchten_k_derivM.
(** derivU is the diagonal of the Jacobian with respect to the head; at the head 0 the
    relations are differentiable for large enough exponents only. *)
Theorem C62_haverkamp_theta_derivU k P x u : length u = k -> (forall i, (i < k)%nat -> 0 < val k (ht_a P) x i /\ (nth i u 0 = 0 -> 1 < val k (ht_b P) x i)) ->
  has_jacobian k k (fun u => ht_call P x (floats u)) u (vmul (ht_derivU P x (floats u))).
Proof. exact (ht_jacU k P x u). Qed.
Print Assumptions C62_haverkamp_theta_derivU.
Theorem C62_haverkamp_k_derivU k P x u : length u = k -> (forall i, (i < k)%nat -> 0 < val k (hk_a P) x i /\ (nth i u 0 = 0 -> 1 < val k (hk_g P) x i)) ->
  has_jacobian k k (fun u => hk_call P x (floats u)) u (vmul (hk_derivU P x (floats u))).
Proof. exact (hk_jacU k P x u). Qed.
Print Assumptions C62_haverkamp_k_derivU.
Theorem C62_van_genuchten_theta_derivU k P x u : length u = k -> (forall i, (i < k)%nat -> 0 < val k (vt_a P) x i /\ val k (vt_n P) x i <> 0 /\ (nth i u 0 = 0 -> 1 < val k (vt_n P) x i)) ->
  has_jacobian k k (fun u => vt_call P x (floats u)) u (vmul (vt_derivU P x (floats u))).
Proof. exact (vt_jacU k P x u). Qed.
Print Assumptions C62_van_genuchten_theta_derivU.
Theorem C62_van_genuchten_k_derivU k P x u : length u = k ->
  (forall i, (i < k)%nat -> 0 < val k (vk_a P) x i /\ 1 < val k (vk_n P) x i /\ (nth i u 0 = 0 -> 2 < val k (vk_n P) x i /\ 0 <= val k (vk_i P) x i)) ->
  has_jacobian k k (fun u => vk_call P x (floats u)) u (vmul (vk_derivU P x (floats u))).
Proof. exact (vk_jacU k P x u). Qed.
Print Assumptions C62_van_genuchten_k_derivU.
Example C62_ex : let P := mkVk (Mapped idmap) (Scal 0.036) (Arr [0.5; 0.6]) (Mapped idmap) in let x := [3; 4] in let u := [-2; 0] in
  par_ok 2 2 (vk_k P) x /\ par_ok 2 2 (vk_a P) x /\ par_ok 2 2 (vk_i P) x /\ par_ok 2 2 (vk_n P) x /\
  forall i, (i < 2)%nat -> 0 < val 2 (vk_a P) x i /\ 1 < val 2 (vk_n P) x i /\ (nth i u 0 = 0 -> 2 < val 2 (vk_n P) x i /\ 0 <= val 2 (vk_i P) x i).
Proof. exact c62_ex. Qed.
(** The factories give every named parameter to each relation that has it, keep the
    defaults of the others and refuse unknown names. *)
Theorem C62_haverkamp kw :
  ((forall e, In e kw -> In (fst e) [NKs; NA; Ngamma; Nalpha; Nbeta; Ntheta_r; Ntheta_s]) -> haverkamp kw = Ok (new_hk kw, new_ht kw)) /\
  ((exists e, In e kw /\ ~ In (fst e) [NKs; NA; Ngamma; Nalpha; Nbeta; Ntheta_r; Ntheta_s]) -> haverkamp kw = Err GenericException).
Proof. exact (c62_haverkamp kw). Qed.
Print Assumptions C62_haverkamp.
Theorem C62_van_genuchten kw :
  ((forall e, In e kw -> In (fst e) [Nalpha; Nn; NKs; NI; Nalpha; Nn; Ntheta_r; Ntheta_s]) -> van_genuchten kw = Ok (new_vk kw, new_vt kw)) /\
  ((exists e, In e kw /\ ~ In (fst e) [Nalpha; Nn; NKs; NI; Nalpha; Nn; Ntheta_r; Ntheta_s]) -> van_genuchten kw = Err GenericException).
Proof. exact (c62_van_genuchten kw). Qed.
Print Assumptions C62_van_genuchten.
Example C62_kw_ex : forall e, In e [(Nn, 1.6); (NKs, 3)] -> In (fst e) [Nalpha; Nn; NKs; NI; Nalpha; Nn; Ntheta_r; Ntheta_s].
Proof. intros e [<-|[<-|[]]]; cbn; tauto. Qed.

(** Findings: with an integer array of heads a saturated conductivity below 1 becomes 0
    (np.full_like keeps the integer type), and for exponents n <= 2, the default included,
    derivU of van Genuchten's conductivity reports 0 at the head 0 although the slope from
    below is positive or infinite. *)
Theorem C62_integer_heads_refuted P x u i : u_int u = true -> (i < length (u_val u))%nat -> 0 <= nth i (u_val u) 0 -> 0 <= val (length (u_val u)) (hk_k P) x i < 1 ->
  nth i (hk_call P x u) 0 = 0.
Proof. exact (c62_integer P x u i). Qed.
Print Assumptions C62_integer_heads_refuted.
Theorem C62_integer_heads_van_genuchten_refuted P x u i : u_int u = true -> (i < length (u_val u))%nat -> 0 <= nth i (u_val u) 0 -> 0 <= val (length (u_val u)) (vk_k P) x i < 1 ->
  nth i (vk_call P x u) 0 = 0.
Proof. exact (c62_integer_vk P x u i). Qed.
Print Assumptions C62_integer_heads_van_genuchten_refuted.
Example C62_integer_heads_ex : nth 1 (hk_call (new_hk []) [] (mkField [-2; 0] true)) 0 = 0 /\ nth 1 (hk_call (new_hk []) [] (floats [-2; 0])) 0 = 0.00944.
Proof. exact c62_ex_int. Qed.
Theorem C62_slope_at_saturation_refuted u0 k a i n : u_int u0 = false -> 0 < k -> 0 < a -> 0 <= i -> 1 < n <= 2 -> ~ derivable_pt_lim (vk_cell u0 k a i n) 0 (vk_du k a i n 0).
Proof. exact (vk_kink u0 k a i n). Qed.
Print Assumptions C62_slope_at_saturation_refuted.
Example C62_slope_ex : 0 < 24.96 /\ 0 < 0.036 /\ 0 <= 0.5 /\ 1 < 1.56 <= 2.
Proof. repeat split; lra. Qed.
