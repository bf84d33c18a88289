(** C55: initial scalings of trade-off parameters, smoothness constants and misfits. *)
From Verif Require Import Py Vec SensW PowerIt SpecPowerIt Scaling SpecScaling ScalingFacts.
From Coq Require Import Lra.
Local Open Scope R_scope.

(** C55: the estimated beta lies between the quotients of the bounds on the two second
    derivatives, times the ratio. *)
Theorem C55_beta_bounds ratio k dm rg Md Mr xd xr n dlo dhi rlo rhi beta : matrices n dm Md -> matrices n rg Mr -> length xd = n -> length xr = n ->
  (forall x, length x = n -> dlo * dot x x <= form dm Md x x <= dhi * dot x x) ->
  (forall x, length x = n -> rlo * dot x x <= form rg Mr x x <= rhi * dot x x) -> 0 < ratio -> 0 <= dlo -> 0 < rlo ->
  beta_by_eig ratio k dm rg xd xr = Some beta -> ratio * (dlo / rhi) <= beta <= ratio * (dhi / rlo).
Proof. exact (c55_beta_bounds ratio k dm rg Md Mr xd xr n dlo dhi rlo rhi beta). Qed.
Print Assumptions C55_beta_bounds.
Example C55_beta_bounds_ex : matrices 2 (diag2 1 2) [[[1; 0]; [0; 2]]] /\ forall x, length x = 2%nat -> 1 * dot x x <= form (diag2 1 2) [[[1; 0]; [0; 2]]] x x <= 2 * dot x x.
Proof.
  split; [apply diag2_mat|]. intros [|x [|y [|]]] L; try discriminate. unfold form, diag2. cbn. pose proof (Rle_0_sqr x). pose proof (Rle_0_sqr y). unfold Rsqr in *. nra.
Qed.
(** It scales with the misfit and against the regularization. *)
Theorem C55_beta_scaled ratio k dm rg Md Mr xd xr n c beta : matrices n dm Md -> matrices n rg Mr -> length xd = n -> length xr = n -> 0 < c ->
  beta_by_eig ratio k dm rg xd xr = Some beta ->
  beta_by_eig ratio k (scaled c dm) rg xd xr = Some (c * beta) /\ beta_by_eig ratio k dm (scaled c rg) xd xr = Some (beta / c).
Proof. exact (c55_beta_scaled ratio k dm rg Md Mr xd xr n c beta). Qed.
Print Assumptions C55_beta_scaled.
Example C55_beta_scaled_ex : beta_by_eig 3 1 (diag2 1 2) (diag2 1 1) [1; 1] [1; 1] = Some (27 / 5).
Proof. unfold beta_by_eig. rewrite !diag2_eig by lra. rewrite quot_some; [cbn; f_equal; field|cbn; lra]. Qed.
(** Finding: from the zero model, with a regularization whose gradient vanishes there, the
    estimate from derivatives is not finite, whatever is drawn. *)
Theorem C55_beta_derivative_refuted ratio gd gr n x0 : length x0 = n -> gr (vzero n) = vzero n ->
  beta_by_max ratio gd gr (vzero n) x0 = None.
Proof. exact (c55_beta_zero ratio gd gr n x0). Qed.
Print Assumptions C55_beta_derivative_refuted.
Example C55_beta_derivative_ex : exists b, beta_by_max 1 (fun _ => [1; 2]) (fun m => m) [1; 3] [1/4; 1/2] = Some b.
Proof.
  unfold beta_by_max, quot, absmax. cbn. unfold Rmax. destruct (Rle_dec (1/4) (1/2)); [|lra]. destruct (Req_EM_T (1/2) 0); [lra|]. destruct (Rle_dec 1 3); [|lra].
  cbn. match goal with |- context [Rle_dec (Rabs ?a) (Rabs ?b)] => rewrite (Rabs_pos_eq a) by lra; rewrite (Rabs_pos_eq b) by lra end.
  match goal with |- context [Rle_dec ?a ?b] => destruct (Rle_dec a b) end; match goal with |- context [Req_EM_T ?a 0] => destruct (Req_EM_T a 0); [lra|] end; eexists; reflexivity.
Qed.
(** Smoothness constants: each times its eigenvalue becomes the former constant times its
    ratio times the eigenvalue of the smallness. *)
Theorem C55_alphas alphas ratios r small smooth : broadcast ratios (length alphas) = Ok r -> length smooth = length alphas -> Forall (fun x => x <> 0) smooth ->
  exists new, alphas_by_eig alphas ratios small smooth = Ok (Some new) /\ length new = length alphas /\
    forall i, (i < length alphas)%nat -> nth i new 0 * nth i smooth 0 = nth i alphas 0 * nth i r 0 * small.
Proof. exact (c55_alphas alphas ratios r small smooth). Qed.
Print Assumptions C55_alphas.
Example C55_alphas_ex : broadcast [2] 3 = Ok [2; 2; 2] /\ Forall (fun x => x <> 0) [1; 2; 3].
Proof. split; [reflexivity|repeat constructor; lra]. Qed.
(** Finding: initializing again scales again. *)
Theorem C55_alphas_again_refuted : exists alphas ratios small smooth new new',
  alphas_by_eig alphas ratios small smooth = Ok (Some new) /\ alphas_by_eig new ratios small smooth = Ok (Some new') /\ new' <> new.
Proof. exact c55_alphas_twice. Qed.
Print Assumptions C55_alphas_again_refuted.
(** Two or more misfits: positive scales with sum 1 that balance the eigenvalues. *)
Theorem C55_misfits k mults chi0 c dms xs eigs : match chi0 with Some v => broadcast v (length dms) = Ok c | None => c = mults /\ length mults = length dms end ->
  (2 <= length dms)%nat -> misfit_eigs k dms xs = Some eigs -> length eigs = length dms -> positive eigs -> positive c ->
  exists m, scale_misfits k mults chi0 dms xs = Ok (Some m) /\ length m = length dms /\ positive m /\ vsum m = 1 /\ balanced m c eigs.
Proof. exact (c55_scales k mults chi0 c dms xs eigs). Qed.
Print Assumptions C55_misfits.
Example C55_misfits_ex : misfit_eigs 4 [diag2 1 2; diag2 1 1] [[1; 1]; [1; 1]] = Some [513 / 257; 1] /\ positive [513 / 257; 1].
Proof.
  split; [|repeat constructor; lra]. unfold misfit_eigs. cbn [combine map fst snd]. rewrite !diag2_eig by lra. cbn [quots option_map]. f_equal. f_equal; [field|f_equal; field].
Qed.
(** Finding: but not for the requested number of iterations, which is ignored. *)
Theorem C55_iterations_refuted : exists dms xs eigs m, quots (map (fun tx => eigenvalue (fst tx) (snd tx) 1) (combine dms xs)) = Some eigs /\ positive eigs /\
  scale_misfits 1 [1; 1] None dms xs = Ok (Some m) /\ ~ balanced m [1; 1] eigs.
Proof. exact c55_iterations. Qed.
Print Assumptions C55_iterations_refuted.
(** The joint schedule keeps array multipliers positive with sum 1, over every history. *)
Theorem C55_joint c n l s : is_array s = true -> length (jm s) = n -> positive (jm s) -> vsum (jm s) = 1 -> 0 < warming c -> Forall (sensible n) l ->
  let s' := jrun c s l in is_array s' = true /\ length (jm s') = n /\ positive (jm s') /\ vsum (jm s') = 1.
Proof. exact (c55_joint c n l s). Qed.
Print Assumptions C55_joint.
Example C55_joint_ex : Forall (sensible 2) [mkJin [1; 3] [2; 2] 1; mkJin [3; 1] [2; 2] 2].
Proof. repeat constructor; cbn; try reflexivity; lra. Qed.
(** One iteration never raises, and changes nothing when no update is due; otherwise it
    multiplies, up to a common factor, exactly the misfits above their target by at least
    the warming. *)
Theorem C55_joint_step c s i n : is_array s = true -> length (jm s) = n -> positive (jm s) -> sensible n i -> 0 < warming c ->
  let r := end_iter c true s (j_dms i) (j_targets i) (j_iter i) in
  snd r = None /\ is_array (fst r) = true /\
  (fst r = s /\ ~ due c s i \/ length (jm (fst r)) = n /\ positive (jm (fst r)) /\ vsum (jm (fst r)) = 1 /\
     exists f g, warming c <= f /\ 0 < g /\ forall j, (j < n)%nat ->
       nth j (jm (fst r)) 0 = g * ((if Rlt_dec (nth j (j_targets i) 0) (nth j (j_dms i) 0) then f else 1) * nth j (jm s) 0)).
Proof. exact (joint_step c s i n). Qed.
Print Assumptions C55_joint_step.
Example C55_joint_step_ex : due (mkJconf 1 (1/10) 10 1) (mkJoint [1/2; 1/2] true) (mkJin [1; 3] [2; 2] 1).
Proof.
  split; [cbn; lia|]. split; [reflexivity|]. split; [exists (1, 2); split; [left; reflexivity|cbn; lra]|]. split; [exists (3, 2); split; [right; left; reflexivity|cbn; lra]|repeat constructor; cbn; lra].
Qed.
(** Finding: with the list of multipliers of a sum of misfits the schedule raises, after
    having changed the multiplier. *)
Theorem C55_joint_list_refuted : exists c m dms targets, positive m /\ positive dms /\ positive targets /\
  let r := end_iter c true (mkJoint m false) dms targets 1 in snd r = Some TypeError /\ jm (fst r) <> m.
Proof. exact c55_list. Qed.
Print Assumptions C55_joint_list_refuted.
(** Finding: scales within the bounds are moved out of them. *)
Theorem C55_joint_bounds_refuted : exists c m dms targets, positive m /\ vsum m = 1 /\ positive dms /\ positive targets /\ Forall (fun x => chimin c < x < chimax c) m /\
  let r := end_iter c true (mkJoint m true) dms targets 1 in snd r = None /\ ~ Forall (fun x => chimin c < x < chimax c) (jm (fst r)).
Proof. exact c55_bounds. Qed.
Print Assumptions C55_joint_bounds_refuted.
