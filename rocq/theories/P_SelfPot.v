(** C88: the self-potential simulation and its mappings. *)
From Coq Require Import Reals.
From Verif Require Import Py Vec VecDeriv Joint Dc SpecDc SelfPot SpecSelfPot SelfPotFacts SelfPotFacts2 SelfPotFacts3 SelfPotFacts4 SelfPotFacts5 SelfPotFacts6 SelfPotFacts7.
Local Open Scope R_scope.

(** The potential balances the rates q, and the data are its values or differences at the
    electrodes. *)
Theorem C88_data s q rs rho m : spot_ok s q rs -> length m = q_p q -> solves (d_n (z_dc s)) (d_solve (z_dc s)) (getA (z_dc s) rho) ->
  exists u, snd (zfields s (zinit rho q) m) = Ok u /\ length u = d_n (z_dc s) /\ act false (getA (z_dc s) rho) u = vmul (z_vol s) (q_val q m) /\
    snd (zdpred s (zinit rho q) m None) = Ok (potentials (z_dc s) rs u).
Proof. exact (fun OK => c88_data s q rs rho OK m). Qed.
Print Assumptions C88_data.
(** Contributions add up. *)
Theorem C88_superposition s q rs rho a b m1 m2 : spot_ok s q rs -> length rho = d_p (z_dc s) -> solves (d_n (z_dc s)) (d_solve (z_dc s)) (getA (z_dc s) rho) -> length m1 = q_p q -> length m2 = q_p q ->
  q_val q (vadd (vscale a m1) (vscale b m2)) = vadd (vscale a (q_val q m1)) (vscale b (q_val q m2)) ->
  exists d1 d2, snd (zdpred s (zinit rho q) m1 None) = Ok d1 /\ snd (zdpred s (zinit rho q) m2 None) = Ok d2 /\
    snd (zdpred s (zinit rho q) (vadd (vscale a m1) (vscale b m2)) None) = Ok (vadd (vscale a d1) (vscale b d2)).
Proof. exact (fun OK Lr => c88_superposition s q rs rho OK Lr a b m1 m2). Qed.
Print Assumptions C88_superposition.
(** If q describes the current of an electrode, the data are those of the DC simulation. *)
Theorem C88_dc s q rs rho m src : spot_ok s q rs -> length rho = d_p (z_dc s) -> setup_ok (z_dc s) [src] -> d_mini (z_dc s) = None -> s_rx src = rs -> Forall (fun r => r_app r = false) rs -> length m = q_p q ->
  vmul (z_vol s) (q_val q m) = src_eval (z_dc s) src ->
  exists x, snd (zdpred s (zinit rho q) m None) = Ok x /\ snd (Dc.dpred (z_dc s) (init [src]) rho None) = Ok x.
Proof. exact (fun OK Lr => c88_dc s q rs rho OK Lr m src). Qed.
Print Assumptions C88_dc.
(** Jvec is the derivative of dpred. *)
Theorem C88_jacobian s q rs rho m : spot_ok s q rs -> length rho = d_p (z_dc s) -> honest q -> length m = q_p q -> solves (d_n (z_dc s)) (d_solve (z_dc s)) (getA (z_dc s) rho) ->
  (z_storeJ s = true -> symmetric (d_n (z_dc s)) (getA (z_dc s) rho)) -> has_jacobian (q_p q) (d_n (z_dc s)) (q_val q) m (mv (q_der q m)) ->
  (exists x, snd (zdpred s (zinit rho q) m None) = Ok x) /\ (forall v, length v = q_p q -> exists j, snd (zJvec s (zinit rho q) m v None) = Ok j) /\
  has_jacobian (q_p q) (sp_size rs) (fun m' => val [] (snd (zdpred s (zinit rho q) m' None))) m (fun v => val [] (snd (zJvec s (zinit rho q) m v None))).
Proof. exact (fun OK Lr HN => c88_jacobian s q rs rho OK Lr HN m). Qed.
Print Assumptions C88_jacobian.
(** Jtvec is the adjoint of Jvec. *)
Theorem C88_adjoint s q rs rho m v w : spot_ok s q rs -> length rho = d_p (z_dc s) -> honest q -> length m = q_p q -> length v = q_p q -> length w = sp_size rs ->
  solves (d_n (z_dc s)) (d_solve (z_dc s)) (getA (z_dc s) rho) -> symmetric (d_n (z_dc s)) (getA (z_dc s) rho) ->
  exists j a, snd (zJvec s (zinit rho q) m v None) = Ok j /\ snd (zJtvec s (zinit rho q) m w None) = Ok a /\ length j = sp_size rs /\ length a = q_p q /\ dot w j = dot a v.
Proof. exact (fun OK Lr HN => c88_adjoint s q rs rho OK Lr HN m v w). Qed.
Print Assumptions C88_adjoint.
(** getJ is the matrix of both. *)
Theorem C88_getJ s q rs rho m : spot_ok s q rs -> length rho = d_p (z_dc s) -> honest q -> length m = q_p q -> solves (d_n (z_dc s)) (d_solve (z_dc s)) (getA (z_dc s) rho) -> symmetric (d_n (z_dc s)) (getA (z_dc s) rho) ->
  exists J, snd (zgetJ s (zinit rho q) m None) = Ok J /\ is_mat (sp_size rs) (q_p q) J /\
    (forall v, length v = q_p q -> snd (zJvec s (zinit rho q) m v None) = Ok (mv J v)) /\
    (forall w, length w = sp_size rs -> snd (zJtvec s (zinit rho q) m w None) = Ok (mtv (q_p q) J w)).
Proof. exact (fun OK Lr HN => c88_getJ s q rs rho OK Lr HN m). Qed.
Print Assumptions C88_getJ.
(** Earlier calls do not change the results, even with fields of another model for the products;
    for getJ if J is stored or the mapping is linear. *)
Theorem C88_history_partial s q rs rho h m v w g : z_srcs s = [rs] -> honest q ->
  let st := fst (zhistory s rho q h) in let l := snd (zhistory s rho q h) in
  snd (zfields s st m) = snd (zfields s (zinit rho q) m) /\
  snd (zdpred s st m (own_fields l m g)) = snd (zdpred s (zinit rho q) m None) /\
  snd (zJvec s st m v (any_fields l g)) = snd (zJvec s (zinit rho q) m v None) /\
  snd (zJtvec s st m w (any_fields l g)) = snd (zJtvec s (zinit rho q) m w None) /\
  (z_storeJ s = true \/ q_linear q = true -> snd (zgetJ s st m (any_fields l g)) = snd (zgetJ s (zinit rho q) m None)).
Proof. exact (fun SR HN => history_same s q rs rho SR HN h m v w g). Qed.
Print Assumptions C88_history_partial.
(** Otherwise getJ is that of the first model. *)
Theorem C88_getJ_history_refuted : exists s q rs rho m1 m2 J, spot_ok s q rs /\ honest q /\ z_storeJ s = false /\ solves (d_n (z_dc s)) (d_solve (z_dc s)) (getA (z_dc s) rho) /\
  snd (zgetJ s (zinit rho q) m1 None) = Ok J /\ snd (zgetJ s (fst (zgetJ s (zinit rho q) m1 None)) m2 None) = Ok J /\ snd (zgetJ s (zinit rho q) m2 None) <> Ok J.
Proof. exact c88_stale_getJ. Qed.
Print Assumptions C88_getJ_history_refuted.
(** With storeJ, Jvec keeps the old resistivity and the old mapping after they were replaced,
    while the data follow. *)
Theorem C88_new_rho_refuted : exists s q rs rho1 rho2 m v j, spot_ok s q rs /\ honest q /\ z_storeJ s = true /\ solves (d_n (z_dc s)) (d_solve (z_dc s)) (getA (z_dc s) rho1) /\ solves (d_n (z_dc s)) (d_solve (z_dc s)) (getA (z_dc s) rho2) /\
  let st := set_rho (fst (zgetJ s (zinit rho1 q) m None)) rho2 in
  snd (zdpred s st m None) = snd (zdpred s (zinit rho2 q) m None) /\ snd (zJvec s st m v None) = Ok j /\ snd (zJvec s (zinit rho2 q) m v None) <> Ok j.
Proof. exact c88_stale_rho. Qed.
Print Assumptions C88_new_rho_refuted.
Theorem C88_new_map_refuted : exists s q q' rs rho m v j, spot_ok s q rs /\ spot_ok s q' rs /\ honest q /\ honest q' /\ z_storeJ s = true /\ solves (d_n (z_dc s)) (d_solve (z_dc s)) (getA (z_dc s) rho) /\
  let st := set_qmap (fst (zgetJ s (zinit rho q) m None)) q' in
  snd (zdpred s st m None) = snd (zdpred s (zinit rho q') m None) /\ snd (zJvec s st m v None) = Ok j /\ snd (zJvec s (zinit rho q') m v None) <> Ok j.
Proof. exact c88_stale_map. Qed.
Print Assumptions C88_new_map_refuted.
(** With Neumann conditions the products are not adjoint. *)
Theorem C88_neumann_refuted : exists s q rs rho m v w j a, spot_ok s q rs /\ honest q /\ z_storeJ s = false /\ d_neumann (z_dc s) = true /\ solves (d_n (z_dc s)) (d_solve (z_dc s)) (getA (z_dc s) rho) /\
  snd (zJvec s (zinit rho q) m v None) = Ok j /\ snd (zJtvec s (zinit rho q) m w None) = Ok a /\ dot w j <> dot a v.
Proof. exact c88_neumann. Qed.
Print Assumptions C88_neumann_refuted.
(** A survey with several sources cannot be simulated. *)
Theorem C88_one_source s rho q m : length (z_srcs s) <> 1%nat -> length m = q_p q ->
  snd (zfields s (zinit rho q) m) = Err ValueError /\ snd (zdpred s (zinit rho q) m None) = Err ValueError /\
  (forall v, snd (zJvec s (zinit rho q) m v None) = Err ValueError) /\ (forall w, snd (zJtvec s (zinit rho q) m w None) = Err ValueError).
Proof. exact (c88_one_source s rho q m). Qed.
Print Assumptions C88_one_source.
Example C88_ex r : r <> 0 -> spot_ok (sp2 false true) q_id rs2 /\ honest q_id /\ solves 2 (d_solve (z_dc (sp2 false true))) (getA (z_dc (sp2 false true)) [r]) /\ symmetric 2 (getA (z_dc (sp2 false true)) [r]) /\
  snd (zdpred (sp2 false true) (zinit [r] q_id) [1; 1] None) = Ok [3 * r; 5 * r].
Proof. exact (c88_ex r). Qed.
Example C88_ex_map m : length m = 1%nat -> map_ok 2 q_square /\ honest q_square /\ has_jacobian 1 2 (q_val q_square) m (mv (q_der q_square m)).
Proof. exact (fun L => conj q_square_ok (conj honest_square (q_square_der m L))). Qed.

(** CurrentDensityMap without active cells: the current leaving a cell through its faces. *)
Theorem C88_current M c j : mesh_ok M -> (c < nC M)%nat -> vol M c * nth c (current_map M None j) 0 = - outflow M (through (component M j)) c.
Proof. exact (fun OK => c88_current M OK c j). Qed.
Print Assumptions C88_current.
(** What is accumulated enters through the boundary of the mesh. *)
Theorem C88_current_total M j : mesh_ok M ->
  vsum (map (fun c => vol M c * nth c (current_map M None j) 0) (seq 0 (nC M))) = - vsum (map (fun f => outward f * (f_area f * through (component M j) f)) (v_faces M)).
Proof. exact (fun OK => c88_total M OK j). Qed.
Print Assumptions C88_current_total.
(** With active cells nothing leaves them: no charge in other cells, and none in total. *)
Theorem C88_current_active M act j : mesh_ok M -> length act = nC M ->
  (forall c, (c < nC M)%nat -> nth c act false = false -> nth c (current_map M (Some act) j) 0 = 0) /\
  vsum (map (fun c => vol M c * nth c (current_map M (Some act) j) 0) (seq 0 (nC M))) = 0.
Proof. exact (fun OK LA => conj (fun c => c88_inactive M OK act LA j c) (c88_conserved M OK act LA j)). Qed.
Print Assumptions C88_current_active.
(** If all cells have one volume, it is what leaves through the faces between active cells. *)
Theorem C88_current_uniform_partial M act j c : mesh_ok M -> length act = nC M -> (c < nC M)%nat -> (forall a b, (a < nC M)%nat -> (b < nC M)%nat -> vol M a = vol M b) ->
  vol M c * nth c (current_map M (Some act) j) 0 = - outflow M (inside act j) c.
Proof. exact (fun OK LA => c88_uniform M OK act LA j c). Qed.
Print Assumptions C88_current_uniform_partial.
(** Faces between active cells of different volume are closed too. *)
Theorem C88_current_refuted a b j : 0 < a -> 0 < b -> a <> b -> length j = 2%nat ->
  current_map (row2 a b) (Some [true; true]) j = [0; 0] /\ outflow (row2 a b) (inside [true; true] j) 0 = (nth 0 j 0 + nth 1 j 0) / 2.
Proof. exact (c88_unequal a b j). Qed.
Print Assumptions C88_current_refuted.
Example C88_current_ex : mesh_ok (row2 1 2) /\ mesh_ok row3.
Proof. exact (conj (row2_ok 1 2 Rlt_0_1 Rlt_0_2) row3_ok). Qed.
(** HydraulicHeadMap: the current js = - L grad h leaving a cell, so that high heads get positive
    rates. *)
Theorem C88_head M L h c : mesh_ok M -> length L = nC M -> Forall (fun x => 0 < x) L -> length h = nC M -> (c < nC M)%nat ->
  vol M c * nth c (head_map M L h) 0 = outflow M (driven M L h) c /\ 0 <= vsum (map (fun c => nth c h 0 * (vol M c * nth c (head_map M L h) 0)) (seq 0 (nC M))).
Proof. exact (fun OK LL PL LH H => conj (c88_head M OK L h LL PL LH c H) (c88_head_sign M OK L h LL PL LH)). Qed.
Print Assumptions C88_head.
(** The documentation says q = div L grad h = - div js: the opposite sign. *)
Theorem C88_head_refuted : head_map row3 [1; 1; 1] [0; 1; 0] = [-1; 2; -1] /\ map (fun c => - outflow row3 (driven row3 [1; 1; 1] [0; 1; 0]) c) [0; 1; 2]%nat = [1; -2; 1].
Proof. exact c88_head_wrong. Qed.
Print Assumptions C88_head_refuted.
(** getJtJdiag: sums of squares of the columns of the weighted J. *)
Theorem C88_diagonal s st m W f st1 J i : w_gtg st = None -> zgetJ s st m f = (st1, Ok J) -> Forall (fun r => length r = q_p (w_map st1)) J -> (i < q_p (w_map st1))%nat ->
  exists st2 g, zJtJ s st m W f = (st2, Ok g) /\ nth i g 0 = vsum (map (fun wr => (fst wr * nth i (snd wr) 0) ^ 2) (combine (match W with None => map (fun _ => 1) J | Some W => W end) J)) /\ w_gtg st2 = Some g.
Proof. exact (c88_diagonal s st m W f st1 J i). Qed.
Print Assumptions C88_diagonal.
Example C88_diagonal_case r : r <> 0 -> exists st1 J, zgetJ (sp2 false true) (zinit [r] q_id) [1; 1] None = (st1, Ok J) /\ Forall (fun x => length x = q_p (w_map st1)) J /\ J <> [] /\ q_p (w_map st1) = 2%nat.
Proof.
  intros Hr. rewrite (getJ_state _ _ rs2 [r] [1; 1] (proj1 (c88_ex r Hr))) by reflexivity. rewrite (sp2_J true q_id r [1; 1] q_id_ok eq_refl Hr).
  do 2 eexists. split; [reflexivity|]. split; [repeat constructor|split; [discriminate|reflexivity]].
Qed.
(** Exactly one of conductivity and resistivity is to be given. *)
Theorem C88_given {A} (x y : A) : construct (Some x) None = Ok x /\ construct None (Some x) = Ok x /\ construct (Some x) (Some y) = Err ValueError /\ @construct A None None = Err ValueError.
Proof. exact (c88_given x y). Qed.
Print Assumptions C88_given.
