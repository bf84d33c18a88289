(** Property theorems C66: frequency domain electromagnetic simulations. *)
From Verif Require Import Py Vec VecDeriv Joint Cplx Fdem SpecFdem FdemFacts FdemFacts5 FdemFacts6 FdemFacts8 FdemFacts9 FdemFacts10 FdemFacts11 FdemFacts12.
From Coq Require Import Reals.
Local Open Scope R_scope.

(** The fields of every source satisfy Faraday's and Ampere's law, and are the only ones. *)
Theorem C66_maxwell s srcs m : setup_ok s srcs -> solvable s srcs m ->
  exists f, snd (fields s (init srcs) m) = Ok f /\ forall src, In src srcs -> exists u, lookup s (make_survey srcs) f src = Ok u /\
    let x := getfield s m m src (if isEB s then Fe else Fj) u in let y := getfield s m m src (if isEB s then FbSec else FhSec) u in
    faraday_ampere s m src x y /\
    forall x' y', clen (if isEB s then f_nE s else f_nF s) x' -> clen (if isEB s then f_nF s else f_nE s) y' -> faraday_ampere s m src x' y' -> x' = x /\ y' = y.
Proof. exact (fun SU => c66_maxwell s srcs SU m). Qed.
Print Assumptions C66_maxwell.
(** With a dipole the total fields of the E-B formulations do, with the curl of the primary
    field in the whole space as the current. *)
Theorem C66_dipole s srcs m src p mu0 : setup_ok s srcs -> solvable s srcs m -> isEB s = true -> In src srcs -> s_kind src = Dipole p mu0 ->
  exists f u, snd (fields s (init srcs) m) = Ok f /\ lookup s (make_survey srcs) f src = Ok u /\
    let e := getfield s m m src Fe u in let b := getfield s m m src Fb u in
    cadd (cmap (curl s) e) (cI (omega (s_freq src)) b) = czero (f_nF s) /\
    csub (cmap (curlT s) (cmap (vmul (Fm s m)) b)) (cmap (vmul (Em s m)) e) = creal (curlT s (vmul (mv (f_Bf s) (vconst (f_nc s) (/ mu0))) p)).
Proof. exact (fun SU => c66_dipole s srcs SU m src p mu0). Qed.
Print Assumptions C66_dipole.
(** The two formulations for e and b predict the same data; so do those for h and j. *)
Theorem C66_same s k solve srcs m : setup_ok s srcs -> setup_ok (with_form s k solve) srcs -> isEB (with_form s k solve) = isEB s -> solvable s srcs m -> solvable (with_form s k solve) srcs m ->
  snd (dpred (with_form s k solve) (init srcs) m None) = snd (dpred s (init srcs) m None).
Proof. exact (c66_same s k solve srcs m). Qed.
Print Assumptions C66_same.
(** The systems are (complex) symmetric. *)
Theorem C66_symmetric s m fr : sizes s -> length m = f_p s -> csymmetric (dim s) (getA s fr m).
Proof. exact (fun SZ Lm => A_symm s SZ m fr). Qed.
Print Assumptions C66_symmetric.
(** Jvec is the derivative of dpred. *)
Theorem C66_jacobian s srcs m : setup_ok s srcs -> diff_ok s srcs -> regular s srcs m ->
  (exists d, snd (dpred s (init srcs) m None) = Ok d /\ length d = data_size srcs) /\ (forall v, length v = f_p s -> exists j, snd (Jvec s (init srcs) m v None) = Ok j) /\
  has_jacobian (f_p s) (data_size srcs) (fun m' => val [] (snd (dpred s (init srcs) m' None))) m (fun v => val [] (snd (Jvec s (init srcs) m v None))).
Proof. exact (fun SU => c66_jacobian s srcs SU m). Qed.
Print Assumptions C66_jacobian.
(** Jtvec is the adjoint of Jvec. *)
Theorem C66_adjoint s srcs m v w : setup_ok s srcs -> diff_ok s srcs -> length m = f_p s -> length v = f_p s -> length w = data_size srcs -> (forall src, In src srcs -> csolves (dim s) (f_solve s) (getA s (s_freq src) m)) ->
  exists j a, snd (Jvec s (init srcs) m v None) = Ok j /\ snd (Jtvec s (init srcs) m w None) = Ok a /\ length j = data_size srcs /\ length a = f_p s /\ dot w j = dot a v.
Proof. exact (fun SU => c66_adjoint s srcs SU m v w). Qed.
Print Assumptions C66_adjoint.
(** getJ is the matrix of both products. *)
Theorem C66_getJ s srcs m : setup_ok s srcs -> diff_ok s srcs -> length m = f_p s -> (forall src, In src srcs -> csolves (dim s) (f_solve s) (getA s (s_freq src) m)) ->
  exists J, snd (getJ s (init srcs) m None) = Ok J /\ is_mat (data_size srcs) (f_p s) J /\
    (forall v, length v = f_p s -> snd (Jvec s (init srcs) m v None) = Ok (mv J v)) /\
    (forall w, length w = data_size srcs -> snd (Jtvec s (init srcs) m w None) = Ok (mtv (f_p s) J w)).
Proof. exact (fun SU => c66_getJ s srcs SU m). Qed.
Print Assumptions C66_getJ.
(** The first diagonal asked for is that of J^T W^T W J. *)
Theorem C66_jtjdiag s srcs m W : setup_ok s srcs -> diff_ok s srcs -> length m = f_p s -> (forall src, In src srcs -> csolves (dim s) (f_solve s) (getA s (s_freq src) m)) -> length W = data_size srcs ->
  exists J g, snd (getJ s (init srcs) m None) = Ok J /\ snd (getJtJdiag s (init srcs) m (Some W) None) = Ok g /\ length g = f_p s /\
    forall j, (j < f_p s)%nat -> nth j g 0 = vsum (map (fun i => (nth i W 0 * nth j (nth i J []) 0) ^ 2) (seq 0 (length J))).
Proof. exact (fun SU => c66_jtj s srcs SU m W). Qed.
Print Assumptions C66_jtjdiag.
(** Earlier calls do not change the results. *)
Theorem C66_history s srcs h m v w g :
  let st := fst (history s srcs h) in let l := snd (history s srcs h) in
  snd (dpred s st m (pick l m g)) = snd (dpred s (init srcs) m None) /\
  snd (Jvec s st m v (pick l m g)) = snd (Jvec s (init srcs) m v None) /\
  snd (Jtvec s st m w (pick l m g)) = snd (Jtvec s (init srcs) m w None) /\
  snd (getJ s st m (pick l m g)) = snd (getJ s (init srcs) m None) /\
  snd (fields s st m) = snd (fields s (init srcs) m).
Proof. exact (history_free s srcs h m v w g). Qed.
Print Assumptions C66_history.
Example C66_ex_setup k bf be : setup_ok (tiny k bf be) ex2 /\ diff_ok (tiny k bf be) ex2.
Proof. exact (conj (ex2_ok k bf be) (ex2_diff k bf be)). Qed.
Example C66_ex_regular k bf be f e : 0 < f -> 0 < e -> regular (tiny k bf be) ex2 [f; e].
Proof. exact (tiny_regular k bf be ex2 f e). Qed.
Example C66_ex_same bf be : isEB (with_form (tiny FormE bf be) FormB solve1) = isEB (tiny FormE bf be) /\ with_form (tiny FormE bf be) FormB solve1 = tiny FormB bf be /\
  isEB (with_form (tiny FormJ bf be) FormH solve1) = isEB (tiny FormJ bf be) /\ with_form (tiny FormJ bf be) FormH solve1 = tiny FormH bf be.
Proof. exact (conj eq_refl (conj eq_refl (conj eq_refl eq_refl))). Qed.
Example C66_ex_dipole_setup k bf be : setup_ok (tiny k bf be) [dip 0 1 1 [rx Fb Real; rx Fe Imag]] /\ solvable (tiny k bf be) [dip 0 1 1 [rx Fb Real; rx Fe Imag]] [1; 2].
Proof. exact (ex_dip_setup k bf be). Qed.
Example C66_ex_data e : 0 < e -> e <> 1 -> snd (dpred (tiny FormH false true) (init [dip 0 1 1 [rx Fh Imag]]) [1; e] None) = Ok [omega 1 * e * (/ (e - 1) - 1) / (1 + omega 1 * omega 1 * e * e)].
Proof. exact (hdip_data e). Qed.

(** With several sources at a frequency and a mapped magnetic property, the products raise. *)
Theorem C66_sources_per_frequency_refuted s srcs m v w : setup_ok s srcs -> f_fwd s = false -> length m = f_p s -> length w = data_size srcs ->
  match f_form s with FormE => mapped (f_face s) = true | FormJ => mapped (f_edge s) = true | _ => False end -> ~ NoDup (map s_freq srcs) ->
  snd (Jvec s (init srcs) m v None) = Err ValueError /\ snd (Jtvec s (init srcs) m w None) = Err ValueError /\ snd (dpred s (init srcs) m None) = Ok (val [] (snd (dpred s (init srcs) m None))).
Proof. exact (c66_stacked s srcs m v w). Qed.
Print Assumptions C66_sources_per_frequency_refuted.
(** In the H-J formulations with a mapped permeability, Jvec leaves out the derivative of the
    source term of a magnetic dipole. *)
Theorem C66_dipole_mu_refuted : exists s srcs m v l, setup_ok s srcs /\ f_fwd s = false /\ isEB s = false /\ regular s srcs m /\ length v = f_p s /\
  vderiv (data_size srcs) (fun t => val [] (snd (dpred s (init srcs) (vadd m (vscale t v)) None))) 0 l /\
  exists j, snd (Jvec s (init srcs) m v None) = Ok j /\ j <> l.
Proof. exact c66_dipole_mu. Qed.
Print Assumptions C66_dipole_mu_refuted.
(** Receivers of the secondary h field have data but no derivatives. *)
Theorem C66_h_secondary_refuted : exists s srcs m v d, sizes s /\ diff_ok s srcs /\ regular s srcs m /\ snd (dpred s (init srcs) m None) = Ok d /\ snd (Jvec s (init srcs) m v None) = Err TypeError.
Proof. exact c66_hsec. Qed.
Print Assumptions C66_h_secondary_refuted.
(** Receivers of both parts have no data. *)
Theorem C66_component_refuted c : c = Both \/ c = Complex -> snd (dpred (tiny FormE true true) (init [whole c]) [1; 1] None) = Err AttributeError.
Proof. exact (c66_both c). Qed.
Print Assumptions C66_component_refuted.
(** forward_only: data but no derivatives *)
Theorem C66_forward_only_refuted s srcs m v : setup_ok s srcs -> f_fwd s = true -> length m = f_p s -> srcs <> [] -> NoDup (map s_freq srcs) ->
  (exists d, snd (dpred s (init srcs) m None) = Ok d) /\ snd (Jvec s (init srcs) m v None) = Err TypeError.
Proof. exact (c66_forward s srcs m v). Qed.
Print Assumptions C66_forward_only_refuted.
(** A survey with more frequencies on a simulation that was used *)
Theorem C66_new_survey_refuted s srcs srcs' m m' : f_fwd s = false -> length m = f_p s -> length m' = f_p s -> (length (freqs srcs) < length (freqs srcs'))%nat ->
  snd (fields s (set_survey (fst (fields s (init srcs) m)) (make_survey srcs')) m') = Err IndexError.
Proof. exact (c66_more s srcs srcs' m m'). Qed.
Print Assumptions C66_new_survey_refuted.
(** A survey whose list of sources was replaced: without one of the old sources it raises, ... *)
Theorem C66_source_removed_refuted s srcs srcs' m src : length m = f_p s -> In src srcs -> ~ In (s_id src) (map s_id srcs') ->
  snd (fields s (mkSt (set_source_list (make_survey srcs) srcs') None None None None) m) = Err KeyError.
Proof. exact (c66_removed s srcs srcs' m src). Qed.
Print Assumptions C66_source_removed_refuted.
(** ... and with a new one the data of the new source are zero. *)
Theorem C66_source_added_refuted : exists s srcs new m, setup_ok s (srcs ++ [new]) /\ regular s (srcs ++ [new]) m /\
  exists d d', snd (dpred s (mkSt (set_source_list (make_survey srcs) (srcs ++ [new])) None None None None) m None) = Ok d /\ snd (dpred s (init (srcs ++ [new])) m None) = Ok d' /\
    skipn (data_size srcs) d = vzero (src_nD new) /\ d <> d'.
Proof. exact c66_added. Qed.
Print Assumptions C66_source_added_refuted.
(** Jvec with the fields of a model uses the factorisations of the last model used. *)
Theorem C66_kept_fields_refuted : exists s srcs m1 m2 v f, setup_ok s srcs /\ diff_ok s srcs /\ regular s srcs m1 /\ regular s srcs m2 /\
  snd (fields s (init srcs) m1) = Ok f /\
  let st := fst (fields s (fst (fields s (init srcs) m1)) m2) in
  exists j, snd (Jvec s st m1 v (Some f)) = Ok j /\ snd (Jvec s (init srcs) m1 v None) <> Ok j.
Proof. exact c66_kept. Qed.
Print Assumptions C66_kept_fields_refuted.
(** dpred with the fields of a model uses the source terms of the last model used. *)
Theorem C66_kept_fields_data_refuted : exists s srcs m1 m2 f, setup_ok s srcs /\ diff_ok s srcs /\ regular s srcs m1 /\ regular s srcs m2 /\
  snd (fields s (init srcs) m1) = Ok f /\
  let st := fst (fields s (fst (fields s (init srcs) m1)) m2) in
  exists d, snd (dpred s st m1 (Some f)) = Ok d /\ snd (dpred s (init srcs) m1 None) <> Ok d.
Proof. exact c66_kept_source. Qed.
Print Assumptions C66_kept_fields_data_refuted.
(** Later diagonals ignore the weights. *)
Theorem C66_jtjdiag_weights_refuted : exists s srcs m, setup_ok s srcs /\ diff_ok s srcs /\ regular s srcs m /\ forall W, exists g, snd (getJtJdiag s (init srcs) m (Some W) None) = Ok g /\
  (forall W' f, snd (getJtJdiag s (fst (getJtJdiag s (init srcs) m (Some W) None)) m (Some W') f) = Ok g) /\
  (length W = data_size srcs -> no_zero W -> exists W', length W' = length W /\ snd (getJtJdiag s (init srcs) m (Some W') None) <> Ok g).
Proof. exact c66_jtj_stale. Qed.
Print Assumptions C66_jtjdiag_weights_refuted.
(** The b and h fields of several sources at once are not those of each source (FormE). *)
Theorem C66_columns_refuted : exists s srcs m f us, setup_ok s srcs /\ regular s srcs m /\ snd (fields s (init srcs) m) = Ok f /\ mapM (lookup s (make_survey srcs) f) srcs = Ok us /\
  field_cols s m m srcs Fb us <> map (fun su => getfield s m m (fst su) Fb (snd su)) (combine srcs us) /\
  field_cols s m m srcs Fh us <> map (fun su => getfield s m m (fst su) Fh (snd su)) (combine srcs us).
Proof. exact c66_cols. Qed.
Print Assumptions C66_columns_refuted.
