(** Specification vocabulary for the frequency domain simulations. *)
From Verif Require Import Py Vec VecDeriv Joint Cplx Fdem.
From Verif Require SpecDc.
From Coq Require Import Reals.
Local Open Scope R_scope.

(** An exact solver for the complex matrix [A]: the only solution of the system. *)
Definition csolves (n : nat) (solve : cmx -> cvec -> cvec) (A : cmx) : Prop :=
  forall b, clen n b -> cact A (solve A b) = b /\ forall y, clen n y -> cact A y = b -> y = solve A b.
Definition csymmetric (n : nat) (A : cmx) : Prop := forall a b, clen n a -> clen n b -> rdot a (cact A b) = rdot (cact A a) b.

(** The pieces have the sizes they should. *)
Definition prop_sizes (p nc : nat) (q : prop) : Prop :=
  forall m, length m = p -> length (p_val q m) = nc /\ (forall D, p_deriv q = Some D -> is_mat nc p (D m)).
Definition sizes (s : fdem) : Prop :=
  is_mat (f_nF s) (f_nE s) (f_C s) /\ is_mat (f_nF s) (f_nc s) (f_Bf s) /\ is_mat (f_nE s) (f_nc s) (f_Be s) /\
  prop_sizes (f_p s) (f_nc s) (f_face s) /\ prop_sizes (f_p s) (f_nc s) (f_edge s) /\
  length (f_MfI s) = f_nF s /\ length (f_MeI s) = f_nE s /\ (forall A b, clen (dim s) b -> clen (dim s) (f_solve s A b)).
(** A property is differentiable at [m] with the derivative of its mapping; without a mapping
    it does not depend on the model. *)
Definition smooth (p nc : nat) (q : prop) (m : vec) : Prop :=
  match p_deriv q with
  | Some D => has_jacobian p nc (p_val q) m (mv (D m))
  | None => forall m', length m' = p -> p_val q m' = p_val q m
  end.
Definition no_zero (v : vec) : Prop := forall i, (i < length v)%nat -> nth i v 0 <> 0.
(** The inner products can be inverted and the solver is exact. *)
Definition solvable (s : fdem) (srcs : list source) (m : vec) : Prop :=
  length m = f_p s /\ no_zero (Fm s m) /\ no_zero (Em s m) /\
  forall src, In src srcs -> csolves (dim s) (f_solve s) (getA s (s_freq src) m).
Definition regular (s : fdem) (srcs : list source) (m : vec) : Prop :=
  smooth (f_p s) (f_nc s) (f_face s) m /\ smooth (f_p s) (f_nc s) (f_edge s) m /\ SpecDc.near (f_p s) m (solvable s srcs) /\ solvable s srcs m.
(** Sources at positive frequencies with vectors of the right sizes; receivers of the real or
    imaginary part of a field that the formulation has. *)
Definition src_ok (s : fdem) (src : source) : Prop :=
  0 < s_freq src /\
  match s_kind src with
  | Raw sm se => if isEB s then clen (f_nF s) sm /\ clen (f_nE s) se else clen (f_nE s) sm /\ clen (f_nF s) se
  | Dipole p mu0 => length p = (if isEB s then f_nF s else f_nE s) /\ mu0 <> 0
  end.
Definition rx_ok (s : fdem) (r : receiver) : Prop :=
  is_mat (r_nloc r) (f_nE s) (r_PE r) /\ is_mat (r_nloc r) (f_nF s) (r_PF r) /\ (r_comp r = Real \/ r_comp r = Imag) /\
  r_field r <> FhSec /\ (isEB s = false -> r_field r <> FbSec).
Definition setup_ok (s : fdem) (srcs : list source) : Prop :=
  sizes s /\ NoDup (map s_id srcs) /\ Forall (fun src => src_ok s src /\ Forall (rx_ok s) (s_rx src)) srcs.
Definition mapped (q : prop) : bool := match p_deriv q with Some _ => true | None => false end.
Definition is_dipole (src : source) : bool := match s_kind src with Dipole _ _ => true | _ => false end.
(** When the derivatives are right: magnetic properties with a map need one source to a
    frequency in FormE and FormJ, and no dipoles in the H-J formulations. *)
Definition diff_ok (s : fdem) (srcs : list source) : Prop :=
  f_fwd s = false /\
  (match f_form s with FormE => mapped (f_face s) = true -> NoDup (map s_freq srcs) | FormJ => mapped (f_edge s) = true -> NoDup (map s_freq srcs) | _ => True end) /\
  (isEB s = false -> mapped (f_edge s) = true -> Forall (fun src => is_dipole src = false) srcs).
Definition data_size (srcs : list source) : nat := list_sum (map src_nD srcs).
Definition val {A} (d : A) (r : result A) : A := match r with Ok x => x | Err _ => d end.

(** Discrete Maxwell equations for the secondary fields, e and b (E-B) or j and h (H-J):
    Faraday's law and Ampere's law. *)
Definition faraday_ampere (s : fdem) (m : vec) (src : source) (x y : cvec) : Prop :=
  let w := omega (s_freq src) in
  if isEB s then cadd (cmap (curl s) x) (cI w y) = s_m s m src /\ csub (cmap (curlT s) (cmap (vmul (Fm s m)) y)) (cmap (vmul (Em s m)) x) = s_e s m src
  else cadd (cmap (curlT s) (cmap (vmul (Fm s m)) x)) (cI w (cmap (vmul (Em s m)) y)) = s_m s m src /\ csub (cmap (curl s) y) x = s_e s m src.
Definition with_form (s : fdem) (k : form) (solve : cmx -> cvec -> cvec) : fdem :=
  mkFd k (f_p s) (f_nE s) (f_nF s) (f_nc s) (f_C s) (f_Bf s) (f_Be s) (f_face s) (f_edge s) (f_MfI s) (f_MeI s) solve (f_fwd s) (f_nan s).

(** Histories of calls on one simulation object. A call with [true] gets the fields returned by
    the last call of fields, if they are of the same model and nothing was factored since. *)
Inductive call := CFields (m : vec) | CDpred (m : vec) (g : bool) | CJvec (m v : vec) (g : bool) | CJtvec (m w : vec) (g : bool) | CGetJ (m : vec) (g : bool) | CJtJ (m : vec) (W : option vec) (g : bool).
Definition last_fields := option (vec * fobj).
Definition pick (l : last_fields) (m : vec) (g : bool) : option fobj :=
  if g then match l with Some (m', f) => if list_eq_dec Req_EM_T m' m then Some f else None | None => None end else None.
Definition kept (l : last_fields) (f : option fobj) : last_fields := match f with Some _ => l | None => None end.
Definition do_call (s : fdem) (stl : state * last_fields) (c : call) : state * last_fields :=
  let '(st, l) := stl in
  match c with
  | CFields m => let '(st, r) := fields s st m in (st, match r with Ok f => Some (m, f) | Err _ => None end)
  | CDpred m g => let f := pick l m g in (fst (dpred s st m f), kept l f)
  | CJvec m v g => let f := pick l m g in (fst (Jvec s st m v f), kept l f)
  | CJtvec m w g => let f := pick l m g in (fst (Jtvec s st m w f), kept l f)
  | CGetJ m g => let f := pick l m g in (fst (getJ s st m f), kept l f)
  | CJtJ m W g => let f := pick l m g in (fst (getJtJdiag s st m W f), kept l f)
  end.
Definition history (s : fdem) (srcs : list source) (h : list call) : state * last_fields := fold_left (do_call s) h (init srcs, None).

(** ** A simulation with one edge and one face for the examples *)
(** Division by the complex number A *)
Definition solve1 (A : cmx) (z : cvec) : cvec :=
  let c := cact A ([1], [0]) in
  let a := nth 0 (fst c) 0 in let b := nth 0 (snd c) 0 in let x := nth 0 (fst z) 0 in let y := nth 0 (snd z) 0 in
  ([(a * x + b * y) / (a * a + b * b)], [(a * y - b * x) / (a * a + b * b)]).
Definition first_of (b : bool) : prop := mkProp (fun m => [if b then nth 0 m 0 else 1]) (if b then Some (fun _ => [[1; 0]]) else None).
Definition second_of (b : bool) : prop := mkProp (fun m => [if b then nth 1 m 0 else 1]) (if b then Some (fun _ => [[0; 1]]) else None).
Definition tiny (k : form) (bf be : bool) : fdem :=
  mkFd k 2 1 1 1 [[1]] [[1]] [[1]] (first_of bf) (second_of be) [1] [1] solve1 false 0.
Definition rx (x : fname) (c : component) : receiver := mkRx x c 1 [[1]] [[1]].
Definition raw (id : nat) (fr a b : R) (rs : list receiver) : source := mkSrc id fr (Raw ([a], [0]) ([b], [0])) rs.
Definition dip (id : nat) (fr a : R) (rs : list receiver) : source := mkSrc id fr (Dipole [a] 1) rs.
(** Two sources at two frequencies with receivers of all fields *)
Definition ex2 : list source := [raw 0 3 1 2 [rx Fe Real; rx Fb Imag]; raw 1 1 2 1 [rx Fh Real; rx Fj Imag; rx Fe Imag]].
(** A source with a receiver of the real and imaginary parts *)
Definition whole (c : component) : source := raw 0 1 0 1 [rx Fe c].
