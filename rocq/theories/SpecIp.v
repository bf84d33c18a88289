(** Specification vocabulary for the induced polarization simulation. *)
From Verif Require Import Py Vec VecDeriv Joint Dc SpecDc Ip.
From Coq Require Import Reals.
Local Open Scope R_scope.

(** An IP simulation whose chargeability is the matrix [E] times the model. *)
Definition linear_ip (b : dc) (p : nat) (E : mat) (charge : receiver -> bool) : ip := mkIp b p (fun _ => E) charge.

(** Seigel: the DC simulation of ground of chargeability eta, whose conductivity is
    sigma (1 - eta). [polarized] is that simulation with eta = E m. *)
Definition lowered (form : formulation) (prop eta : vec) : vec :=
  map (fun ph => match form with Nodal => fst ph * (1 - snd ph) | Cell => fst ph / (1 - snd ph) end) (combine prop eta).
Definition polarized (b : dc) (p : nat) (E : mat) (prop : vec) : dc :=
  mkDc (d_form b) (d_neumann b) p (d_n b) (d_nf b) (d_D b) (d_G b) (d_nc b) (d_M b) (d_bc b) (fun m => lowered (d_form b) prop (mv E m))
    (fun _ => deta_scaled (d_form b) prop E) (d_solve b) (d_interp b) (d_closest b) (d_storeJ b) (d_mini b).
Definition dc_data (b : dc) (srcs : list source) (m : vec) : vec := val [] (snd (dpred b (init srcs) m None)).

(** Which data are apparent chargeabilities, in the order of the survey. *)
Definition charges (s : ip) (srcs : list source) : list bool :=
  concat (map (fun src => concat (map (fun r => map (fun _ => ip_charge s r) (r_m r)) (s_rx src))) srcs).
(** Secondary voltages, divided by the primary ones for apparent chargeabilities. *)
Definition per_datum (which : list bool) (secondary primary : vec) : vec :=
  map (fun x : bool * (R * R) => if fst x then fst (snd x) / snd (snd x) else fst (snd x)) (combine which (combine secondary primary)).

(** The sizes fit, the solver is exact for the background, whose matrix is symmetric, and
    apparent chargeabilities are not asked for in miniaturized surveys. *)
Definition ip_ok (s : ip) (srcs : list source) (prop : vec) : Prop :=
  let b := background (ip_base s) prop in
  setup_ok (inherited s prop prop) srcs /\ length prop = d_nc b /\ solves (d_n b) (d_solve b) (getA b []) /\ symmetric (d_n b) (getA b []) /\
  (d_mini b = None \/ (forall r, ip_charge s r = false) /\ survey_nD srcs = data_size b srcs).

(** The DC simulation of the polarized ground is well posed for small chargeabilities. *)
Definition polarizable (b : dc) (p : nat) (E : mat) (prop : vec) (srcs : list source) : Prop :=
  setup_ok (polarized b p E prop) srcs /\ is_mat (d_nc b) p E /\ d_neumann b = false /\
  (d_form b = Cell -> forall i, (i < d_nf b)%nat -> nth i (mv (d_M b) prop) 0 <> 0) /\
  near p (vzero p) (fun m => solves (d_n b) (d_solve b) (getA (polarized b p E prop) m)).

(** Calls on one object; those that get fields get some returned before. *)
Inductive icall := IFields (m : vec) | IDpred (m : vec) | IJvec (m v : vec) (g : bool) | IJtvec (m w : vec) (g : bool) | IGetJ (m : vec) (g : bool) | IJtJ (m : vec) (W : option vec) (g : bool).
Definition ipick (l : option dfields) (g : bool) : option dfields := if g then l else None.
Definition do_icall (s : ip) (stl : istate * option dfields) (c : icall) : istate * option dfields :=
  let '(st, l) := stl in
  match c with
  | IFields m => let '(st, r) := ifields s st m in (st, match r with Ok f => Some f | Err _ => l end)
  | IDpred m => (fst (idpred s st m None), l)
  | IJvec m v g => (fst (iJvec s st m v (ipick l g)), l)
  | IJtvec m w g => (fst (iJtvec s st m w (ipick l g)), l)
  | IGetJ m g => (fst (igetJ s st m (ipick l g)), l)
  | IJtJ m W g => (fst (igetJtJdiag s st m W (ipick l g)), l)
  end.
Definition ihistory (s : ip) (srcs : list source) (prop : vec) (h : list icall) : istate * option dfields := fold_left (do_icall s) h (iinit srcs prop, None).

(** ** Small simulations: the two nodes of SpecDc.v, and a single node *)
Definition id_ip (store charge : bool) : ip := linear_ip (two_nodes false store None) 1 [[1]] (fun _ => charge).
Definition solve1 (A : mx) (b : vec) : vec := [nth 0 b 0 / nth 0 (act false A [1]) 0].
Definition one_node (mi : option mini) : dc :=
  mkDc Nodal false 1 1 1 [] [[1]] 1 [[1]] [[0]] (fun m => [nth 0 m 0]) (fun _ => [[1]]) solve1 (fun _ => [1]) (fun k => k) false mi.
Definition dipole_survey : list source := [dipole 5 0 1 1 [volt [0%nat] None]].
Definition predicted (r : result (option vec)) : vec := match r with Ok (Some d) => d | _ => [] end.
(** A chargeability that is the square of the model. *)
Definition square (m : vec) : vec := [(nth 0 m 0) ^ 2].
Definition dsquare (m : vec) : mat := [[2 * nth 0 m 0]].
