(** Model of simpeg/electromagnetics/static/spectral_induced_polarization: simulation.py
    (BaseSIPSimulation 18-614), simulation_2d.py, data.py and the projections of receivers.py.
    The response of a receiver to a distribution of chargeability is linear; it follows from the
    fields of the background, which are computed once (Ip.v, Dc.v).  Here it is a matrix for each
    receiver; that the code's two ways to apply it and its transpose agree is C78.  Potentials
    only; at least one source, receiver and time; times and 1/tau are positive. *)
From Coq Require Import Reals.
From Verif Require Import Py Vec Joint.
Local Open Scope R_scope.

(** A receiver: its number of electrodes (nD), its response and its times. *)
Record srx := mkSrx { x_nd : nat; x_G : mat; x_times : vec }.
(** The mappings to eta, 1/tau and c with their derivatives; n_pulse and T of the survey; whether J
    is stored; two-dimensional simulations always store it (simulation_2d.py 11-13); active cells of
    stored J; the receivers of each source. *)
Record sip := mkSip { p_n : nat; p_nc : nat; p_eta : vec -> vec; p_deta : vec -> mat; p_taui : vec -> vec; p_dtaui : vec -> mat; p_c : vec -> vec; p_dc : vec -> mat;
  p_pulses : nat; p_T : R; p_2d : bool; p_storeJ : bool; p_act : list bool; p_srcs : list (list srx) }.

(** ** Decay of one cell *)
(** 170-182 *)
Definition exponent (taui c t : R) : R := Rpower (t * taui) c.
Definition step_off (eta taui c t : R) : R := eta * exp (- exponent taui c t).
(** 211-212, 248-253, 288-291 *)
Definition step_off_eta (eta taui c t : R) : R := exp (- exponent taui c t).
Definition step_off_taui (eta taui c t : R) : R := - c * eta / taui * exponent taui c t * exp (- exponent taui c t).
Definition step_off_c (eta taui c t : R) : R := - eta * exponent taui c t * exp (- exponent taui c t) * ln (t * taui).
(** 184-192, 214-224, 255-265, 293-306 *)
Definition pulse_off (T : R) (g : R -> R) (t : R) : R := g t - g (t + T / 4).
(** 194-201 *)
Definition multi_pulse (n : nat) (T : R) (pulse : R -> R) (t : R) : R :=
  fold_left (fun acc i => acc + pulse (t + T / 2 * INR i) * ((-1) ^ i * (INR n - INR i))) (seq 0 n) 0 / INR n.
(** 203-209, 226-232, 267-273, 308-315 *)
Definition response (n : nat) (T : R) (g : R -> R) (t : R) : R := match n with O => g t | _ => multi_pulse n T (pulse_off T g) t end.

Section Sip.
  Context (s : sip).
  Definition cellwise (g : R -> R -> R -> R -> R) (e tau c : vec) (t : R) : vec :=
    map (fun x => response (p_pulses s) (p_T s) (g (fst x) (fst (snd x)) (snd (snd x))) t) (combine e (combine tau c)).
  Definition peta := cellwise step_off.
  Definition stores := (vec * (vec * vec))%type.
  Definition at_ (g : R -> R -> R -> R -> R) (y : stores) (t : R) : vec := cellwise g (fst y) (fst (snd y)) (snd (snd y)) t.
  (** 234-246, 275-286, 317-327, and their sum *)
  Definition pderiv (y : stores) (m v : vec) (t : R) : vec :=
    vadd (vadd (vmul (at_ step_off_eta y t) (mv (p_deta s m) v)) (vmul (at_ step_off_taui y t) (mv (p_dtaui s m) v))) (vmul (at_ step_off_c y t) (mv (p_dc s m) v)).
  Definition pderivT (y : stores) (m w : vec) (t : R) : vec :=
    vadd (vadd (mtv (p_n s) (p_deta s m) (vmul (at_ step_off_eta y t) w)) (mtv (p_n s) (p_dtaui s m) (vmul (at_ step_off_taui y t) w))) (mtv (p_n s) (p_dc s m) (vmul (at_ step_off_c y t) w)).

  (** survey.py (simpeg) 632-647 *)
  Fixpoint ins (x : R) (l : vec) : vec :=
    match l with [] => [x] | y :: r => if Rlt_dec x y then x :: l else if Req_EM_T x y then l else y :: ins x r end.
  Definition all_rx : list srx := concat (p_srcs s).
  Definition unique_times : vec := fold_right ins [] (concat (map x_times all_rx)).
  (** sources.py 70-90 *)
  Definition nD : nat := list_sum (map (fun r => x_nd r * length (x_times r))%nat all_rx).
  (** receivers.py 124-140 *)
  Definition has_time (t : R) (ts : vec) : bool := existsb (fun x => if Req_EM_T x t then true else false) ts.

  (** model, _eta_store and so on, _pred, _Jmatrix; the stored derivatives of the mappings are those
      of the model (607-614) *)
  Record ystate := mkY { y_model : option vec; y_stores : option stores; y_pred : option vec; y_J : option mat }.
  Definition yinit : ystate := mkY None None None None.
  Definition yset (st : ystate) (m : vec) : ystate * result unit :=
    if Nat.eqb (length m) (p_n s) then (mkY (Some m) (y_stores st) (y_pred st) (y_J st), Ok tt) else (st, Err ValueError).
  (** simulation_2d.py 38-69, with columns of zeros for cells that are not active (so that P J^T and
      J P^T are one matrix).  simulation.py 385 asks the receiver for projGLoc, which it has not. *)
  Definition mask : vec := map (fun b : bool => if b then 1 else 0) (p_act s).
  Definition Jmat : result mat :=
    if p_2d s then
      if Nat.eqb (nD / length unique_times) (list_sum (map x_nd all_rx)) then Ok (map (vmul mask) (concat (map x_G all_rx))) else Err ValueError
    else Err AttributeError.
  (** 358-404 with the fields given: without storeJ there is no self._P *)
  Definition yJ_with (st : ystate) (m : vec) : ystate * result mat :=
    match yset st m with
    | (st, Err e) => (st, Err e)
    | (st, Ok _) =>
        match y_J st with
        | Some J => (st, Ok J)
        | None => match Jmat with
                  | Err e => (st, Err e)
                  | Ok J => (mkY (y_model st) (y_stores st) (y_pred st) (Some J), Ok J)
                  end
        end
    end.
  Definition stored : bool := (p_2d s || p_storeJ s)%bool.
  (** 428-477 with the fields given *)
  Definition forward (st : ystate) (m : vec) : ystate * result vec :=
    match yset st m with
    | (st, Err e) => (st, Err e)
    | (st, Ok _) =>
        let y := (p_eta s m, (p_taui s m, p_c s m)) in
        let st := mkY (y_model st) (Some y) (y_pred st) (y_J st) in
        if stored then
          let '(st, J) := yJ_with st m in (st, do J <- J; Ok (concat (map (fun t => mv J (at_ step_off y t)) unique_times)))
        else (st, Ok (concat (map (fun t => concat (map (fun r => if has_time t (x_times r) then mv (x_G r) (at_ step_off y t) else []) all_rx)) unique_times)))
    end.
  (** 329-355 *)
  Definition yfields (st : ystate) (m : vec) : ystate * result unit :=
    match forward st m with
    | (st, Err e) => (st, Err e)
    | (st, Ok d) => (mkY (y_model st) (y_stores st) (Some d) (y_J st), Ok tt)
    end.
  (** [g]: fields were given *)
  Definition ygiven (st : ystate) (m : vec) (g : bool) : ystate * result unit := if g then (st, Ok tt) else yfields st m.
  Definition ygetJ (st : ystate) (m : vec) (g : bool) : ystate * result mat :=
    match yset st m with
    | (st, Err e) => (st, Err e)
    | (st, Ok _) =>
        match y_J st with
        | Some J => (st, Ok J)
        | None => match ygiven st m g with (st, Err e) => (st, Err e) | (st, Ok _) => yJ_with (mkY (y_model st) (y_stores st) (y_pred st) None) m end
        end
    end.
  (** 479-491 *)
  Definition ydpred (st : ystate) (m : vec) (g : bool) : ystate * result (option vec) :=
    match ygiven st m g with (st, Err e) => (st, Err e) | (st, Ok _) => (st, Ok (y_pred st)) end.
  Definition need (st : ystate) : result stores := match y_stores st with Some y => Ok y | None => Err TypeError end.
  (** 493-537 *)
  Definition yJvec (st : ystate) (m v : vec) (g : bool) : ystate * result vec :=
    match yset st m with
    | (st, Err e) => (st, Err e)
    | (st, Ok _) =>
        if stored then
          let '(st, J) := ygetJ st m g in
          (st, do J <- J; do y <- need st; Ok (concat (map (fun t => mv J (pderiv y m v t)) unique_times)))
        else
          match ygiven st m g with
          | (st, Err e) => (st, Err e)
          | (st, Ok _) => (st, do y <- need st; Ok (concat (map (fun t => concat (map (fun r => mv (x_G r) (pderiv y m v t)) all_rx)) unique_times)))
          end
    end.
  (** data.py 13-65: the entries of (source, receiver, time), receiver by receiver and time by time *)
  Fixpoint pos (t : R) (ts : vec) (k : nat) : option nat :=
    match ts with
    | [] => None
    | x :: r => match pos t r (S k) with Some i => Some i | None => if Req_EM_T x t then Some k else None end
    end.
  Definition entry (w : vec) (from : nat) (r : srx) (t : R) : result vec :=
    match pos t (x_times r) 0 with Some k => Ok (firstn (x_nd r) (skipn (from + k * x_nd r) w)) | None => Err KeyError end.
  (** the sum over the receivers of G^T w (573-591) *)
  Fixpoint back (rs : list srx) (w : vec) (from : nat) (t : R) (acc : vec) : result vec :=
    match rs with
    | [] => Ok acc
    | r :: rs => do e <- entry w from r t; back rs w (from + x_nd r * length (x_times r))%nat t (vadd acc (mtv (p_nc s) (x_G r) e))
    end.
  (** 539-604 *)
  Definition add_times (f : R -> result vec) : result vec := fold_left (fun acc t => do a <- acc; do x <- f t; Ok (vadd a x)) unique_times (Ok (vzero (p_n s))).
  Fixpoint columns (k : nat) (ts w : vec) (f : R -> vec -> vec) (acc : vec) : vec :=
    match ts with [] => acc | t :: ts => columns k ts (skipn k w) f (vadd acc (f t (firstn k w))) end.
  Definition yJtvec (st : ystate) (m w : vec) (g : bool) : ystate * result vec :=
    match yset st m with
    | (st, Err e) => (st, Err e)
    | (st, Ok _) =>
        if stored then
          let '(st, J) := ygetJ st m g in
          let k := (nD / length unique_times)%nat in
          (st, do J <- J; if Nat.eqb (length w) (k * length unique_times) then do y <- need st;
            Ok (columns k unique_times w (fun t x => pderivT y m (mtv (p_nc s) J x) t) (vzero (p_n s))) else Err ValueError)
        else
          match ygiven st m g with
          | (st, Err e) => (st, Err e)
          | (st, Ok _) =>
              (st, if Nat.eqb (length w) nD then
                     add_times (fun t => do x <- back all_rx w 0 t (vzero (p_nc s)); do y <- need st; Ok (pderivT y m x t))
                   else Err ValueError)
          end
    end.
  (** 406-425: the survey has no locations_n *)
  Definition ygetJtJdiag (st : ystate) (m : vec) (g : bool) : ystate * result vec :=
    match ygetJ st m g with (st, Err e) => (st, Err e) | (st, Ok _) => (st, Err AttributeError) end.
End Sip.

(** ** Projections of apparent chargeabilities *)
(** receivers.py 359-374, 431-444 and simulation.py 337-351: [P] is the interpolation, [u] the DC
    potential, [keep] is storeProjections; the state holds the kept projection and dc_voltage.  The
    flag _dc_voltage_set is never set, so this is done in every call of fields. *)
Definition pstate := (option mat * option vec)%type.
Definition rowscale (a : vec) (P : mat) : mat := map (fun xr => vscale (fst xr) (snd xr)) (combine a P).
(** getP with data_type volt *)
Definition proj_volt (keep : bool) (P : mat) (st : pstate) : pstate * mat :=
  match fst st with Some Q => (st, Q) | None => ((if keep then Some P else None, snd st), P) end.
(** getP with data_type apparent_chargeability *)
Definition proj_charge (keep : bool) (P : mat) (st : pstate) : pstate * result mat :=
  match fst st with
  | Some Q => (st, Ok Q)
  | None => match snd st with
            | Some v => let Q := rowscale (map Rinv v) P in ((if keep then Some Q else None, snd st), Ok Q)
            | None => (st, Err AttributeError)
            end
  end.
Definition set_voltage (keep : bool) (P : mat) (u : vec) (st : pstate) : pstate :=
  let '(st, Q) := proj_volt keep P st in
  let v := mv Q u in
  (if keep then match fst st with Some Q => Some (rowscale (map Rinv v) Q) | None => None end else fst st, Some v).
