(** Specification vocabulary for the spectral induced polarization simulations. *)
From Coq Require Import Reals Sorted.
From Verif Require Import Py Vec VecDeriv Joint Sip.
Local Open Scope R_scope.

(** Decay after a constant current of the distant past was switched off. *)
Definition decay (eta tau c t : R) : R := eta * exp (- Rpower (t / tau) c).
(** The signal, [t] after the last of [k] pulses of alternating sign: each lasts a quarter of the
    period and begins half a period after the one before. [g] is the decay after switching off. *)
Definition after_pulses (k : nat) (T : R) (g : R -> R) (t : R) : R :=
  vsum (map (fun i => (-1) ^ i * (g (t + INR i * (T / 2)) - g (t + INR i * (T / 2) + T / 4))) (seq 0 k)).
(** The mean of the signals after the first, second ... last pulse. *)
Definition stacked (n : nat) (T : R) (g : R -> R) (t : R) : R := vsum (map (fun k => after_pulses (S k) T g t) (seq 0 n)) / INR n.
Definition signal (n : nat) (T : R) (g : R -> R) (t : R) : R := match n with O => g t | _ => stacked n T g t end.

Definition sip_ok (s : sip) : Prop :=
  (forall m, length m = p_n s -> length (p_eta s m) = p_nc s /\ length (p_taui s m) = p_nc s /\ length (p_c s m) = p_nc s /\
     is_mat (p_nc s) (p_n s) (p_deta s m) /\ is_mat (p_nc s) (p_n s) (p_dtaui s m) /\ is_mat (p_nc s) (p_n s) (p_dc s m)) /\
  length (p_act s) = p_nc s /\ Forall (fun r => is_mat (x_nd r) (p_nc s) (x_G r)) (all_rx s).
(** The chargeability of the cells at time [t]. *)
Definition polarization (s : sip) (m : vec) (t : R) : vec :=
  map (fun i => signal (p_pulses s) (p_T s) (decay (nth i (p_eta s m) 0) (/ nth i (p_taui s m) 0) (nth i (p_c s m) 0)) t) (seq 0 (p_nc s)).
Definition increasing (ts : vec) : Prop := StronglySorted Rlt ts.
(** All receivers have the same times. *)
Definition common (s : sip) (ts : vec) : Prop := all_rx s <> [] /\ ts <> [] /\ increasing ts /\ Forall (fun r => x_times r = ts) (all_rx s).
(** For every time, the readings of the receivers that measure then. *)
Definition readings_at (s : sip) (z : R -> vec) (ts : vec) : vec :=
  concat (map (fun t => concat (map (fun r => if has_time t (x_times r) then mv (x_G r) (z t) else []) (all_rx s))) ts).
(** The three-dimensional simulations without stored J; the two-dimensional ones with all cells
    active. *)
Definition direct (s : sip) : Prop := p_2d s = false /\ p_storeJ s = false.
Definition kept (s : sip) : Prop := p_2d s = true /\ p_act s = repeat true (p_nc s).
(** Mappings that are differentiable at [m] *)
Definition smooth (s : sip) (m : vec) : Prop :=
  length m = p_n s /\ has_jacobian (p_n s) (p_nc s) (p_eta s) m (mv (p_deta s m)) /\ has_jacobian (p_n s) (p_nc s) (p_taui s) m (mv (p_dtaui s m)) /\ has_jacobian (p_n s) (p_nc s) (p_c s) m (mv (p_dc s m)).
Definition positive (l : vec) : Prop := Forall (fun x => 0 < x) l.
(** Data in the order of Data objects (receiver by receiver, time by time) put in the order of the
    predictions (time by time, receiver by receiver). *)
Fixpoint block (rs : list srx) (w : vec) (from k : nat) : vec :=
  match rs with [] => [] | r :: rs => firstn (x_nd r) (skipn (from + k * x_nd r) w) ++ block rs w (from + x_nd r * length (x_times r)) k end.
Definition by_time (s : sip) (ts w : vec) : vec := concat (map (fun k => block (all_rx s) w 0 k) (seq 0 (length ts))).

Inductive ycall := YFields (m : vec) | YDpred (m : vec) (g : bool) | YJvec (m v : vec) (g : bool) | YJtvec (m w : vec) (g : bool) | YGetJ (m : vec) (g : bool).
Definition ydo (s : sip) (st : ystate) (c : ycall) : ystate :=
  match c with
  | YFields m => fst (yfields s st m)
  | YDpred m g => fst (ydpred s st m g)
  | YJvec m v g => fst (yJvec s st m v g)
  | YJtvec m w g => fst (yJtvec s st m w g)
  | YGetJ m g => fst (ygetJ s st m g)
  end.
Definition yhistory (s : sip) (h : list ycall) : ystate := fold_left (ydo s) h yinit.
Definition value (r : result vec) : vec := match r with Ok x => x | Err _ => [] end.
Definition predicted (r : result (option vec)) : vec := match r with Ok (Some x) => x | _ => [] end.

(** One cell of chargeability m, 1/tau = c = 1 and no pulses; receivers that read the cell [g]-fold. *)
Definition cell1 (two : bool) (rs : list srx) : sip :=
  mkSip 1 1 (fun m => m) (fun _ => [[1]]) (fun _ => [1]) (fun _ => [[0]]) (fun _ => [1]) (fun _ => [[0]]) 0 8 two two [true] [rs].
(** The same with 1/tau = m. *)
Definition tau1 (two : bool) (rs : list srx) : sip :=
  mkSip 1 1 (fun _ => [1]) (fun _ => [[0]]) (fun m => m) (fun _ => [[1]]) (fun _ => [1]) (fun _ => [[0]]) 0 8 two two [true] [rs].
Definition rx1 (g : R) (ts : vec) : srx := mkSrx 1 [[g]] ts.
