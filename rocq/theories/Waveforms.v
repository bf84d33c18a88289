(** Model of the source waveforms of simpeg/electromagnetics/time_domain/sources.py. *)
From Verif Require Import Py Vec.
Local Open Scope R_scope.

Definition rlt (a b : R) : bool := if Rlt_dec a b then true else false.
Definition rle (a b : R) : bool := if Rle_dec a b then true else false.

(** 176-180 [StepOffWaveform.eval] *)
Definition step_off (off eps t : R) : R :=
  if rlt (Rabs (t - 0)) eps || rlt (t - off) eps then 1 else 0.

(** 296-301: [ramp_end] is validated against [ramp_start] when it is set. *)
Definition ramp_init (start end_ : R) : result (R * R) := if rlt start end_ then Ok (start, end_) else Err ValueError.
(** 311-319 and 321-332 [RampOffWaveform.eval], [.eval_deriv] (for one time). *)
Definition ramp_off (start end_ eps t : R) : R :=
  let dt := t - start in
  if rlt dt eps then 1 else if rlt t end_ then 1 - dt / (end_ - start) else 0.
Definition ramp_off_deriv (start end_ eps t : R) : R :=
  if rlt t end_ && rle eps (t - start) then - 1 / (end_ - start) else 0.

(** 474-482 and 484-501 [VTEMWaveform] *)
Definition vtem (off peak rate t : R) : R :=
  if rle t peak then (1 - exp (- rate * t / peak)) / (1 - exp (- rate))
  else if rlt t off && rlt peak t then - 1 / (off - peak) * (t - off) else 0.
Definition vtem_deriv (off peak rate t : R) : R :=
  if rlt peak t && rlt t off then - 1 / (off - peak)
  else if rle t peak && rle 0 t then rate / peak * exp (- rate * t / peak) / (1 - exp (- rate)) else 0.

(** The four times [ramp_on], [ramp_off] of the trapezoid-like waveforms; they are only
    checked to be two arrays of two numbers (555-579). *)
Record ramps := mkRamps { on0 : R; on1 : R; off0 : R; off1 : R }.
(** 581-609 [TrapezoidWaveform]; in [eval_deriv] the second assignment overrides the first. *)
Definition trapezoid (r : ramps) (t : R) : R :=
  if rlt t (on0 r) then 0
  else if rle (on0 r) t && rle t (on1 r) then 1 / (on1 r - on0 r) * (t - on0 r)
  else if rlt (on1 r) t && rlt t (off0 r) then 1
  else if rle (off0 r) t && rle t (off1 r) then 1 - 1 / (off1 r - off0 r) * (t - off0 r)
  else 0.
Definition trapezoid_deriv (r : ramps) (t : R) : R :=
  if rle (off0 r) t && rle t (off1 r) then - 1 / (off1 r - off0 r)
  else if rle (on0 r) t && rle t (on1 r) then 1 / (on1 r - on0 r)
  else 0.
(** 701-742 [QuarterSineRampOnWaveform] *)
Definition quarter_sine (r : ramps) (t : R) : R :=
  if rlt t (on0 r) then 0
  else if rle (on0 r) t && rle t (on1 r) then sin (PI / 2 * (1 / (on1 r - on0 r)) * (t - on0 r))
  else if rlt (on1 r) t && rlt t (off0 r) then 1
  else if rle (off0 r) t && rle t (off1 r) then 1 - 1 / (off1 r - off0 r) * (t - off0 r)
  else 0.
Definition quarter_sine_deriv (r : ramps) (t : R) : R :=
  let p1 := rle (on0 r) t && rlt t (on1 r) in
  if rle (off0 r) t && rlt t (off1 r) && negb p1 then - 1 / (off1 r - off0 r)
  else if p1 then PI / 2 / (on1 r - on0 r) * cos (PI / 2 * (t - on0 r) / (on1 r - on0 r))
  else 0.
(** 764-814 [HalfSineWaveform] *)
Definition half_sine (r : ramps) (t : R) : R :=
  if rlt t (on0 r) then 0
  else if rle (on0 r) t && rle t (on1 r) then sin (PI / 2 * ((t - on0 r) / (on1 r - on0 r)))
  else if rlt (on1 r) t && rlt t (off0 r) then 1
  else if rle (off0 r) t && rle t (off1 r) then cos (PI / 2 * ((t - off0 r) / (off1 r - off0 r)))
  else 0.
Definition half_sine_deriv (r : ramps) (t : R) : R :=
  let p1 := rle (on0 r) t && rlt t (on1 r) in
  if rle (off0 r) t && rlt t (off1 r) && negb p1 then - PI / 2 / (off1 r - off0 r) * sin (PI / 2 * (t - off0 r) / (off1 r - off0 r))
  else if p1 then PI / 2 / (on1 r - on0 r) * cos (PI / 2 * (t - on0 r) / (on1 r - on0 r))
  else 0.
(** 641-670 [TriangularWaveform]: a trapezoid; its times and its [off_time]. *)
Record triangle := mkTri { tri_ramps : ramps; tri_off : R }.
Definition tri_set_peak (w : triangle) (peak : R) : result triangle :=
  if rle peak (tri_off w) then Ok (mkTri (mkRamps (on0 (tri_ramps w)) peak peak (off1 (tri_ramps w))) (tri_off w)) else Err ValueError.
Definition tri_init (start off peak : R) : result triangle := tri_set_peak (mkTri (mkRamps start peak peak off) off) peak.
(** 98-100, inherited *)
Definition tri_set_off (w : triangle) (off : R) : triangle := mkTri (tri_ramps w) off.
Definition tri_eval (w : triangle) (t : R) : R := trapezoid (tri_ramps w) t.

(** 829-904 [PiecewiseLinearWaveform]: nodes sorted by time ([np.argsort]; equal times in
    some order). *)
Fixpoint insert_node (p : R * R) (l : list (R * R)) : list (R * R) :=
  match l with [] => [p] | q :: l' => if rle (fst p) (fst q) then p :: l else q :: insert_node p l' end.
Fixpoint sort_nodes (l : list (R * R)) : list (R * R) := match l with [] => [] | p :: l' => insert_node p (sort_nodes l') end.
Definition pl_init (times currents : vec) : result (vec * vec) :=
  if negb (Nat.eqb (length times) (length currents)) then Err ValueError
  else match times with
       | [] => Err IndexError
       | _ => Ok (map fst (sort_nodes (combine times currents)), map snd (sort_nodes (combine times currents)))
       end.
(** [np.searchsorted] (left): the first index whose value is not below. *)
Fixpoint searchsorted (l : vec) (t : R) : nat :=
  match l with [] => O | x :: l' => if rlt x t then S (searchsorted l' t) else O end.
Definition pl_eval (times currents : vec) (t : R) : R :=
  if rle t (nth 0 times 0) then nth 0 currents 0
  else if rle (nth (length times - 1) times 0) t then nth (length currents - 1) currents 0
  else
    let i := searchsorted times t in
    (nth i currents 0 - nth (i - 1) currents 0) * (t - nth (i - 1) times 0) / (nth i times 0 - nth (i - 1) times 0) + nth (i - 1) currents 0.
Definition pl_deriv (times currents : vec) (t : R) : R :=
  if rlt (nth 0 times 0) t && rlt t (nth (length times - 1) times 0) then
    let i := searchsorted times t in
    (nth i currents 0 - nth (i - 1) currents 0) / (nth i times 0 - nth (i - 1) times 0)
  else 0.

(** 938-1007 [ExponentialWaveform] and its setters (off_time: 98-100, not checked). *)
Record expw := mkExpw { e_start : R; e_peak : R; e_tau : R; e_off : R }.
Definition exp_set_start (w : expw) (x : R) : result expw := if rlt x (e_off w) then Ok (mkExpw x (e_peak w) (e_tau w) (e_off w)) else Err ValueError.
Definition exp_set_peak (w : expw) (x : R) : result expw :=
  if rlt (e_start w) x && rle x (e_off w) then Ok (mkExpw (e_start w) x (e_tau w) (e_off w)) else Err ValueError.
Definition exp_set_tau (w : expw) (x : R) : result expw := if rlt 0 x then Ok (mkExpw (e_start w) (e_peak w) x (e_off w)) else Err ValueError.
Definition exp_set_off (w : expw) (x : R) : result expw := Ok (mkExpw (e_start w) (e_peak w) (e_tau w) x).
Definition exp_init (start peak tau off : R) : result expw :=
  do w <- exp_set_start (mkExpw start peak tau off) start; do w <- exp_set_peak w peak; exp_set_tau w tau.
(** 1009-1037 *)
Definition exp_eval (w : expw) (t : R) : R :=
  if rle t (e_start w) then 0
  else if rle t (e_peak w) then (1 - exp (- (t - e_start w) / e_tau w)) / (1 - exp (- (e_peak w - e_start w) / e_tau w))
  else if rlt t (e_off w) && rlt (e_peak w) t then - 1 / (e_off w - e_peak w) * (t - e_off w)
  else 0.
Definition exp_deriv (w : expw) (t : R) : R :=
  if rlt (e_peak w) t && rlt t (e_off w) then - 1 / (e_off w - e_peak w)
  else if rle t (e_peak w) && rle (e_start w) t then exp (- (t - e_start w) / e_tau w) / (e_tau w * (1 - exp (- (e_peak w - e_start w) / e_tau w)))
  else 0.
