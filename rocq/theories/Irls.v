(** Model of simpeg/directives/_regularization.py: [UpdateIRLS]. *)
From Verif Require Import Py Vec.
Local Open Scope R_scope.

(** 70-98: options.  [o_nD]: number of data, so that [misfit_from_chi_factor] (212-226)
    is chi * nD. *)
Record iopts := mkIo {
  o_rate : nat; o_chi_start : R; o_chi_target : R; o_irls_cool : R; o_fmin : R;
  o_max : nat; o_tol : R; o_nD : nat }.
(** What the setters (112-210) accept, and a survey with data. *)
Definition io_valid (o : iopts) : Prop :=
  (1 <= o_rate o)%nat /\ 0 < o_chi_start o /\ 0 < o_chi_target o /\ 0 < o_irls_cool o /\
  0 < o_fmin o /\ 0 <= o_tol o /\ (0 < o_nD o)%nat.
Definition misfit_of (o : iopts) (chi : R) : R := INR (o_nD o) * chi.

(** A term of the regularization: a [Sparse] one with the norms and thresholds of its
    children, or any other ([None]). *)
Record sreg := mkSr { s_norms : list R; s_thr : list R }.
(** The directive (with [IRLSMetrics], 20-39), beta, the cooling factor, the stop flag and
    the regularization. *)
Record irls := mkI {
  i_input : list (option (list R)); i_count : nat; i_start : option nat; i_fold : R;
  i_cf : R; i_beta : R; i_stop : bool; i_regs : list (option sreg) }.

(** 247-260 [initialize] *)
Definition irls_init (s : irls) : irls :=
  mkI (map (option_map s_norms) (i_regs s)) 0 None 0 (i_cf s) (i_beta s) (i_stop s)
      (map (option_map (fun r => mkSr (map (fun _ => 2) (s_norms r)) (s_thr r))) (i_regs s)).

(** 170-174 the [cooling_factor] setter *)
Definition set_cf (s : irls) (c : R) : result irls :=
  if Rlt_dec 0 c then Ok (mkI (i_input s) (i_count s) (i_start s) (i_fold s) c (i_beta s) (i_stop s) (i_regs s)) else Err ValueError.
(** 228-245; a misfit of zero makes 1 / ratio infinite and the factor 0 (or raises). *)
Definition adjust (o : iopts) (s : irls) (phi_d : R) : result irls :=
  match i_start s with
  | None => Ok s
  | Some _ =>
      let ratio := phi_d / misfit_of o (o_chi_target o) in
      if Rlt_dec (o_tol o) (Rabs (1 - ratio)) then
        if Req_EM_T ratio 0 then Err ValueError
        else if Rlt_dec 1 ratio then set_cf s (1 / ((0.75 + 1 / ratio) / 2))
        else set_cf s (1 / ((2 + 1 / ratio) / 2))
      else set_cf s 1
  end.

(** 311-348 [start_irls]; [pct] holds the percentiles of the children's values (divided by
    the base length for gradients), which must be positive (sparse.py 98-102). *)
Fixpoint set_thresholds (regs : list (option sreg)) (inputs : list (option (list R))) (pct : list (list R)) : result (list (option sreg)) :=
  match regs, inputs, pct with
  | Some r :: regs', Some ns :: inputs', p :: pct' =>
      if existsb (fun x => if Rlt_dec 0 x then false else true) p then Err ValueError
      else do tl <- set_thresholds regs' inputs' pct'; Ok (Some (mkSr ns p) :: tl)
  | None :: regs', _ :: inputs', _ :: pct' => do tl <- set_thresholds regs' inputs' pct'; Ok (None :: tl)
  | _, _, _ => Ok regs
  end.
Definition start_irls (s : irls) (it : nat) (pct : list (list R)) : result irls :=
  do regs <- set_thresholds (i_regs s) (i_input s) pct;
  Ok (mkI (i_input s) (i_count s) (Some it) (i_fold s) 1 (i_beta s) (i_stop s) regs).

(** 388-425 [stopping_criteria] for the value [phim] of the sparse terms at the model. *)
Definition stopping (o : iopts) (s : irls) (phi_d phim : R) : bool * R :=
  if Nat.eqb (i_count s) (o_max o) then (true, i_fold s)
  else
    let f_change := Rabs (i_fold s - phim) / (i_fold s + 1e-12) in
    if Rlt_dec f_change (o_fmin o) then
      if Nat.ltb 1 (i_count s) then
        if Rlt_dec (Rabs (1 - phi_d / misfit_of o (o_chi_target o))) (o_tol o) then (true, i_fold s)
        else (false, phim)
      else (false, phim)
    else (false, phim).

(** 287-293: thresholds are divided. *)
Definition cool (o : iopts) (regs : list (option sreg)) : list (option sreg) :=
  map (option_map (fun r => mkSr (s_norms r) (map (fun t => t / o_irls_cool o) (s_thr r)))) regs.

(** 307-309 *)
Definition beta_step (o : iopts) (s : irls) (it : nat) : irls :=
  if Nat.ltb 0 it && Nat.eqb (it mod o_rate o) 0
  then mkI (i_input s) (i_count s) (i_start s) (i_fold s) (i_cf s) (i_beta s / i_cf s) (i_stop s) (i_regs s) else s.

(** 262-309 [endIter].  [it >= start], so the subtraction of line 279 is exact. *)
Definition endIter (o : iopts) (s : irls) (it : nat) (phi_d phim : R) (pct : list (list R)) : result irls :=
  do s1 <- adjust o s phi_d;
  do s2 <- match i_start s1 with
           | None => if Rlt_dec phi_d (misfit_of o (o_chi_start o)) then start_irls s1 it pct else Ok s1
           | Some _ => Ok s1
           end;
  match i_start s2 with
  | Some k =>
      if Nat.eqb ((it - k) mod o_rate o) 0 then
        let '(b, fo) := stopping o s2 phi_d phim in
        if b then Ok (mkI (i_input s2) (i_count s2) (i_start s2) fo (i_cf s2) (i_beta s2) true (i_regs s2))
        else
          Ok (beta_step o (mkI (i_input s2) (S (i_count s2)) (i_start s2) fo (i_cf s2) (i_beta s2) false (cool o (i_regs s2))) it)
      else Ok (beta_step o s2 it)
  | None => Ok (beta_step o s2 it)
  end.

(** The observations at the end of an iteration: the data misfit, the sparse terms and the
    percentiles. *)
Record iobs := mkOb { ob_phi : R; ob_phim : R; ob_pct : list (list R) }.
(** Iterations [it], [it+1], ... *)
Fixpoint irls_run (o : iopts) (s : irls) (it : nat) (obs : list iobs) : result irls :=
  match obs with
  | [] => Ok s
  | b :: obs' => do s' <- endIter o s it (ob_phi b) (ob_phim b) (ob_pct b); irls_run o s' (S it) obs'
  end.
