(** Directives of joint inversions: simpeg/directives/_sim_directives.py 48-184 and 280-379, on
    the combined functions of objective_function.py 403-471.  Exact reals; targets and cooling
    factors are taken to be different from zero. *)
From Verif Require Export Py Vec.
Local Open Scope R_scope.

(** ** Settings *)
(** The directives in the order of the list: SimilarityMeasureInversionDirective (48-119),
    PairedBetaSchedule (280-330), MovingAndMultiTargetStopping (333-379) and
    SimilarityMeasureSaveOutputEveryIteration (122-164).  [set_dm] are the multipliers of the
    misfits, [set_nD] the numbers of their data. *)
Inductive directive := Measure | Schedule | Stopping | Save.
Record settings := { set_dirs : list directive; set_dm : list R; set_nD : list R;
  set_tol : R; set_update : bool; set_rate : nat; set_factor : R;
  set_stol : R; set_sbtol : R; set_disk : bool }.

(** ** The objects *)
(** Lists are objects: [js_heap] holds their values, [js_betas] is the one invProb.betas refers
    to and [js_saved] those the list [betas] of the saving directive refers to.  [js_mults] are
    the multipliers of the regularization, the last being the one of the coupling.
    [js_chi], [js_target] and [js_schi], [js_starget] are chifact_target and _target of the
    schedule and of the stopping directive. *)
Record js := mkJs { js_mults : vec; js_heap : list vec; js_betas : nat; js_lambd : R; js_phid : vec; js_phim : vec; js_sim : R;
  js_met : list bool; js_chi : R; js_target : option vec; js_schi : R; js_starget : option vec; js_stop : bool;
  js_saved : list nat; js_saved_d : list vec; js_file : list (vec * vec) }.
Definition cell (s : js) (p : nat) : vec := nth p (js_heap s) [].
Definition betas (s : js) : vec := cell s (js_betas s).
Definition set_betas (s : js) (h : list vec) (p : nat) : js :=
  mkJs (js_mults s) h p (js_lambd s) (js_phid s) (js_phim s) (js_sim s) (js_met s) (js_chi s) (js_target s) (js_schi s) (js_starget s) (js_stop s) (js_saved s) (js_saved_d s) (js_file s).
Definition store (p : nat) (v : vec) (h : list vec) : list vec := firstn p h ++ v :: skipn (S p) h.
(** 72-95 and 306-307, with the multipliers [mults] *)
Definition start (chi schi : R) (mults : vec) : js :=
  mkJs mults [removelast mults] 0 (last mults 0) [] [] 0 (map (fun _ => false) (removelast mults)) chi None schi None false [] [] [].

(** ** One iteration *)
(** What the optimisation hands over: the number of the iteration, the values of all misfits
    and regularizations at the new model, the objective, the new and the last model. *)
Record step := mkStep { st_iter : nat; st_d : vec; st_r : vec; st_x : vec; st_last : vec }.
(** [_last_obj_vals] (objective_function.py 455-470): functions with a zero multiplier are skipped. *)
Definition last_vals (mults vals : vec) : vec := map snd (filter (fun p => if Req_EM_T (fst p) 0 then false else true) (combine mults vals)).
(** 107-119 *)
Definition measure (g : settings) (i : step) (s : js) : result js :=
  let phid := last_vals (set_dm g) (st_d i) in
  let phim := last_vals (js_mults s) (st_r i) in
  match phim, js_mults s with
  | [], _ | _, [] => Err IndexError
  | _, _ => Ok (mkJs (js_mults s) (js_heap s ++ [removelast (js_mults s)]) (List.length (js_heap s)) (last (js_mults s) 0) phid (removelast phim) (last phim 0)
                 (js_met s) (js_chi s) (js_target s) (js_schi s) (js_starget s) (js_stop s) (js_saved s) (js_saved_d s) (js_file s))
  end.
(** 293-300 *)
Definition target_of (g : settings) (chi : R) (t : option vec) : vec := match t with Some t => t | None => map (fun n => n * chi) (set_nD g) end.
(** 316-328 for one beta *)
Definition cool (g : settings) (phi target b : R) : R :=
  let ratio := phi / target in
  if set_update g && (if Rle_dec ratio (1 + set_tol g) then true else false) then
    (if Rle_dec ratio 1 then b / Rmax (3 / 4) ratio else b / Rmin (3 / 2) ratio)
  else if Rlt_dec 1 ratio then b / set_factor g else b.
(** The loops over [phi_d_list]: entries beyond it stay. *)
Fixpoint cool_all (g : settings) (phis targets bs : vec) : vec :=
  match phis, targets, bs with
  | phi :: phis, t :: targets, b :: bs => cool g phi t b :: cool_all g phis targets bs
  | _, _, _ => bs
  end.
Fixpoint met_all (phis targets : vec) (met : list bool) : list bool :=
  match phis, targets, met with
  | phi :: phis, t :: targets, _ :: met => (if Rlt_dec phi t then true else false) :: met_all phis targets met
  | _, _, _ => met
  end.
(** 309-330 *)
Definition schedule (g : settings) (i : step) (s : js) : result js :=
  let t := target_of g (js_chi s) (js_target s) in
  let n := List.length (js_phid s) in
  if ((0 <? n) && (0 <? st_iter i) && (set_rate g =? 0))%nat then Err ZeroDivisionError
  else if ((n <=? List.length t) && (n <=? List.length (js_met s)) && (n <=? List.length (betas s)))%nat then
    let bs := if ((0 <? st_iter i) && (st_iter i mod set_rate g =? 0))%nat then cool_all g (js_phid s) t (betas s) else betas s in
    Ok (mkJs (bs ++ [last (js_mults s) 0]) (store (js_betas s) bs (js_heap s)) (js_betas s) (js_lambd s) (js_phid s) (js_phim s) (js_sim s)
          (met_all (js_phid s) t (js_met s)) (js_chi s) (if (n =? 0)%nat then js_target s else Some t) (js_schi s) (js_starget s) (js_stop s) (js_saved s) (js_saved_d s) (js_file s))
  else Err IndexError.
(** 363-379; a model change relative to a zero model is not a number, which is not larger than
    the tolerance, when the new model is zero too, and infinite otherwise. *)
Definition norm (v : vec) : R := sqrt (dot v v).
Definition small_change (tol : R) (x x0 : vec) : bool :=
  if Req_EM_T (norm x0) 0 then (if Req_EM_T (norm (vsub x x0)) 0 then true else false)
  else if Rlt_dec tol (norm (vsub x x0) / norm x0) then false else true.
Definition within (tol phi target : R) : bool := if Rle_dec tol (Rabs (1 - phi / target)) then false else true.
Definition stopping (g : settings) (i : step) (s : js) : result js :=
  let t := target_of g (js_schi s) (js_starget s) in
  let ok := forallb (fun p => within (set_sbtol g) (fst p) (snd p)) (combine (js_phid s) t) && small_change (set_stol g) (st_x i) (st_last i) in
  Ok (mkJs (js_mults s) (js_heap s) (js_betas s) (js_lambd s) (js_phid s) (js_phim s) (js_sim s) (js_met s) (js_chi s) (js_target s) (js_schi s) (Some t)
        (js_stop s || ok) (js_saved s) (js_saved_d s) (js_file s)).
(** 142-164: the file gets the values as they are now; [betas] and [phi_d] only. *)
Definition save (g : settings) (s : js) : result js :=
  Ok (mkJs (js_mults s) (js_heap s) (js_betas s) (js_lambd s) (js_phid s) (js_phim s) (js_sim s) (js_met s) (js_chi s) (js_target s) (js_schi s) (js_starget s) (js_stop s)
        (js_saved s ++ [js_betas s]) (js_saved_d s ++ [js_phid s]) (if set_disk g then js_file s ++ [(betas s, js_phid s)] else js_file s)).
Definition end_iter (g : settings) (i : step) (s : js) (d : directive) : result js :=
  match d with Measure => measure g i s | Schedule => schedule g i s | Stopping => stopping g i s | Save => save g s end.
Fixpoint end_iters (g : settings) (i : step) (ds : list directive) (s : js) : result js :=
  match ds with [] => Ok s | d :: ds => do s <- end_iter g i s d; end_iters g i ds s end.
(** A run, during which the user may also assign chifact_target. *)
Inductive event := Iteration (i : step) | SetChi (x : R) | SetStopChi (x : R).
Definition happen (g : settings) (e : event) (s : js) : result js :=
  match e with
  | Iteration i => end_iters g i (set_dirs g) s
  | SetChi x => Ok (mkJs (js_mults s) (js_heap s) (js_betas s) (js_lambd s) (js_phid s) (js_phim s) (js_sim s) (js_met s) x (js_target s) (js_schi s) (js_starget s) (js_stop s) (js_saved s) (js_saved_d s) (js_file s))
  | SetStopChi x => Ok (mkJs (js_mults s) (js_heap s) (js_betas s) (js_lambd s) (js_phid s) (js_phim s) (js_sim s) (js_met s) (js_chi s) (js_target s) x (js_starget s) (js_stop s) (js_saved s) (js_saved_d s) (js_file s))
  end.
Fixpoint run (g : settings) (es : list event) (s : js) : result js :=
  match es with [] => Ok s | e :: es => do s <- happen g e s; run g es s end.
(** 97-105 *)
Definition validate (ds : list directive) : result bool := match ds with Measure :: _ => Ok true | _ => Err IndexError end.
