(** Model of the directives in simpeg/directives/_directives.py that choose the initial
    trade-off parameter, the smoothness constants and the scales of several misfits. *)
From Verif Require Import Py Vec SensW PowerIt.
Local Open Scope R_scope.

(** Quotients: a division by zero gives inf or nan, here None. *)
Definition quot (a b : R) : option R := if Req_EM_T b 0 then None else Some (a / b).
(** 579-602 BetaEstimate_ByEig.initialize: [xd], [xr] are the vectors drawn for the two
    estimates. *)
Definition beta_by_eig (ratio : R) (n_pw : nat) (dm rg : terms) (xd xr : vec) : option R :=
  match eigenvalue dm xd n_pw, eigenvalue rg xr n_pw with
  | Some d, Some r => option_map (Rmult ratio) (quot d r)
  | _, _ => None
  end.
(** 486-501 BetaEstimateMaxDerivative.initialize: [gd], [gr] are the gradients of misfit and
    regularization, [x0] is drawn in [0, 1). *)
Definition absmax (v : vec) : R := vmax (map Rabs v).
Definition beta_by_max (ratio : R) (gd gr : vec -> vec) (m x0 : vec) : option R :=
  match quot 1 (vmax x0) with
  | Some i => let dm := vscale (vmax m) (vscale i x0) in option_map (Rmult ratio) (quot (absmax (gd m)) (absmax (gr (vadd m dm))))
  | None => None
  end.
(** 758-825 AlphasSmoothEstimate_ByEig.initialize: the constants of the smoothness terms,
    the ratios, the estimate for the (first) smallness and those of the smoothness terms. *)
Fixpoint quots (l : list (option R)) : option vec :=
  match l with
  | [] => Some []
  | Some x :: l' => option_map (cons x) (quots l')
  | None :: _ => None
  end.
Definition broadcast (v : vec) (n : nat) : result vec :=
  if Nat.eqb (length v) n then Ok v else if Nat.eqb (length v) 1 then Ok (vconst n (nth 0 v 0)) else Err ValueError.
Definition alphas_by_eig (alphas ratios : vec) (small : R) (smooth : vec) : result (option vec) :=
  do r <- broadcast ratios (length alphas);
  Ok (option_map (fun q => vmul (vmul alphas r) q) (quots (map (quot small) smooth))).
(** 915-947 ScalingMultipleDataMisfits_ByEig.initialize: [chi0] are the ratios, missing or an
    array; the estimates do not use n_pw_iter but the default (4) of the function. *)
Definition misfit_eigs (n_pw_iter : nat) (dms : list terms) (xs : list vec) : option vec :=
  quots (map (fun tx => eigenvalue (fst tx) (snd tx) 4) (combine dms xs)).
Definition scale_misfits (n_pw_iter : nat) (mults : vec) (chi0 : option vec) (dms : list terms) (xs : list vec) : result (option vec) :=
  if Nat.eqb (length dms) 1 then Err TypeError
  else
    do c <- match chi0 with Some c => broadcast c (length dms) | None => Ok mults end;
    Ok (match misfit_eigs n_pw_iter dms xs with
        | Some eigs => match quots (map (fun ce => quot (fst ce) (snd ce)) (combine c eigs)) with
                       | Some chi => quots (map (fun x => quot x (vsum chi)) chi)
                       | None => None
                       end
        | None => None
        end).

(** 950-1089 JointScalingSchedule. The multipliers of the misfit, which may be a list (as
    sums of misfits have them) or an array (as the directive above leaves them). *)
Record joint := mkJoint { jm : vec; is_array : bool }.
(** [np.median] *)
Definition median (l : vec) : R :=
  let s := rsort l in let n := length l in
  if Nat.even n then (nth (n / 2 - 1) s 0 + nth (n / 2) s 0) / 2 else nth (n / 2) s 0.
Record jconf := mkJconf { warming : R; chimin : R; chimax : R; rate : nat }.
Definition ltb (a b : R) : bool := if Rlt_dec a b then true else false.
Definition select {A} (ix : list bool) (l : list A) : list A := map snd (filter fst (combine ix l)).
Definition scale_at (ix : list bool) (c : R) (v : vec) : vec := map (fun bx : bool * R => if fst bx then c * snd bx else snd bx) (combine ix v).
(** 1064-1089 endIter. [has_target] tells whether a MultiTargetMisfits is among the
    directives (1047-1059); without it [self.targetclass] does not exist. Quotients with a
    misfit of zero (infinite) are [Err GenericException]. *)
Definition end_iter (c : jconf) (has_target : bool) (s : joint) (dms targets : vec) (iter : nat) : joint * option exn :=
  if negb has_target then (s, Some AttributeError)
  else
    let mode2 := existsb (fun p => ltb (fst p) (snd p)) (combine dms targets) in
    if andb (andb (Nat.ltb 0 iter) (Nat.eqb (iter mod rate c) 0)) mode2 then
      if andb (forallb (fun x => ltb (chimin c) x) (jm s)) (forallb (fun x => ltb x (chimax c)) (jm s)) then
        let ix := map (fun p => ltb (snd p) (fst p)) (combine dms targets) in
        if existsb (fun b => b) ix then
          match quots (map (fun p => quot (snd p) (fst p)) (select (map negb ix) (combine dms targets))) with
          | None => (s, Some GenericException)
          | Some q =>
              let f := warming c * median q in
              let m1 := scale_at ix f (jm s) in
              if is_array s then (mkJoint (vscale (/ vsum m1) m1) true, None)
              else if Nat.eqb (length (filter (fun b => b) ix)) 1 then (mkJoint m1 false, Some TypeError)
              else (s, Some TypeError)
          end
        else (s, None)
      else (s, None)
    else (s, None).
Record jin := mkJin { j_dms : vec; j_targets : vec; j_iter : nat }.
Definition jrun (c : jconf) (s : joint) (l : list jin) : joint :=
  fold_left (fun s i => fst (end_iter c true s (j_dms i) (j_targets i) (j_iter i))) l s.
