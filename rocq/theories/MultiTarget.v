(** Model of MultiTargetMisfits (simpeg/directives/_directives.py 1188-1645) and
    PGI_BetaAlphaSchedule (simpeg/directives/_pgi_directives.py 133-322). *)
From Coq Require Import Reals.
From Verif Require Import Py Vec Scaling.
Local Open Scope R_scope.

(** The petrophysical smallness of the regularization: none, with approximate evaluation, or with
    exact evaluation. *)
Inductive pgi := NoPgi | Approx | Exact.
(** [g_nD]: numbers of data of the misfits; [g_two]: the regularization is a sum of sums (1379);
    number of parameters. *)
Record ground := mkGround { g_nD : vec; g_pgi : pgi; g_two : bool; g_nP : nat }.
(** What is evaluated at a model: the misfits, the smallness without and with external weights, the
    diagonal of its weights, and the distance of the mixture from its reference (1550-1596). *)
Record measure := mkMeasure { a_dm : vec; a_ms : bool -> R; a_W : vec; a_theta : R }.
(** chifact, _phi_d_star, _DMtarget, TriggerSmall, chiSmall, _phi_ms_star, _CLtarget, WeightsInTarget,
    TriggerTheta, ToleranceTheta; _DM, _CL, _DP, dmlist, targetlist; opt.stopNextIteration *)
Record mtm := mkMtm { k_chi : vec; k_star : option vec; k_dmt : option vec; k_trig : bool; k_chiS : R; k_ms : option R; k_clt : option R; k_w : bool;
  k_theta : bool; k_tol : R; k_DM : bool; k_CL : bool; k_DP : bool; k_dm : option vec; k_hit : option (list bool); k_stop : bool }.
(** 1189-1221; a number is an array of one *)
Definition new_mtm (w : bool) (chi : vec) (star : option vec) (trig : bool) (chiS : R) (ms : option R) (theta : bool) (tol : R) : mtm :=
  mkMtm chi star None trig chiS ms None w theta tol false false false None None false.
Definition with_targets (st : mtm) (chi : vec) (star dmt : option vec) : mtm :=
  mkMtm chi star dmt (k_trig st) (k_chiS st) (k_ms st) (k_clt st) (k_w st) (k_theta st) (k_tol st) (k_DM st) (k_CL st) (k_DP st) (k_dm st) (k_hit st) (k_stop st).
Definition with_small (st : mtm) (chiS : R) (ms clt : option R) : mtm :=
  mkMtm (k_chi st) (k_star st) (k_dmt st) (k_trig st) chiS ms clt (k_w st) (k_theta st) (k_tol st) (k_DM st) (k_CL st) (k_DP st) (k_dm st) (k_hit st) (k_stop st).
Definition with_flags (st : mtm) (a b c : bool) (dm : option vec) (hit : option (list bool)) (stop : bool) : mtm :=
  mkMtm (k_chi st) (k_star st) (k_dmt st) (k_trig st) (k_chiS st) (k_ms st) (k_clt st) (k_w st) (k_theta st) (k_tol st) a b c dm hit stop.
Definition with_trig (st : mtm) (b : bool) : mtm :=
  mkMtm (k_chi st) (k_star st) (k_dmt st) b (k_chiS st) (k_ms st) (k_clt st) (k_w st) (k_theta st) (k_tol st) (k_DM st) (k_CL st) (k_DP st) (k_dm st) (k_hit st) (k_stop st).
(** Assignments 1249-1252, 1276-1282, 1494-1496, 1296-1299, 1313-1318, 1535-1537 *)
Inductive assign := AChi (v : vec) | AStar (v : option vec) | ATarget (v : vec) | AChiSmall (x : R) | AMs (x : option R) | ACl (x : R).
Definition set_to (st : mtm) (a : assign) : mtm :=
  match a with
  | AChi v => with_targets st v (k_star st) None
  | AStar v => with_targets st (k_chi st) v None
  | ATarget v => with_targets st (k_chi st) (k_star st) (Some v)
  | AChiSmall x => with_small st x (k_ms st) None
  | AMs x => with_small st (k_chiS st) x None
  | ACl x => with_small st (k_chiS st) (k_ms st) (Some x)
  end.
(** Product of arrays *)
Definition times (a b : vec) : result vec :=
  if Nat.eqb (length a) (length b) then Ok (vmul a b)
  else if Nat.eqb (length a) 1 then Ok (vscale (nth 0 a 0) b)
  else if Nat.eqb (length b) 1 then Ok (vscale (nth 0 b 0) a)
  else Err ValueError.

Section Mtm.
  Context (g : ground).
  (** 1254-1274, 1488-1492 *)
  Definition dm_target (st : mtm) : mtm * result vec :=
    match k_dmt st with
    | Some t => (st, Ok t)
    | None =>
        let star := match k_star st with Some v => v | None => g_nD g end in
        let st := with_targets st (k_chi st) (Some star) None in
        match times (k_chi st) star with
        | Ok t => (with_targets st (k_chi st) (Some star) (Some t), Ok t)
        | Err e => (st, Err e)
        end
    end.
  (** 1498-1520: the exact evaluation is called with a keyword it has not (externalW) *)
  Definition cl_target (st : mtm) : mtm * result R :=
    match g_pgi g with
    | Exact => (st, Err TypeError)
    | _ =>
        match k_clt st with
        | Some t => (st, Ok t)
        | None => let ms := match k_ms st with Some x => x | None => INR (g_nP g) end in
                  (with_small st (k_chiS st) (Some ms) (Some (k_chiS st * ms)), Ok (k_chiS st * ms))
        end
    end.
  (** ~ of a bool is -1 or -2 *)
  Definition tilde (b : bool) : Z := (- 1 - (if b then 1 else 0))%Z.
  (** 1522-1533 *)
  Definition normal (st : mtm) (W : vec) : R :=
    if Z.eqb (tilde (k_w st)) 0 then vsum (map (fun x => x ^ 2) W) / INR (g_nP g) else 1.
  (** 1539-1548 *)
  Definition phims (st : mtm) (x : measure) : R := a_ms x (k_w st) / normal st (a_W x).
  (** 1376-1445 *)
  Definition initialize (st : mtm) (x : measure) : mtm :=
    let st := with_flags st (k_DM st) (k_CL st) (k_DP st) (Some (a_dm x)) (k_hit st) (k_stop st) in
    match g_pgi g with NoPgi => if g_two g then st else with_trig st false | _ => st end.
  Definition has_pgi : bool := match g_pgi g with NoPgi => false | _ => true end.
  (** 1598-1645; zip stops with the shorter list; a sum of regularizations has no gmm (1553) *)
  Definition hits (dm t : vec) : list bool := map (fun p => ltb (fst p) (snd p)) (combine dm t).
  Definition end_iter (st : mtm) (x : measure) : mtm * result unit :=
    let st := with_flags st false true true (Some (a_dm x)) (k_hit st) (k_stop st) in
    match dm_target st with
    | (st, Err e) => (st, Err e)
    | (st, Ok t) =>
        let h := hits (a_dm x) t in
        let st := with_flags st (forallb (fun b => b) h) true true (k_dm st) (Some h) (k_stop st) in
        let small := if (k_trig st && has_pgi)%bool then
                       match cl_target st with
                       | (st, Err e) => (st, Err e)
                       | (st, Ok c) => (with_flags st (k_DM st) (negb (ltb c (phims st x))) true (k_dm st) (k_hit st) (k_stop st), Ok tt)
                       end
                     else (st, Ok tt) in
        match small with
        | (st, Err e) => (st, Err e)
        | (st, Ok _) =>
            if (k_theta st && (g_two g || negb has_pgi))%bool then (st, Err AttributeError)
            else
              let st := if k_theta st then with_flags st (k_DM st) (k_CL st) (negb (ltb (k_tol st) (a_theta x))) (k_dm st) (k_hit st) (k_stop st) else st in
              let stop := (k_DM st && k_CL st && k_DP st)%bool in
              (with_flags st (k_DM st) (k_CL st) (k_DP st) (k_dm st) (k_hit st) (k_stop st || stop), Ok tt)
        end
    end.
End Mtm.

(** ** PGI_BetaAlphaSchedule *)
(** tolerance, progress, coolingFactor, warmingFactor, alphasmax, betamin, update_rate (positive),
    ratio_in_cooling *)
Record sconf := mkSconf { c_tol : R; c_prog : R; c_cf : R; c_wf : R; c_amax : R; c_bmin : R; c_rate : nat; c_ratio : bool }.
(** mode, previous_dmlist, beta, alpha_pgi *)
Record sstate := mkS { b_mode : nat; b_prev : vec; b_beta : R; b_alpha : R }.
(** 156-159: before the other directive has been initialized it has no dmlist *)
Definition s_init (mt : mtm) (mode : nat) (beta alpha : R) : result sstate :=
  match k_dm mt with Some dm => Ok (mkS mode dm beta alpha) | None => Err AttributeError end.
Section Sched.
  Context (c : sconf).
  (** 236-244; quotients of positive numbers *)
  Definition cool (t dm : vec) (beta : R) : R :=
    let over := filter (fun p => ltb ((1 + c_tol c) * snd p) (fst p)) (combine dm t) in
    let ratio := match over with [] => 1 | _ => if c_ratio c then median (map (fun p => fst p / snd p) over) else 1 end in
    beta / (c_cf c * ratio).
  (** 246-251 *)
  Definition warm (t dm : vec) (alpha : R) : R := alpha * (c_wf c * median (map (fun p => snd p / fst p) (combine dm t))).
  (** 161-234, with the misfits [dm], targets [t], hits [h] and DM [all] of the other directive, which
      are lists of one length *)
  Definition s_end (iter : nat) (dm t : vec) (h : list bool) (all : bool) (st : sstate) : sstate :=
    let mode := if all then 2%nat else b_mode st in
    if (Nat.eqb iter 0 || negb (Nat.eqb (iter mod c_rate c) 0))%bool then mkS mode dm (b_beta st) (b_alpha st)
    else
      let missed := select (map negb h) (combine (combine dm t) (b_prev st)) in
      if (forallb (fun p => ltb (Rmax ((1 - c_prog c) * snd p) (snd (fst p))) (fst (fst p))) missed && negb all && Nat.eqb mode 1 && ltb (c_bmin c) (b_beta st))%bool
      then mkS mode dm (cool t dm (b_beta st)) (b_alpha st)
      else if (all && Nat.eqb mode 2 && ltb (b_alpha st) (c_amax c))%bool
      then mkS mode dm (b_beta st) (warm t dm (b_alpha st))
      else if (existsb (fun p => ltb ((1 + c_tol c) * snd p) (fst p)) (combine dm t) && Nat.eqb mode 2 && ltb (c_bmin c) (b_beta st))%bool
      then mkS mode dm (cool t dm (b_beta st)) (b_alpha st)
      else mkS mode dm (b_beta st) (b_alpha st).
  (** A run with both directives, the targets first; [xs] are the misfits after iterations
      [iter], [iter + 1] ... *)
  Fixpoint s_run (iter : nat) (t : vec) (xs : list vec) (st : sstate) : sstate :=
    match xs with
    | [] => st
    | dm :: xs => let h := hits dm t in s_run (S iter) t xs (s_end iter dm t h (forallb (fun b => b) h) st)
    end.
End Sched.
