(** Model of simpeg/optimization.py [ProjectedGradient] (1134-1262). *)
From Verif Require Import Py Vec Optim.
Local Open Scope R_scope.

(** Hidden state kept by [startup] (1156-1166) and [_doEndIteration_ProjectedGradient].
    [pg_dmax]: f_decrease_max, [None] for -inf. *)
Record pgst := mkPg { pg_explorePG : bool; pg_exploreCG : bool; pg_aprev : list bool; pg_dmax : option R }.

Definition beq_vec (a b : list bool) : bool := forallb (fun ab => Bool.eqb (fst ab) (snd ab)) (combine a b).

(** 1156-1166 (aSet_prev is computed from the unprojected starting model). *)
Definition pg_startup (B : bounds) (x0 : vec) : pgst := mkPg true false (activeSet B x0) None.

Section PG.
  Context (B : bounds).
  (** [cg xc g]: the step returned by scipy's cg on the reduced system 1203-1227,
      already brought up to full size (external code, arbitrary here). *)
  Context (cg : vec -> vec -> vec).
  (** 1168-1229 [findSearchDirection]: the direction ... *)
  Definition pg_dir (s : ost) (h : pgst) : vec :=
    let allActive := Nat.eqb (count_true (activeSet B (o_xc s))) (length (o_xc s)) in
    if pg_explorePG h || negb (pg_exploreCG h) || allActive then vopp (o_g s)
    else cg (o_xc s) (o_g s).
  (** ... and 1231-1251, which runs before the base class updates f and xc;
      aSet_prev (1174) and the reset of f_decrease_max (1199) are folded in. *)
  Definition pg_hook (s : ost) (xt : vec) (h : pgst) : pgst :=
    let aprev := activeSet B (o_xc s) in
    let allActive := Nat.eqb (count_true aprev) (length (o_xc s)) in
    let dmax := if pg_explorePG h || negb (pg_exploreCG h) || allActive then pg_dmax h else None in
    let aSet := activeSet B xt in
    let bSet := bindingSet B (o_g s) xt in
    let explorePG := negb (beq_vec aSet aprev) in
    let exploreCG := beq_vec aSet bSet in
    match o_iter s with
    | O => mkPg explorePG exploreCG aprev None
    | S _ =>
        match xbin Rminus (o_flast s) (o_f s) with
        | None => mkPg explorePG exploreCG aprev dmax
        | Some dec =>
            let m := match dmax with None => dec | Some d => Rmax d dec end in
            if Rlt_dec dec (0.25 * m) then mkPg false true aprev (Some m)
            else mkPg explorePG exploreCG aprev (Some m)
        end
    end.
  (** 1144-1145: the stoppers. *)
  Definition pg_stoppers (o : oopts) := default_stoppers (projection B) o ++ [st_binding B].
  Definition pg_stoppersLS (o : oopts) (s : ost) := default_stoppersLS (p_ls o) false ++ [st_bindingLS B (o_g s)].

  Definition pg_minimize (phi : vec -> option R) (grad : vec -> vec) (o : oopts) (x0 : vec) :=
    minimize (fun _ => phi) (fun _ => grad) (projection B) o (pg_stoppers o) (pg_stoppersLS o)
             pg_dir (fun s xt h => (pg_hook s xt h, false)) (S (p_maxIter o)) x0 (pg_startup B x0).
End PG.
