From Verif Require Import Py Vec VecDeriv Joint Cplx CplxFacts SolveDeriv RichardsFacts RichardsFacts2 RichardsFacts3 DcFacts Fdem SpecFdem FdemFacts.
From Coq Require Import Reals Lra Lia.
Local Open Scope R_scope.

Section Maxwell.
  Context (s : fdem) (SZ : sizes s) (m : vec) (src : source) (SO : src_ok s src) (NF : no_zero (Fm s m)) (NE : no_zero (Em s m)).
  Notation nE := (f_nE s). Notation nF := (f_nF s). Notation w := (omega (s_freq src)).
  Lemma NF' i : (i < nF)%nat -> nth i (Fm s m) 0 <> 0. Proof. intros. apply NF. rewrite len_Fm' by exact SZ. assumption. Qed.
  Lemma NE' i : (i < nE)%nat -> nth i (Em s m) 0 <> 0. Proof. intros. apply NE. rewrite len_Em' by exact SZ. assumption. Qed.
  (** What the fields of Maxwell's equations make of each name *)
  Definition spec_field (x : fname) (a b : cvec) : cvec :=
    if isEB s then
      match x with
      | Fe => a
      | Fb => cadd (bPrim s src) b
      | Fh => cmap (vmul (f_MfI s)) (cmap (vmul (Fm s m)) (cadd (bPrim s src) b))
      | Fj => cmap (vmul (f_MeI s)) (cmap (vmul (Em s m)) a)
      | _ => b
      end
    else
      match x with
      | Fj => a
      | Fh => cadd (hPrim s src) b
      | Fb => cmap (vmul (f_MeI s)) (cmap (vmul (Em s m)) (cadd (hPrim s src) b))
      | Fe => cmap (vmul (f_MfI s)) (cmap (vmul (Fm s m)) a)
      | _ => b
      end.
  (** The two fields of Maxwell's equations, from the solution *)
  Definition first (u : cvec) : cvec := getfield s m m src (if isEB s then Fe else Fj) u.
  Definition second (u : cvec) : cvec := if isEB s then bSecondary s m m src u else hSecondary s m m src u.
  Lemma E_EI a : clen nE a -> cmap (vmul (Em s m)) (cmap (vmul (EI s m)) a) = a.
  Proof. intros. cext (f_nE s); rewrite nth_EI by (exact SZ || assumption); split; field; apply NE'; assumption. Qed.
  Lemma EI_E a : clen nE a -> cmap (vmul (EI s m)) (cmap (vmul (Em s m)) a) = a.
  Proof. intros. cext (f_nE s); rewrite nth_EI by (exact SZ || assumption); split; field; apply NE'; assumption. Qed.
  Lemma F_cancel a b : clen nF a -> clen nF b -> cmap (vmul (Fm s m)) a = cmap (vmul (Fm s m)) b -> a = b.
  Proof.
    intros La Lb E. apply (c_ext nF); try assumption. intros i Hi. pose proof (cre_eq i _ _ E) as R. pose proof (cim_eq i _ _ E) as I.
    revert R I. cent (f_nF s). intros R I. pose proof (NF' i Hi). split; (eapply Rmult_eq_reg_l; [eassumption|assumption]).
  Qed.
  Lemma len_RHS : clen (dim s) (getRHS s m src).
  Proof.
    pose proof (len_s_m s SZ m src SO) as A. pose proof (len_s_e s SZ m src SO) as B. unfold getRHS, dim, isEB in *. destruct (f_form s); cln.
  Qed.
  Lemma len_first u : clen (dim s) u -> clen (if isEB s then nE else nF) (first u).
  Proof. pose proof (len_s_m s SZ m src SO) as A. pose proof (len_s_e s SZ m src SO) as B. unfold first, dim, getfield, isEB in *. destruct (f_form s); intros; cln. Qed.
  Lemma len_second u : clen (dim s) u -> clen (if isEB s then nF else nE) (second u).
  Proof. pose proof (len_s_m s SZ m src SO) as A. pose proof (len_s_e s SZ m src SO) as B. unfold second, dim, bSecondary, hSecondary, isEB in *. destruct (f_form s); intros; cln. Qed.
  Lemma maxwell u : clen (dim s) u -> cact (getA s (s_freq src) m) u = getRHS s m src -> faraday_ampere s m src (first u) (second u).
  Proof.
    intros L E. rewrite A_apply in E by assumption. unfold getRHS in E. pose proof (len_s_m s SZ m src SO) as A. pose proof (len_s_e s SZ m src SO) as B. pose proof (omega_ok s src SO) as W.
    unfold faraday_ampere, first, second, dim, getfield, bSecondary, hSecondary, isEB in *. cbv zeta in *. destruct (f_form s) eqn:K.
    - split.
      + cext (f_nF s). split; field; exact W.
      + push s SZ. apply (c_ext nE); [solve [cln]|solve [cln]|]. intros i Hi. pose proof (cre_eq i _ _ E) as R. pose proof (cim_eq i _ _ E) as I. revert R I. cent (f_nE s). intros R I.
        set (X := cre i (cmap (curlT s) (cmap (vmul (Fm s m)) (s_m s m src)))) in *. set (Y := cim i (cmap (curlT s) (cmap (vmul (Fm s m)) (s_m s m src)))) in *. set (t := nth i (Em s m) 0) in *. split.
        * replace Y with (cim i (cmap (curlT s) (cmap (vmul (Fm s m)) (cmap (curl s) u))) + w * (t * cre i u) + w * cre i (s_e s m src)) by lra. field. exact W.
        * replace X with (cre i (cmap (curlT s) (cmap (vmul (Fm s m)) (cmap (curl s) u))) + - w * (t * cim i u) - w * cim i (s_e s m src)) by lra. field. exact W.
    - split.
      + apply F_cancel in E; [|solve [cln]|solve [cln]]. push s SZ. apply (c_ext nF); [solve [cln]|solve [cln]|]. intros i Hi. pose proof (cre_eq i _ _ E) as R. pose proof (cim_eq i _ _ E) as I. revert R I. cent (f_nF s). intros R I. lra.
      + rewrite E_EI by (solve [cln]). cext (f_nE s). split; ring.
    - split.
      + rewrite E_EI by (solve [cln]). cext (f_nE s). split; field; exact W.
      + apply F_cancel in E; [|solve [cln]|solve [cln]]. push s SZ. apply (c_ext nF); [solve [cln]|solve [cln]|]. intros i Hi. pose proof (cre_eq i _ _ E) as R. pose proof (cim_eq i _ _ E) as I. revert R I. cent (f_nF s). intros R I.
        set (X := cre i (cmap (curl s) (cmap (vmul (EI s m)) (s_m s m src)))) in *. set (Y := cim i (cmap (curl s) (cmap (vmul (EI s m)) (s_m s m src)))) in *. set (Z := cmap (curl s) (cmap (vmul (EI s m)) (cmap (curlT s) (cmap (vmul (Fm s m)) u)))) in *. split.
        * replace Y with (cim i Z + w * cre i u + w * cre i (s_e s m src)) by lra. field. exact W.
        * replace X with (cre i Z + - w * cim i u - w * cim i (s_e s m src)) by lra. field. exact W.
    - split; [|reflexivity || (cext (f_nF s); split; ring)]. push s SZ.
      apply (c_ext nE); [solve [cln]|solve [cln]|]. intros i Hi. pose proof (cre_eq i _ _ E) as R. pose proof (cim_eq i _ _ E) as I. revert R I. cent (f_nE s). intros R I. lra.
  Qed.
  (** Each field is made of the first two *)
  Lemma field_spec x u : clen (dim s) u -> (x <> FhSec) -> (isEB s = false -> x <> FbSec) -> getfield s m m src x u = spec_field x (first u) (second u).
  Proof.
    intros L X1 X2. pose proof (len_s_m s SZ m src SO) as A. pose proof (len_s_e s SZ m src SO) as B.
    unfold spec_field, first, second, dim, getfield, isEB in *. cbv zeta in *. destruct (f_form s) eqn:K; destruct x; try reflexivity; try (exfalso; apply X1; reflexivity); try (exfalso; apply X2; reflexivity).
    rewrite E_EI by (solve [cln]). reflexivity.
  Qed.
  (** Maxwell's equations determine the solution *)
  Lemma maxwell_solves a b : clen (if isEB s then nE else nF) a -> clen (if isEB s then nF else nE) b -> faraday_ampere s m src a b ->
    let u := match f_form s with FormE | FormJ => a | _ => b end in
    cact (getA s (s_freq src) m) u = getRHS s m src /\ first u = a /\ second u = b.
  Proof.
    intros La Lb H. pose proof (len_s_m s SZ m src SO) as A. pose proof (len_s_e s SZ m src SO) as B. pose proof (omega_ok s src SO) as W.
    unfold faraday_ampere, first, second, getfield, getRHS, bSecondary, hSecondary, isEB in *. cbv zeta in *.
    assert (Lu : clen (dim s) match f_form s with FormE | FormJ => a | _ => b end) by (unfold dim; destruct (f_form s); assumption).
    rewrite A_apply by assumption. clear Lu. destruct (f_form s) eqn:K; destruct H as [H1 H2].
    - split; [|split; [reflexivity|]].
      + rewrite <- H1, <- H2. push s SZ. cext (f_nE s). split; ring.
      + rewrite <- H1. cext (f_nF s). split; field; exact W.
    - split; [|split; [|reflexivity]].
      + f_equal. rewrite <- H1, <- H2. push s SZ. rewrite EI_E by assumption. cext (f_nF s). split; ring.
      + rewrite <- H2. rewrite <- (EI_E a) at 2 by assumption. f_equal. cext (f_nE s). split; ring.
    - split; [|split; [reflexivity|]].
      + f_equal. rewrite <- H1, <- H2. push s SZ. rewrite EI_E by assumption. cext (f_nF s). split; ring.
      + rewrite <- H1. rewrite <- (EI_E b) at 2 by assumption. f_equal. cext (f_nE s). split; field; exact W.
    - split; [|split; [|reflexivity]].
      + rewrite <- H1, <- H2. push s SZ. cext (f_nE s). split; ring.
      + rewrite <- H2. cext (f_nF s). split; ring.
  Qed.
End Maxwell.

Section Solved.
  Context (s : fdem) (SZ : sizes s).
  Definition sol (m : vec) (src : source) : cvec := f_solve s (getA s (s_freq src) m) (getRHS s m src).
  Lemma len_sol m src : src_ok s src -> clen (dim s) (sol m src).
  Proof. intros. apply len_solve; [exact SZ|]. apply len_RHS; assumption. Qed.
  Lemma sol_ok srcs m src : solvable s srcs m -> In src srcs -> src_ok s src -> cact (getA s (s_freq src) m) (sol m src) = getRHS s m src.
  Proof. intros (_ & _ & _ & H) I SO. apply (H src I). apply len_RHS; assumption. Qed.
  Lemma sol_maxwell srcs m src : solvable s srcs m -> In src srcs -> src_ok s src -> faraday_ampere s m src (first s m src (sol m src)) (second s m src (sol m src)).
  Proof. intros S I SO. pose proof S as (_ & NF & NE & _). apply maxwell; try assumption; [apply len_sol; assumption|eapply sol_ok; eassumption]. Qed.
  Lemma maxwell_unique srcs m src a b : solvable s srcs m -> In src srcs -> src_ok s src ->
    clen (if isEB s then f_nE s else f_nF s) a -> clen (if isEB s then f_nF s else f_nE s) b -> faraday_ampere s m src a b ->
    first s m src (sol m src) = a /\ second s m src (sol m src) = b.
  Proof.
    intros S I SO La Lb H. pose proof S as (_ & NF & NE & HS). pose proof (maxwell_solves s SZ m src SO NE a b La Lb H) as M. cbv zeta in M. destruct M as (M & M1 & M2).
    set (u := match f_form s with FormE | FormJ => a | _ => b end) in *.
    assert (E : u = sol m src). { apply (HS src I); [apply len_RHS; assumption| |exact M]. unfold u, dim, isEB in *. destruct (f_form s); assumption. }
    rewrite <- E. split; assumption.
  Qed.
End Solved.
