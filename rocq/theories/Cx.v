(** Complex scalars as pairs of reals: operations (numpy's complex arithmetic, exact),
    field structure and derivatives of curves. *)
From Verif Require Import Py Vec VecDeriv.
From Coq Require Import Reals Lra Field.
Local Open Scope R_scope.

Definition cx := (R * R)%type.
Definition Re (z : cx) : R := fst z.
Definition Im (z : cx) : R := snd z.
Definition x0 : cx := (0, 0).
Definition x1 : cx := (1, 0).
Definition xi : cx := (0, 1).
Definition xr (a : R) : cx := (a, 0).
Definition xadd (a b : cx) : cx := (Re a + Re b, Im a + Im b).
Definition xopp (a : cx) : cx := (- Re a, - Im a).
Definition xsub (a b : cx) : cx := (Re a - Re b, Im a - Im b).
Definition xmul (a b : cx) : cx := (Re a * Re b - Im a * Im b, Re a * Im b + Im a * Re b).
Definition nrm2 (a : cx) : R := Re a * Re a + Im a * Im a.
Definition xinv (a : cx) : cx := (Re a / nrm2 a, - Im a / nrm2 a).
Definition xdiv (a b : cx) : cx := xmul a (xinv b).
Definition xscale (c : R) (a : cx) : cx := (c * Re a, c * Im a).
Definition xdivr (a : cx) (c : R) : cx := (Re a / c, Im a / c).
Definition cexp (z : cx) : cx := (exp (Re z) * cos (Im z), exp (Re z) * sin (Im z)).
(** numpy.tanh of a complex number. *)
Definition ctanh (z : cx) : cx :=
  let e := cexp (xscale 2 z) in xdiv (xsub e x1) (xadd e x1).
(** numpy.sqrt of [1j * x] for [x >= 0] (principal branch). *)
Definition csqrtI (x : R) : cx := (sqrt (x / 2), sqrt (x / 2)).

Declare Scope cx_scope.
Delimit Scope cx_scope with X.
Notation "a +x b" := (xadd a b) (at level 50, left associativity).
Notation "a -x b" := (xsub a b) (at level 50, left associativity).
Notation "a *x b" := (xmul a b) (at level 40, left associativity).
Notation "a /x b" := (xdiv a b) (at level 40, left associativity).

Lemma cx_eq (a b : cx) : Re a = Re b -> Im a = Im b -> a = b.
Proof. destruct a, b. cbn. congruence. Qed.
Lemma nrm2_0 a : nrm2 a = 0 -> a = x0.
Proof.
  unfold nrm2. intros H. apply cx_eq; cbn; nra.
Qed.
Lemma nrm2_pos a : a <> x0 -> 0 < nrm2 a.
Proof.
  intros H. unfold nrm2. assert (nrm2 a <> 0) as N by (intros E; apply H; now apply nrm2_0).
  unfold nrm2 in N. nra.
Qed.
Lemma cx_field_theory : field_theory x0 x1 xadd xmul xsub xopp xdiv xinv (@eq cx).
Proof.
  constructor.
  - constructor; intros; apply cx_eq; unfold xadd, xmul, xsub, xopp, x0, x1, Re, Im in *; cbn; ring.
  - intros E. injection E as E. lra.
  - intros; reflexivity.
  - intros p H. pose proof (nrm2_pos p H) as N. apply cx_eq; unfold xmul, xinv, x1, Re, Im; cbn; unfold Re, Im in *.
    + unfold nrm2, Re, Im in *. field. lra.
    + unfold nrm2, Re, Im in *. field. lra.
Qed.
Add Field cx_field : cx_field_theory.

Lemma xscale_mul c a : xscale c a = xr c *x a.
Proof. apply cx_eq; unfold xscale, xr, xmul, Re, Im; cbn; ring. Qed.
Lemma xdivr_div a c : c <> 0 -> xdivr a c = a /x xr c.
Proof. intros H. apply cx_eq; unfold xdivr, xdiv, xinv, nrm2, xr, xmul, Re, Im; cbn; field; assumption. Qed.
Lemma xr_neq c : c <> 0 -> xr c <> x0.
Proof. intros H E. injection E as E. contradiction. Qed.
Lemma xr_mul a b : xr (a * b) = xr a *x xr b.
Proof. apply cx_eq; unfold xr, xmul, Re, Im; cbn; ring. Qed.
Lemma xr_add a b : xr (a + b) = xr a +x xr b.
Proof. apply cx_eq; unfold xr, xadd, Re, Im; cbn; ring. Qed.
Lemma xr_1 : xr 1 = x1. Proof. reflexivity. Qed.
Lemma xr_0 : xr 0 = x0. Proof. reflexivity. Qed.
Lemma xmul_neq a b : a <> x0 -> b <> x0 -> a *x b <> x0.
Proof.
  intros Ha Hb E. apply Ha. assert (a = (a *x b) /x b) as -> by (field; exact Hb).
  rewrite E. field. exact Hb.
Qed.
Lemma Re_neq a : Re a <> 0 -> a <> x0.
Proof. intros H E. apply H. now rewrite E. Qed.

(** ** Derivatives of curves *)
Definition cdl (f : R -> cx) (t : R) (l : cx) : Prop :=
  derivable_pt_lim (fun s => Re (f s)) t (Re l) /\ derivable_pt_lim (fun s => Im (f s)) t (Im l).

Lemma cdl_eq f t a b : a = b -> cdl f t a -> cdl f t b. Proof. now intros ->. Qed.
Lemma cdl_ext f g t a : (forall s, f s = g s) -> cdl f t a -> cdl g t a.
Proof.
  intros H [A B]. split; eapply dpl_ext; [| exact A | | exact B]; cbn; intros y; now rewrite H.
Qed.
Lemma cdl_const c t : cdl (fun _ => c) t x0.
Proof. split; cbn; apply dpl_const. Qed.
Lemma cdl_add f g t a b : cdl f t a -> cdl g t b -> cdl (fun s => f s +x g s) t (a +x b).
Proof. intros [A B] [C D]. split; cbn; now apply dpl_plus. Qed.
Lemma cdl_sub f g t a b : cdl f t a -> cdl g t b -> cdl (fun s => f s -x g s) t (a -x b).
Proof. intros [A B] [C D]. split; cbn; now apply dpl_minus. Qed.
Lemma cdl_opp f t a : cdl f t a -> cdl (fun s => xopp (f s)) t (xopp a).
Proof.
  intros [A B]. split; cbn.
  - eapply dpl_eq; [|eapply dpl_ext; [|apply (dpl_scal (-1)); exact A]]; cbn; intros; ring.
  - eapply dpl_eq; [|eapply dpl_ext; [|apply (dpl_scal (-1)); exact B]]; cbn; intros; ring.
Qed.
Lemma cdl_mul f g t a b : cdl f t a -> cdl g t b -> cdl (fun s => f s *x g s) t (a *x g t +x f t *x b).
Proof.
  intros [A B] [C D]. split; cbn.
  - eapply dpl_eq; [|apply dpl_minus; apply dpl_mult; eassumption]. cbn. ring.
  - eapply dpl_eq; [|apply dpl_plus; apply dpl_mult; eassumption]. cbn. ring.
Qed.
Lemma cdl_real f t a : derivable_pt_lim f t a -> cdl (fun s => xr (f s)) t (xr a).
Proof. intros A. split; cbn; [exact A|apply dpl_const]. Qed.

Lemma dpl_inv_c f t a : derivable_pt_lim f t a -> f t <> 0 -> derivable_pt_lim (fun s => / f s) t (- a / (f t * f t)).
Proof.
  intros A H. apply (dpl_ext (fun s => 1 / f s)); [intros; unfold Rdiv; ring|].
  eapply dpl_eq; [|apply (derivable_pt_lim_div (fun _ => 1) f); [apply derivable_pt_lim_const|exact A|exact H]].
  unfold Rsqr. field. exact H.
Qed.
Lemma cdl_inv f t a : cdl f t a -> f t <> x0 -> cdl (fun s => xinv (f s)) t (xopp a /x (f t *x f t)).
Proof.
  intros [A B] H. pose proof (nrm2_pos _ H) as N.
  assert (Dn : derivable_pt_lim (fun s => nrm2 (f s)) t (2 * (Re (f t) * Re a + Im (f t) * Im a))).
  { unfold nrm2. eapply dpl_eq; [|apply dpl_plus; apply dpl_mult; eassumption]. cbn. ring. }
  assert (N' : nrm2 (f t) <> 0) by lra.
  pose proof (dpl_inv_c _ _ _ Dn N') as Di.
  set (p := Re (f t)) in *. set (q := Im (f t)) in *.
  assert (En : nrm2 (f t) = p * p + q * q) by reflexivity.
  split; cbn.
  - eapply dpl_eq; [|apply dpl_mult; [exact A|exact Di]]. cbn. fold p. rewrite En in *.
    unfold xinv, xmul, nrm2. cbn. fold p q. unfold Re, Im in *. field. cbn. fold p q. split; nra.
  - eapply dpl_eq; [|eapply dpl_ext; [|apply dpl_mult; [apply (dpl_scal (-1)); exact B|exact Di]]].
    + cbn. fold q. rewrite En in *. unfold xinv, xmul, nrm2. cbn. fold p q. unfold Re, Im in *. field. cbn. fold p q. split; nra.
    + cbn. intros s. unfold Rdiv. ring.
Qed.
Lemma cdl_div f g t a b : cdl f t a -> cdl g t b -> g t <> x0 ->
  cdl (fun s => f s /x g s) t ((a -x (f t /x g t) *x b) /x g t).
Proof.
  intros A B H. eapply cdl_eq; [|apply cdl_mul; [exact A|apply cdl_inv; [exact B|exact H]]].
  cbn beta. field. exact H.
Qed.
Lemma cdl_cexp f t a : cdl f t a -> cdl (fun s => cexp (f s)) t (cexp (f t) *x a).
Proof.
  intros [A B].
  assert (E : derivable_pt_lim (fun s => exp (Re (f s))) t (exp (Re (f t)) * Re a)).
  { eapply dpl_eq; [|eapply (dpl_comp _ exp); [exact A|apply derivable_pt_lim_exp]]. ring. }
  assert (Cc : derivable_pt_lim (fun s => cos (Im (f s))) t (- sin (Im (f t)) * Im a)).
  { eapply dpl_eq; [|eapply (dpl_comp _ cos); [exact B|apply derivable_pt_lim_cos]]. ring. }
  assert (S : derivable_pt_lim (fun s => sin (Im (f s))) t (cos (Im (f t)) * Im a)).
  { eapply dpl_eq; [|eapply (dpl_comp _ sin); [exact B|apply derivable_pt_lim_sin]]. ring. }
  split; cbn; (eapply dpl_eq; [|apply dpl_mult; eassumption]); cbn; ring.
Qed.
Lemma cdl_xscale c f t a : cdl f t a -> cdl (fun s => xscale c (f s)) t (xscale c a).
Proof. intros [A B]. split; cbn; now apply dpl_scal. Qed.
Lemma cdl_ctanh f t a : cdl f t a -> cexp (xscale 2 (f t)) +x x1 <> x0 ->
  cdl (fun s => ctanh (f s)) t ((x1 -x ctanh (f t) *x ctanh (f t)) *x a).
Proof.
  intros A H. unfold ctanh.
  pose proof (cdl_cexp _ _ _ (cdl_xscale 2 _ _ _ A)) as E.
  pose proof (cdl_div _ _ _ _ _ (cdl_sub _ _ _ _ _ E (cdl_const x1 t)) (cdl_add _ _ _ _ _ E (cdl_const x1 t)) H) as D.
  eapply cdl_eq; [|exact D]. cbn beta. set (e := cexp (xscale 2 (f t))) in *.
  rewrite xscale_mul. replace (xr 2) with (x1 +x x1) by (apply cx_eq; cbn; ring). field. exact H.
Qed.
