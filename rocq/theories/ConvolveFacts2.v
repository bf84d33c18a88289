From Coq Require Import Reals Lra Lia.
From Verif Require Import Py Vec VecDeriv Convolve SpecConvolve Waveforms ConvolveFacts.
Local Open Scope R_scope.

(** A trapezoid switched on at once: np.unique keeps one node of the jump. *)
Lemma conv_jump quad func Phi p r s t :
  let wd := trapezoid_deriv (mkRamps p p r s) in
  p < r -> r < s -> s <= t -> exact quad (integrand wd func t) [p; r; s] t ->
  (forall x, 0 < x -> derivable_pt_lim Phi x (func x)) -> (forall x, continuity_pt Phi x) ->
  convolve quad func wd (Some [p; r; s]) [t] = Ok [(Phi (t - r) - Phi (t - s)) / (s - r)].
Proof.
  intros wd H2 H3 H4 Q D C. cbn [convolve map conv_loop]. rewrite !Rmax_left by lra.
  assert (S2 : smooth [p; r; s] t (t - r) (t - p)) by (intros n Hn; cbn in Hn; destruct Hn as [<-|[<-|[<-|[]]]]; lra).
  assert (S3 : smooth [p; r; s] t (t - s) (t - r)) by (intros n Hn; cbn in Hn; destruct Hn as [<-|[<-|[<-|[]]]]; lra).
  rewrite (Q (fun x => 0 * Phi x) (t - r) (t - p)), (Q (fun x => - 1 / (s - r) * Phi x) (t - s) (t - r)); try lra; auto.
  - do 2 f_equal. field. lra.
  - apply scaled_primitive; auto; try lra. intros x Hx. unfold wd. decide_rs.
  - apply scaled_primitive; auto; try lra. intros x Hx. unfold wd. decide_rs.
Qed.
Lemma conv_jump_steady quad c p r s t : p < r -> r < s -> s <= t ->
  let rs := mkRamps p p r s in
  exact quad (integrand (trapezoid_deriv rs) (fun _ => c) t) [p; r; s] t ->
  convolve quad (fun _ => c) (trapezoid_deriv rs) (Some [p; r; s]) [t] = Ok [c]
  /\ (forall x, x < p -> trapezoid rs x = 0) /\ (forall x, s < x -> trapezoid rs x = 0).
Proof.
  intros H2 H3 H4 rs Q. split; [|split].
  - unfold rs. rewrite (conv_jump quad (fun _ => c) (fun x => c * x) p r s t H2 H3 H4 Q).
    + do 2 f_equal. field. lra.
    + intros x _. eapply dpl_eq; [|apply dpl_scal, dpl_id]. ring.
    + intros x. apply (continuity_pt_mult (fun _ => c) (fun x => x)); [apply continuity_pt_const; intros u v; reflexivity|apply derivable_continuous_pt, derivable_pt_id].
  - intros x Hx. unfold trapezoid, rlt, rs; cbn. destruct (Rlt_dec x p); [reflexivity|lra].
  - intros x Hx. unfold trapezoid, rlt, rle, rs; cbn.
    repeat match goal with |- context [Rlt_dec ?a ?b] => destruct (Rlt_dec a b); try lra | |- context [Rle_dec ?a ?b] => destruct (Rle_dec a b); try lra end; cbn; reflexivity.
Qed.
(** A case: on from 0 to 1, off from 2 to 3, unit response, during the plateau *)
Lemma conv_case : convolve (fun g a b => (b - a) * g ((a + b) / 2)) (fun _ => 1) (trapezoid_deriv (mkRamps 0 1 2 3)) (Some [0; 1; 2; 3]) [3 / 2] = Ok [-1].
Proof.
  cbn [convolve map conv_loop]. rewrite (Rmax_left (3 / 2 - 0)), (Rmax_left (3 / 2 - 1)), (Rmax_right (3 / 2 - 2)), (Rmax_right (3 / 2 - 3)) by lra.
  do 2 f_equal. unfold integrand.
  assert (A : trapezoid_deriv (mkRamps 0 1 2 3) (3 / 2 - (3 / 2 - 1 + (3 / 2 - 0)) / 2) = 1) by decide_rs.
  assert (B : trapezoid_deriv (mkRamps 0 1 2 3) (3 / 2 - (0 + (3 / 2 - 1)) / 2) = 0) by decide_rs.
  rewrite A, B. lra.
Qed.
(** The midpoint rule is exact there as well. *)
Lemma midpoint_case : exact (fun g a b => (b - a) * g ((a + b) / 2)) (integrand (trapezoid_deriv (mkRamps 0 1 2 3)) (fun _ => 1) (3 / 2)) [0; 1; 2; 3] (3 / 2).
Proof. apply midpoint_exact; lra. Qed.
Lemma midpoint_jump c t p r s : p < r -> r < s ->
  exact (fun g a b => (b - a) * g ((a + b) / 2)) (integrand (trapezoid_deriv (mkRamps p p r s)) (fun _ => c) t) [p; r; s] t.
Proof.
  intros H2 H3 F a b [A B] Sm [C D]. destruct (Req_dec a b) as [->|N]; [replace (F b - F b) with 0 by ring; ring|].
  assert (AB : a < b) by lra.
  assert (K : forall x, a < x < b -> trapezoid_deriv (mkRamps p p r s) (t - x) = trapezoid_deriv (mkRamps p p r s) (t - (a + b) / 2)).
  { intros x Hx. pose proof (Sm p ltac:(cbn; auto)) as Sp. 
    pose proof (Sm r ltac:(cbn; auto)) as Sr. pose proof (Sm s ltac:(cbn; auto)) as Ss.
    assert (Z : forall n, ~ (a < t - n < b) -> (t - n <= a \/ b <= t - n)) by (intros n Hn; destruct (Rle_dec (t - n) a); [left; auto|right; apply Rnot_lt_le; intros X; apply Hn; lra]).
    apply Z in Sp, Sr, Ss. destruct Sp, Sr, Ss; decide_rs. }
  destruct (MVT F (fun x => x) a b (fun x P => exist _ _ (D x P)) (fun x _ => derivable_pt_id x) AB) as (x & P & E).
  - exact C.
  - intros x _. apply derivable_continuous_pt, derivable_pt_id.
  - cbn [derive_pt proj1_sig] in E. rewrite (derive_pt_eq_0 (fun x => x) x 1 (derivable_pt_id x) (derivable_pt_lim_id x)) in E.
    unfold derive_pt in E. cbn [proj1_sig] in E. unfold integrand in *. rewrite (K x P) in E. lra.
Qed.
