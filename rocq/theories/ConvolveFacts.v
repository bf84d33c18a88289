From Coq Require Import Reals Lra Lia.
From Verif Require Import Py Vec VecDeriv Convolve SpecConvolve Waveforms.
Local Open Scope R_scope.

Lemma ordered_tail a l : ordered (a :: l) -> ordered l.
Proof. destruct l; cbn; tauto. Qed.
Lemma ordered_head a l n : ordered (a :: l) -> In n l -> a < n.
Proof.
  revert a; induction l as [|b l IH]; intros a H; [contradiction|]. cbn [ordered] in H. destruct H as [H1 H2].
  intros [->|Hn]; [assumption|]. pose proof (IH b H2 Hn). lra.
Qed.
Lemma last_indep (x a b : R) l : last (x :: l) a = last (x :: l) b.
Proof. revert x; induction l as [|y l IH]; intros x; [reflexivity|]. exact (IH y). Qed.
Lemma last_step (x a : R) l : last (x :: l) a = last l x.
Proof. destruct l as [|y l]; [reflexivity|]. exact (last_indep y a x l). Qed.
(** The delays of one piece have no node inside, whichever nodes precede it. *)
Lemma piece_smooth pre n0 n1 l t : (forall n, In n pre -> n <= n0) -> ordered (n0 :: n1 :: l) ->
  smooth (pre ++ n0 :: n1 :: l) t (Rmax (t - n1) 0) (Rmax (t - n0) 0).
Proof.
  intros Hp [H1 H2] n Hn [A B]. pose proof (Rmax_l (t - n1) 0). pose proof (Rmax_r (t - n1) 0).
  assert (B' : t - n < t - n0 \/ t - n < 0) by (unfold Rmax in B; destruct (Rle_dec (t - n0) 0); lra).
  apply in_app_or in Hn as [Hn|[<-|[<-|Hn]]]; [specialize (Hp n Hn)| | |pose proof (ordered_head _ _ _ H2 Hn)]; lra.
Qed.
Lemma piece_order n0 n1 t : n0 < n1 -> 0 <= Rmax (t - n1) 0 <= Rmax (t - n0) 0.
Proof. intros H. split; [apply Rmax_r|]. apply Rle_max_compat_r. lra. Qed.
Lemma max_between t n0 n1 s : n0 < n1 -> Rmax (t - n1) 0 < s < Rmax (t - n0) 0 -> n0 < t - s < n1 /\ 0 < s.
Proof. intros H [A B]. unfold Rmax in *. destruct (Rle_dec (t - n1) 0), (Rle_dec (t - n0) 0); lra. Qed.

Section Loop.
  Context (quad : (R -> R) -> R -> R -> R) (wd func : R -> R) (t : R) (nodes : vec).
  Hypothesis Q : exact quad (integrand wd func t) nodes t.
  (** Telescoping *)
  Lemma loop_primitive F l : forall pre n acc, nodes = pre ++ n :: l -> (forall m, In m pre -> m <= n) -> ordered (n :: l) ->
    (forall s, continuity_pt F s) ->
    (forall s, 0 < s -> ~ In (t - s) nodes -> derivable_pt_lim F s (integrand wd func t s)) ->
    conv_loop quad wd func (n :: l) t acc = acc - (F (Rmax (t - n) 0) - F (Rmax (t - last l n) 0)).
  Proof.
    induction l as [|n1 l IH]; intros pre n acc E Hp Ho C D; [cbn; lra|].
    destruct Ho as [H1 H2]. pose proof (piece_smooth pre n n1 l t Hp (conj H1 H2)) as HS. rewrite <- E in HS.
    change (conv_loop quad wd func (n :: n1 :: l) t acc)
      with (conv_loop quad wd func (n1 :: l) t (acc - quad (integrand wd func t) (Rmax (t - n1) 0) (Rmax (t - n) 0))).
    rewrite (IH (pre ++ [n]) n1).
    - rewrite (Q F); [|apply piece_order; exact H1|exact HS|].
      + rewrite last_step. lra.
      + split; [auto|]. intros s Hs. apply D; [apply (max_between t n n1 s H1 Hs)|].
        intros Hin. apply (HS (t - s) Hin). replace (t - (t - s)) with s by ring. exact Hs.
    - rewrite <- app_assoc. exact E.
    - intros m Hm. apply in_app_or in Hm as [Hm|[<-|[]]]; [specialize (Hp m Hm)|]; lra.
    - exact H2.
    - exact C.
    - exact D.
  Qed.
End Loop.

Lemma conv_primitive quad wd func t n l F : exact quad (integrand wd func t) (n :: l) t -> ordered (n :: l) ->
  (forall s, continuity_pt F s) ->
  (forall s, 0 < s -> ~ In (t - s) (n :: l) -> derivable_pt_lim F s (integrand wd func t s)) ->
  convolve quad func wd (Some (n :: l)) [t] = Ok [F (Rmax (t - last l n) 0) - F (Rmax (t - n) 0)].
Proof.
  intros Q Ho C D. cbn [convolve map]. rewrite (loop_primitive quad wd func t (n :: l) Q F l [] n 0 eq_refl); auto.
  - do 2 f_equal. lra.
  - intros m [].
Qed.

Lemma conv_causal quad wd func t nodes : exact quad (integrand wd func t) nodes t -> (forall n, In n nodes -> t <= n) ->
  convolve quad func wd (Some nodes) [t] = Ok [0].
Proof.
  intros Q H. cbn [convolve map]. do 2 f_equal.
  assert (Z : quad (integrand wd func t) 0 0 = 0).
  { rewrite (Q (fun _ => 0) 0 0); [lra|lra| |].
    - intros n _ [A B]; lra.
    - split; [intros; apply continuity_pt_const; intros x y; reflexivity|intros s Hs; lra]. }
  assert (G : forall l acc, (forall n, In n l -> t <= n) -> conv_loop quad wd func l t acc = acc).
  { induction l as [|a l IH]; intros acc Hl; [reflexivity|]. destruct l as [|b l]; [reflexivity|].
    change (conv_loop quad wd func (a :: b :: l) t acc)
      with (conv_loop quad wd func (b :: l) t (acc - quad (integrand wd func t) (Rmax (t - b) 0) (Rmax (t - a) 0))).
    rewrite (Rmax_right (t - b) 0), (Rmax_right (t - a) 0), Z; [|pose proof (Hl a (or_introl eq_refl)); lra|pose proof (Hl b (or_intror (or_introl eq_refl))); lra].
    rewrite IH; [lra|]. intros n Hn. apply Hl. right. exact Hn. }
  apply G. exact H.
Qed.

Lemma dpl_back w t s d : derivable_pt_lim w (t - s) d -> derivable_pt_lim (fun x => w (t - x)) s (- d).
Proof.
  intros H. eapply dpl_eq; [|apply (dpl_comp (fun x => t - x) w)]; [|apply (dpl_minus (fun _ => t) (fun x => x)); [apply dpl_const|apply dpl_id]|exact H]. ring.
Qed.
Lemma cont_back w t c : (forall s, continuity_pt w s) -> forall s, continuity_pt (fun x => c * w (t - x)) s.
Proof.
  intros C s. apply (continuity_pt_mult (fun _ => c) (fun x => w (t - x))).
  - apply continuity_pt_const; intros x y; reflexivity.
  - apply (continuity_pt_comp (fun x => t - x) w); [|apply C].
    apply continuity_pt_minus; [apply continuity_pt_const; intros x y; reflexivity|]. apply derivable_continuous_pt, derivable_pt_id.
Qed.
Lemma back_min t n : t - Rmax (t - n) 0 = Rmin t n.
Proof. unfold Rmax, Rmin. destruct (Rle_dec (t - n) 0), (Rle_dec t n); lra. Qed.

Lemma conv_steady quad w wd c t n l : exact quad (integrand wd (fun _ => c) t) (n :: l) t -> ordered (n :: l) ->
  (forall s, continuity_pt w s) -> (forall s, ~ In s (n :: l) -> derivable_pt_lim w s (wd s)) ->
  convolve quad (fun _ => c) wd (Some (n :: l)) [t] = Ok [c * (w (Rmin t n) - w (Rmin t (last l n)))].
Proof.
  intros Q Ho C D. rewrite (conv_primitive quad wd (fun _ => c) t n l (fun s => - c * w (t - s)) Q Ho).
  - rewrite !back_min. do 2 f_equal. ring.
  - apply cont_back. exact C.
  - intros s _ Hs. eapply dpl_eq; [|apply dpl_scal, dpl_back, D; exact Hs]. unfold integrand. ring.
Qed.

(** More nodes change nothing. *)
Lemma conv_nodes quad wd func t n l l' F : exact quad (integrand wd func t) (n :: l) t -> exact quad (integrand wd func t) (n :: l') t ->
  ordered (n :: l) -> ordered (n :: l') -> last l n = last l' n ->
  (forall s, continuity_pt F s) ->
  (forall s, 0 < s -> ~ (In (t - s) (n :: l) /\ In (t - s) (n :: l')) -> derivable_pt_lim F s (integrand wd func t s)) ->
  convolve quad func wd (Some (n :: l)) [t] = convolve quad func wd (Some (n :: l')) [t].
Proof.
  intros Q Q' Ho Ho' E C D. rewrite (conv_primitive _ _ _ _ n l F Q Ho C), (conv_primitive _ _ _ _ n l' F Q' Ho' C).
  - now rewrite E.
  - intros s Hs N. apply D; tauto.
  - intros s Hs N. apply D; tauto.
Qed.

Lemma conv_times quad wd func nodes times : convolve quad func wd (Some nodes) times
  = Ok (concat (map (fun t => match convolve quad func wd (Some nodes) [t] with Ok x => x | Err _ => [] end) times)).
Proof. cbn [convolve]. f_equal. induction times as [|t ts IH]; cbn in *; congruence. Qed.

(** ** Trapezoids *)
Lemma scaled_primitive c Phi func wd t a b :
  (forall s, 0 < s -> derivable_pt_lim Phi s (func s)) -> (forall s, continuity_pt Phi s) -> 0 <= a ->
  (forall s, a < s < b -> wd (t - s) = c) -> primitive (integrand wd func t) (fun s => c * Phi s) a b.
Proof.
  intros D C A H. split.
  - intros s _. apply (continuity_pt_mult (fun _ => c) Phi); [apply continuity_pt_const; intros x y; reflexivity|apply C].
  - intros s Hs. eapply dpl_eq; [|apply dpl_scal, D; lra]. unfold integrand. rewrite (H s Hs). reflexivity.
Qed.
Ltac decide_rs := unfold trapezoid_deriv, rle; cbn [on0 on1 off0 off1];
  repeat match goal with |- context [Rle_dec ?x ?y] => destruct (Rle_dec x y); try lra end; cbn; try lra; try reflexivity.
Lemma conv_trapezoid quad func Phi p q r s t :
  let wd := trapezoid_deriv (mkRamps p q r s) in
  p < q -> q < r -> r < s -> s <= t -> exact quad (integrand wd func t) [p; q; r; s] t ->
  (forall x, 0 < x -> derivable_pt_lim Phi x (func x)) -> (forall x, continuity_pt Phi x) ->
  convolve quad func wd (Some [p; q; r; s]) [t]
  = Ok [(Phi (t - r) - Phi (t - s)) / (s - r) - (Phi (t - p) - Phi (t - q)) / (q - p)].
Proof.
  intros wd H1 H2 H3 H4 Q D C. cbn [convolve map conv_loop].
  rewrite !Rmax_left by lra.
  assert (S1 : smooth [p; q; r; s] t (t - q) (t - p)) by (intros n Hn; cbn in Hn; destruct Hn as [<-|[<-|[<-|[<-|[]]]]]; lra).
  assert (S2 : smooth [p; q; r; s] t (t - r) (t - q)) by (intros n Hn; cbn in Hn; destruct Hn as [<-|[<-|[<-|[<-|[]]]]]; lra).
  assert (S3 : smooth [p; q; r; s] t (t - s) (t - r)) by (intros n Hn; cbn in Hn; destruct Hn as [<-|[<-|[<-|[<-|[]]]]]; lra).
  rewrite (Q (fun x => 1 / (q - p) * Phi x) (t - q) (t - p)), (Q (fun x => 0 * Phi x) (t - r) (t - q)), (Q (fun x => - 1 / (s - r) * Phi x) (t - s) (t - r)); try lra; auto.
  - do 2 f_equal. field. lra.
  - apply scaled_primitive; auto; try lra. intros x Hx. unfold wd. decide_rs.
  - apply scaled_primitive; auto; try lra. intros x Hx. unfold wd. decide_rs.
  - apply scaled_primitive; auto; try lra. intros x Hx. unfold wd. decide_rs.
Qed.

(** The midpoint rule is exact for a steady response to a trapezoid. *)
Lemma midpoint_exact c t p q r s : p < q -> q < r -> r < s ->
  exact (fun g a b => (b - a) * g ((a + b) / 2)) (integrand (trapezoid_deriv (mkRamps p q r s)) (fun _ => c) t) [p; q; r; s] t.
Proof.
  intros H1 H2 H3 F a b [A B] Sm [C D]. destruct (Req_dec a b) as [->|N]; [replace (F b - F b) with 0 by ring; ring|].
  assert (AB : a < b) by lra.
  assert (K : forall x, a < x < b -> trapezoid_deriv (mkRamps p q r s) (t - x) = trapezoid_deriv (mkRamps p q r s) (t - (a + b) / 2)).
  { intros x Hx. pose proof (Sm p ltac:(cbn; auto)) as Sp. pose proof (Sm q ltac:(cbn; auto)) as Sq.
    pose proof (Sm r ltac:(cbn; auto)) as Sr. pose proof (Sm s ltac:(cbn; auto)) as Ss.
    assert (Z : forall n, ~ (a < t - n < b) -> (t - n <= a \/ b <= t - n)) by (intros n Hn; destruct (Rle_dec (t - n) a); [left; auto|right; apply Rnot_lt_le; intros X; apply Hn; lra]).
    apply Z in Sp, Sq, Sr, Ss. destruct Sp, Sq, Sr, Ss; decide_rs. }
  destruct (MVT F (fun x => x) a b (fun x P => exist _ _ (D x P)) (fun x _ => derivable_pt_id x) AB) as (x & P & E).
  - exact C.
  - intros x _. apply derivable_continuous_pt, derivable_pt_id.
  - cbn [derive_pt proj1_sig] in E. rewrite (derive_pt_eq_0 (fun x => x) x 1 (derivable_pt_id x) (derivable_pt_lim_id x)) in E.
    unfold derive_pt in E. cbn [proj1_sig] in E. unfold integrand in *. rewrite (K x P) in E. lra.
Qed.
