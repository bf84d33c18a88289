(** Proofs about the inverse problem's fields. *)
From Coq Require Import Lra.
From Verif Require Import Py Vec InvProb SpecInvProb.
Local Open Scope R_scope.

Section P.
Context {M S F : Type}.
Variable sf : nat -> S -> M -> F.

(** ** Warm start *)
Definition warm_ok (ts : list term) (st : @ipst M S F) (stored : option nat) : Prop :=
  match stored with
  | None => ip_warm st = []
  | Some m => ip_warm st = [(m, Some (all_fields sf (ip_sim st) (ip_heap st m) ts))] \/ ip_warm st = []
  end.
Lemma warm_ok_fields ts st stored m store : warm_ok ts st stored -> fst (getFields sf ts st m store) = all_fields sf (ip_sim st) (ip_heap st m) ts.
Proof.
  intros H. unfold getFields. cbn [fst]. destruct stored as [k|]; cbn in H; [destruct H as [H|H]|]; rewrite H; cbn; try reflexivity.
  destruct (Nat.eqb_spec k m); [subst|]; reflexivity.
Qed.
Lemma step_ok ts st stored o r : warm_ok ts st stored -> undisturbed stored (o :: r) ->
  exists stored', warm_ok ts (ip_step sf ts st o) stored' /\ undisturbed stored' r.
Proof.
  intros H U. destruct o as [m g h|m c|s|w]; cbn in U.
  - eexists. split; [|exact U]. cbn [ip_step]. pose proof (warm_ok_fields ts st stored m (negb g && negb h) H) as E. revert E. unfold getFields. cbn [fst snd]. intros ->.
    destruct g, h; cbn; try reflexivity. left. reflexivity.
  - destruct U as [Hm U]. exists stored. split; [|exact U]. destruct stored as [k|]; cbn in *; [|assumption]. destruct H as [H|H]; [left|right; assumption].
    destruct (Nat.eqb_spec k m); [subst; congruence|assumption].
  - destruct U as [-> U]. exists None. split; [|exact U]. cbn in *. assumption.
  - destruct U as [-> U]. exists None. split; [|exact U]. reflexivity.
Qed.
Lemma run_ok ts : forall ops st stored, warm_ok ts st stored -> undisturbed stored ops -> exists stored', warm_ok ts (ip_run sf ts st ops) stored'.
Proof.
  induction ops as [|o ops IH]; intros st stored H U; [exists stored; exact H|]. destruct (step_ok ts st stored o ops H U) as (s' & H' & U'). apply (IH _ s' H' U').
Qed.
Lemma fields_fresh ts st ops m store : ip_warm st = [] -> undisturbed None ops -> let st' := ip_run sf ts st ops in
  fst (getFields sf ts st' m store) = all_fields sf (ip_sim st') (ip_heap st' m) ts.
Proof. intros H U. cbn zeta. destruct (run_ok ts ops st None H U) as (s' & H'). eapply warm_ok_fields; exact H'. Qed.

(** ** Alignment *)
Lemma fields_app s x a b : all_fields sf s x (a ++ b) = all_fields sf s x a ++ all_fields sf s x b.
Proof. induction a as [|[? ?|? ?] a IH]; cbn; [reflexivity| |]; rewrite IH; reflexivity. Qed.
Lemma fields_others s x b : (forall t, In t b -> has_sim t = false) -> all_fields sf s x b = [].
Proof. induction b as [|[c k|c k] b IH]; intros H; cbn; [reflexivity| |]; [specialize (H _ (or_introl eq_refl)); discriminate|]. apply IH. intros t Ht. apply H. right. assumption. Qed.
Lemma fields_length s x a : (forall t, In t a -> has_sim t = true) -> length (all_fields sf s x a) = length a.
Proof. induction a as [|[c k|c k] a IH]; intros H; cbn; [reflexivity| |]; [|specialize (H _ (or_introl eq_refl)); discriminate]. rewrite IH; [reflexivity|]. intros t Ht. apply H. right. assumption. Qed.
Section L.
Context {T : Type}.
Variables (zero : T) (add : T -> T -> T) (scale : R -> T -> T) (leaf : nat -> F -> T) (other : nat -> T).
Lemma loop_others s x f : forall b i, (forall t, In t b -> has_sim t = false) ->
  combo_loop zero add scale leaf other f i b = Ok (true_sum sf zero add scale leaf other s x b).
Proof.
  induction b as [|[c k|c k] b IH]; intros i H; cbn; [reflexivity| |]; [specialize (H _ (or_introl eq_refl)); discriminate|].
  assert (H' : forall t, In t b -> has_sim t = false) by (intros t Ht; apply H; right; assumption). rewrite (IH _ H'). destruct (Req_EM_T c 0); reflexivity.
Qed.
Lemma loop_sims s x b : forall a pre, (forall t, In t a -> has_sim t = true) -> (forall t, In t b -> has_sim t = false) ->
  combo_loop zero add scale leaf other (pre ++ all_fields sf s x a) (length pre) (a ++ b) = Ok (true_sum sf zero add scale leaf other s x (a ++ b)).
Proof.
  induction a as [|[c k|c k] a IH]; intros pre Ha Hb; [cbn [app]; apply loop_others; assumption| |specialize (Ha _ (or_introl eq_refl)); discriminate].
  cbn [all_fields app combo_loop true_sum]. assert (Ha' : forall t, In t a -> has_sim t = true) by (intros t Ht; apply Ha; right; assumption).
  specialize (IH (pre ++ [sf k s x]) Ha' Hb). rewrite <- app_assoc, app_length in IH. cbn [app length] in IH.
  rewrite nth_error_app2, Nat.sub_diag by lia. cbn [nth_error]. rewrite IH. destruct (Req_EM_T c 0); reflexivity.
Qed.
Lemma loop_ok s x ts : sims_first ts -> combo_loop zero add scale leaf other (all_fields sf s x ts) 0 ts = Ok (true_sum sf zero add scale leaf other s x ts).
Proof.
  intros (a & b & -> & Ha & Hb). rewrite fields_app, (fields_others s x b Hb), app_nil_r. apply (loop_sims s x b a [] Ha Hb).
Qed.
End L.
Lemma dpred_others (dp : nat -> F -> vec) f : forall b i, (forall t, In t b -> has_sim t = false) -> dpred_loop dp f i b = Ok [].
Proof.
  induction b as [|[c k|c k] b IH]; intros i H; cbn; [reflexivity| |]; [specialize (H _ (or_introl eq_refl)); discriminate|]. apply IH. intros t Ht. apply H. right. assumption.
Qed.
Lemma dpred_sims (dp : nat -> F -> vec) s x b : forall a pre, (forall t, In t a -> has_sim t = true) -> (forall t, In t b -> has_sim t = false) ->
  exists l, dpred_loop dp (pre ++ all_fields sf s x a) (length pre) (a ++ b) = Ok l /\ concat l = true_dpred sf dp s x (a ++ b) /\ length l = length a.
Proof.
  induction a as [|[c k|c k] a IH]; intros pre Ha Hb.
  - cbn [app]. exists []. split; [apply dpred_others; assumption|]. split; [|reflexivity]. symmetry. cbn. clear - Hb. induction b as [|[c k|c k] b IH]; [reflexivity| |].
    + specialize (Hb _ (or_introl eq_refl)); discriminate.
    + apply IH. intros t Ht. apply Hb. right. assumption.
  - cbn [all_fields app dpred_loop true_dpred]. assert (Ha' : forall t, In t a -> has_sim t = true) by (intros t Ht; apply Ha; right; assumption).
    destruct (IH (pre ++ [sf k s x]) Ha' Hb) as (l & E1 & E2 & E3). rewrite <- app_assoc, app_length in E1. cbn [app length] in E1.
    rewrite nth_error_app2, Nat.sub_diag by lia. cbn [nth_error]. rewrite E1. cbn [bind]. eexists. split; [reflexivity|]. cbn. rewrite E2, E3. auto.
  - specialize (Ha _ (or_introl eq_refl)); discriminate.
Qed.
Lemma dpred_ok (dp : nat -> F -> vec) s x ts : sims_first ts -> existsb has_sim ts = true -> get_dpred dp (all_fields sf s x ts) ts = Ok (true_dpred sf dp s x ts).
Proof.
  intros (a & b & -> & Ha & Hb) Hex. unfold get_dpred. rewrite fields_app, (fields_others s x b Hb), app_nil_r.
  destruct (dpred_sims dp s x b a [] Ha Hb) as (l & E1 & E2 & E3). cbn [app length] in E1. rewrite E1. cbn [bind]. destruct l as [|y l]; [|rewrite E2; reflexivity].
  exfalso. destruct a; [|discriminate]. cbn in Hex. apply existsb_exists in Hex as (t & Ht & E). rewrite (Hb t Ht) in E. discriminate.
Qed.
Variables (mis : nat -> M -> F -> R) (mis_g : nat -> M -> F -> vec) (mis_h : nat -> M -> F -> vec -> vec)
          (oth : nat -> M -> R) (oth_g : nat -> M -> vec) (oth_h : nat -> M -> vec -> vec)
          (reg : M -> R) (reg_g : M -> vec) (reg_h : M -> vec -> vec) (dpred : nat -> M -> F -> vec).
Lemma eval_fresh ts beta st ops m g h v z : ip_warm st = [] -> undisturbed None ops -> sims_first ts -> existsb has_sim ts = true ->
  let st' := ip_run sf ts st ops in let x := ip_heap st' m in let s := ip_sim st' in
  fst (evalFunction sf mis mis_g mis_h oth oth_g oth_h reg reg_g reg_h dpred ts beta st' m g h v z) =
  Ok (true_sum sf 0 Rplus Rmult (fun k => mis k x) (fun k => oth k x) s x ts + beta * reg x,
      true_dpred sf (fun k => dpred k x) s x ts,
      (if g then Some (vadd (true_sum sf z vadd vscale (fun k => mis_g k x) (fun k => oth_g k x) s x ts) (vscale beta (reg_g x))) else None),
      (if h then Some (vadd (true_sum sf z vadd vscale (fun k u => mis_h k x u v) (fun k => oth_h k x v) s x ts) (vscale beta (reg_h x v))) else None)).
Proof.
  intros Hw U Ha Hs. cbn zeta. set (st' := ip_run sf ts st ops). unfold evalFunction.
  pose proof (fields_fresh ts st ops m (negb g && negb h) Hw U) as E. cbn zeta in E. fold st' in E. destruct (getFields sf ts st' m (negb g && negb h)) as [f st2]. cbn [fst] in E. subst f.
  cbn [fst]. rewrite loop_ok, dpred_ok by assumption. cbn [bind]. destruct g, h; rewrite ?loop_ok by assumption; reflexivity.
Qed.
(** With terms of both kinds in the wrong order the misfit after a term without a
    simulation takes the next simulation's fields. *)
Lemma misaligned a b c k j l s x (leaf : nat -> F -> R) (other : nat -> R) : a <> 0 -> b <> 0 -> c <> 0 ->
  combo_loop 0 Rplus Rmult leaf other (all_fields sf s x [TOther a j; TSim b k; TSim c l]) 0 [TOther a j; TSim b k; TSim c l] = Err IndexError.
Proof. intros. cbn. destruct (Req_EM_T a 0), (Req_EM_T b 0), (Req_EM_T c 0); try contradiction. reflexivity. Qed.
Lemma misaligned_wrong a b k j l s x (leaf : nat -> F -> R) (other : nat -> R) : a <> 0 -> b <> 0 ->
  combo_loop 0 Rplus Rmult leaf other (all_fields sf s x [TOther a j; TSim b k; TSim 0 l]) 0 [TOther a j; TSim b k; TSim 0 l] =
  Ok (a * other j + (b * leaf k (sf l s x) + 0)).
Proof. intros. cbn. destruct (Req_EM_T a 0), (Req_EM_T b 0), (Req_EM_T 0 0); try contradiction. reflexivity. Qed.
End P.
