From Coq Require Import Reals Lra Lia.
From Verif Require Import Py Vec VecDeriv RichardsFacts Joint Dc SpecDc SelfPot SpecSelfPot SelfPotFacts6.
Local Open Scope R_scope.

Lemma fold_vadd_nth p i : (i < p)%nat -> forall l acc, length acc = p -> Forall (fun r : vec => length r = p) l -> nth i (fold_left vadd l acc) 0 = nth i acc 0 + vsum (map (fun r => nth i r 0) l).
Proof.
  intros Hi. induction l as [|r l IH]; intros acc L F; [cbn; ring|]. pose proof (Forall_inv F) as Lr. apply Forall_inv_tail in F. cbn beta in Lr. cbn [fold_left map vsum fold_right]. rewrite IH; [|apply ln_add; assumption|exact F]. rewrite (nA p) by assumption. unfold vsum. cbn. ring.
Qed.
Lemma c88_diagonal s st m W f st1 J i : w_gtg st = None -> zgetJ s st m f = (st1, Ok J) -> Forall (fun r => length r = q_p (w_map st1)) J -> (i < q_p (w_map st1))%nat ->
  exists st2 g, zJtJ s st m W f = (st2, Ok g) /\ nth i g 0 = vsum (map (fun wr => (fst wr * nth i (snd wr) 0) ^ 2) (combine (match W with None => map (fun _ => 1) J | Some W => W end) J)) /\ w_gtg st2 = Some g.
Proof.
  intros E EJ F Hi. unfold zJtJ. rewrite E, EJ. cbv zeta. do 2 eexists. split; [reflexivity|]. split; [|reflexivity].
  set (w := match W with None => map (fun _ => 1) J | Some W => map (fun x => x ^ 2) W end). set (W' := match W with None => map (fun _ => 1) J | Some W => W end). assert (EW : w = map (fun x => x ^ 2) W') by (unfold w, W'; destruct W; [reflexivity|]; rewrite map_map; apply map_ext; intros; ring). rewrite EW. clear w EW EJ. clearbody W'.
  set (p := q_p (w_map st1)) in *. assert (G : forall W' J, Forall (fun r : vec => length r = p) J -> Forall (fun r : vec => length r = p) (map (fun wr => vscale (fst wr) (vmul (snd wr) (snd wr))) (combine (map (fun x => x ^ 2) W') J)) /\ vsum (map (fun r => nth i r 0) (map (fun wr => vscale (fst wr) (vmul (snd wr) (snd wr))) (combine (map (fun x => x ^ 2) W') J))) = vsum (map (fun wr => (fst wr * nth i (snd wr) 0) ^ 2) (combine W' J))).
  { clear - Hi. induction W' as [|a W' IH]; intros J F; [split; [constructor|reflexivity]|]. destruct J as [|r J]; [split; [constructor|reflexivity]|]. pose proof (Forall_inv F) as Lr. apply Forall_inv_tail in F. cbn beta in Lr. destruct (IH J F) as [A B]. cbn [map combine fst snd]. split; [constructor; [rewrite vscale_length; apply ln_mul; assumption|exact A]|]. unfold vsum in *. cbn [fold_right]. rewrite B, nth_vscale, (nM p) by assumption. ring. }
  destruct (G W' J F) as [A B]. rewrite (fold_vadd_nth p i Hi); [|apply repeat_length|exact A]. rewrite B. rewrite nth_zero. ring.
Qed.
Lemma c88_given {A} (x y : A) : construct (Some x) None = Ok x /\ construct None (Some x) = Ok x /\ construct (Some x) (Some y) = Err ValueError /\ @construct A None None = Err ValueError.
Proof. repeat split. Qed.
