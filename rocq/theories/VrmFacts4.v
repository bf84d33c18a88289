(** Exactly what the waveforms accept, and values in SI units. *)
From Coq Require Import Reals Lra.
From Verif Require Import Py Vec Vrm SpecVrm VrmFacts.
Local Open Scope R_scope.

Lemma c91_step t0 f times :
  step_decay t0 f times =
    Ok (map (fun t => match f with FDB => - (4 * PI / 10000000) | _ => - (1) end / (t - t0)) times)
  /\ (f = FDH \/ f = FDB) /\ times <> [] /\ Forall (fun t => t0 < t) times
  \/ step_decay t0 f times = Err ValueError /\ ~ ((f = FDH \/ f = FDB) /\ times <> [] /\ Forall (fun t => t0 < t) times).
Proof.
  unfold step_decay. destruct times as [|t1 ts].
  { right. split; [destruct f; reflexivity|]. intros (_ & H & _). congruence. }
  remember (t1 :: ts) as times eqn:E. assert (NE : times <> []) by (subst; discriminate). clear E t1 ts.
  destruct (Forall_dec (fun t => t0 < t) (fun t => Rlt_dec t0 t) times) as [F|N].
  - rewrite early_false by assumption. destruct f; cbn [is_rate is_b negb].
    1, 2: right; split; [reflexivity|intros [[H|H] _]; discriminate].
    + left. split; [reflexivity|auto].
    + left. split; [reflexivity|auto].
  - rewrite early_true by assumption. right. split; [destruct (negb (is_rate f)); reflexivity|]. intros (_ & _ & H). exact (N H).
Qed.
Lemma c91_lengths tw iw f times : length tw <> length iw -> piece_decay tw iw f times = Err ValueError.
Proof. intros H. unfold piece_decay, wave_ok. apply Nat.eqb_neq in H. rewrite H. reflexivity. Qed.
