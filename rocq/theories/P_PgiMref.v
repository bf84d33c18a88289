(** C94: the learned reference model is used in smoothness terms once it is stable. *)
From Coq Require Import Reals Lra.
From Verif Require Import Py Vec PgiMref SpecPgiMref PgiMrefFacts PgiMrefFacts2.
Local Open Scope R_scope.

(** If the directive that updates the mixture gives the reference, smoothness terms of the PGI use
    the last one given, from the first iteration that was ready on, ... *)
Theorem C94_used_partial : forall o tg ops s s' p r, o_targets o = Some tg -> the_pgi (snd s) = Some p -> run o ops s = Ok s' ->
  ever o tg (fst s) ops = true -> learned None ops = Some r ->
  exists q, the_pgi (snd s') = Some q /\ Forall (Forall (fun t => smooth t = true -> used t = Some r)) (parts q).
Proof. exact mref_updates. Qed.
Print Assumptions C94_used_partial.
Example C94_used_case : let s := ([0%nat; 1%nat], TPgi (mkPgi None [[mkT false false None; mkT true false None]])) in
  let o := mkO (Some [10]) 0 true 0 in let i := mkI true [5] [0%nat; 1%nat] [3; 4] in
  ready o [10] (fst s) i = true /\
  run o [OEnd i] s = Ok ([0%nat; 1%nat], TPgi (mkPgi None [[mkT false false None; mkT true true None]])) /\
  run o [OUpdate [3; 4]; OEnd i] s = Ok ([0%nat; 1%nat], TPgi (mkPgi (Some [3; 4]) [[mkT false false (Some [3; 4]); mkT true true (Some [3; 4])]])).
Proof. exact case_pgi. Qed.

(** ... and none before. *)
Theorem C94_before : forall o tg ops s s' p, o_targets o = Some tg -> the_pgi (snd s) = Some p -> run o ops s = Ok s' ->
  ever o tg (fst s) ops = false -> Forall (Forall (fun t => flag t = false)) (parts p) ->
  exists q, the_pgi (snd s') = Some q /\ Forall (Forall (fun t => used t = None)) (parts q).
Proof. exact mref_before. Qed.
Print Assumptions C94_before.

(** Without that directive no smoothness term of the PGI ever uses a reference, in whatever
    iterations were ready. *)
Theorem C94_never_refuted : forall o tg l s s' p, o_targets o = Some tg -> the_pgi (snd s) = Some p ->
  Forall (Forall (fun t => ref t = None)) (parts p) -> run o (map OEnd l) s = Ok s' ->
  exists q, the_pgi (snd s') = Some q /\ Forall (Forall (fun t => used t = None)) (parts q).
Proof. exact mref_never. Qed.
Print Assumptions C94_never_refuted.

(** Smoothness terms of other regularizations get the reference of the last ready iteration, ... *)
Theorem C94_others : forall o tg ops, o_targets o = Some tg -> forall s s', run o ops s = Ok s' ->
  others (snd s') = map (map (fun t => if smooth t then mkT true (flag t) (given o tg (fst s) (ref t) ops) else t)) (others (snd s)).
Proof. exact mref_others. Qed.
Print Assumptions C94_others.
Example C94_others_case : let s := ([0%nat; 1%nat], TSum [PPgi (mkPgi None []); PWls [mkT true false None]]) in
  let o := mkO (Some [10]) 0 true 0 in let i := mkI true [5] [0%nat; 1%nat] [3; 4] in
  run o [OEnd i] s = Ok ([0%nat; 1%nat], TSum [PPgi (mkPgi None []); PWls [mkT true false (Some [3; 4])]]).
Proof. exact case_sum. Qed.

(** ... but do not use it unless they were made to. *)
Theorem C94_others_refuted : forall o tg ops s s', o_targets o = Some tg -> run o ops s = Ok s' ->
  Forall (Forall (fun t => flag t = false)) (others (snd s)) -> Forall (Forall (fun t => used t = None)) (others (snd s')).
Proof. exact mref_others_unused. Qed.
Print Assumptions C94_others_refuted.

(** With the default tolerance an iteration is ready when the targets are reached and no cell changed its unit. *)
Theorem C94_ready : forall o tg prev i, o_wait o = true -> o_tol o = 0 -> length prev = length (i_member i) -> i_member i <> [] ->
  length (i_dmlist i) = length tg ->
  ready o tg prev i = true <->
  (i_dm i = true \/ Forall2 (fun x y => x < (1 + o_tol_phid o) * y) (i_dmlist i) tg) /\ i_member i = prev.
Proof. exact mref_ready. Qed.
Print Assumptions C94_ready.

(** Without a directive for the targets the first iteration fails, although the directive could be set up. *)
Theorem C94_no_target_refuted : forall o ops s, o_targets o = None -> existsb is_end ops = true -> run o ops s = Err AttributeError.
Proof. exact mref_no_target. Qed.
Print Assumptions C94_no_target_refuted.
