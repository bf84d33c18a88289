(** Directives of joint inversions: what goes wrong. *)
From Verif Require Import Py Vec JointDir SpecJointDir JointDirFacts JointDirFacts2.
Local Open Scope R_scope.

Lemma cool_at ds dm phi t b v : 0 < t -> rule (example ds dm) t phi b v -> cool (example ds dm) phi t b = v.
Proof. intros T H. apply (rule_unique (example ds dm) t phi b); [apply cool_rule; [exact T|cbn; lra]|exact H]. Qed.
Lemma cool_far ds dm : cool (example ds dm) 3000 (1000 * 1) 1 = / 2.
Proof. apply cool_at; [lra|]. split; [|split; [|split; [|split]]]; cbn; intros; try discriminate; lra. Qed.
Lemma cool_near ds dm : cool (example ds dm) 5 (10 * 1) 1 = 4 / 3.
Proof. apply cool_at; [lra|]. split; [|split; [|split; [|split]]]; cbn; intros; try discriminate; try lra. rewrite Rmax_left by lra. lra. Qed.
Lemma cool_wrong ds dm : cool (example ds dm) 20 (10 * 1) 1 = / 2.
Proof. apply cool_at; [lra|]. split; [|split; [|split; [|split]]]; cbn; intros; try discriminate; lra. Qed.
Ltac vals := repeat match goal with |- context [Req_EM_T ?a ?b] => destruct (Req_EM_T a b); [try lra|try lra] end.
Lemma example_proper ds : NoDup (Measure :: ds) -> proper (example ds [1; 1]) 2.
Proof.
  intros N. unfold proper, example; cbn. split; [eexists; reflexivity|]. split; [exact N|]. split; [reflexivity|]. split; [repeat constructor; lra|]. split; [reflexivity|]. split; [repeat constructor; lra|]. split; [lra|]. split; [lra|lia].
Qed.
Theorem saved_refuted : exists s, run (example [Save; Schedule] [1; 1]) [Iteration (it 1 [5; 3000] [1; 1; 1])] (start 1 1 [1; 1; 1]) = Ok s /\
  saved_betas s 0 = [4 / 3; / 2] /\ js_file s = [([1; 1], [5; 3000])].
Proof.
  eexists. split.
  - cbn [run happen set_dirs example end_iters end_iter]. unfold measure at 1. cbn -[cool IZR Rdiv Rinv Rplus Rmult example]. unfold last_vals. cbn [set_dm example st_d st_r it combine filter fst snd map js_mults]. vals. cbn -[cool IZR Rdiv Rinv Rplus Rmult].
    change {| set_dirs := [Measure; Save; Schedule]; set_dm := [1; 1]; set_nD := [10; 1000]; set_tol := / 10; set_update := true; set_rate := 1; set_factor := 2; set_stol := / 100000; set_sbtol := / 10; set_disk := true |} with (example [Save; Schedule] [1; 1]).
    rewrite cool_far, cool_near. reflexivity.
  - split; reflexivity.
Qed.
Theorem zero_misfit_refuted : exists s, run (example [Schedule] [0; 1]) [Iteration (it 1 [5; 20] [1; 1; 1])] (start 1 1 [1; 1; 1]) = Ok s /\ js_mults s = [/ 2; 1; 1].
Proof.
  eexists. split.
  - cbn [run happen set_dirs example end_iters end_iter]. unfold measure at 1. cbn -[cool IZR Rdiv Rinv Rplus Rmult example]. unfold last_vals. cbn [set_dm example st_d st_r it combine filter fst snd map js_mults]. vals. cbn -[cool IZR Rdiv Rinv Rplus Rmult].
    change {| set_dirs := [Measure; Schedule]; set_dm := [0; 1]; set_nD := [10; 1000]; set_tol := / 10; set_update := true; set_rate := 1; set_factor := 2; set_stol := / 100000; set_sbtol := / 10; set_disk := true |} with (example [Schedule] [0; 1]).
    rewrite cool_wrong. reflexivity.
  - reflexivity.
Qed.
Theorem zero_coupling_refuted ds r0 r1 r2 i s s' : st_r i = [r0; r1; r2] -> js_mults s = [1; 1; 0] -> end_iter (example ds [1; 1]) i s Measure = Ok s' -> js_sim s' = r1 /\ js_phim s' = [r0].
Proof.
  intros E M. cbn [end_iter]. unfold measure. rewrite M, E. assert (Q : last_vals [1; 1; 0] [r0; r1; r2] = [r0; r1]) by (unfold last_vals; cbn [combine filter fst snd map]; vals; reflexivity). rewrite Q. intros [= <-]. split; reflexivity.
Qed.
Theorem validate_iff ds : validate ds = Ok true <-> exists r, ds = Measure :: r.
Proof. destruct ds as [|[] ds]; cbn; split; try discriminate; try (intros (r & H); discriminate); [intros _; eexists; reflexivity|intros _; reflexivity]. Qed.
