(** Cases *)
From Coq Require Import Reals Lra.
From Verif Require Import Py Vec PgiMref SpecPgiMref PgiMrefFacts.
Local Open Scope R_scope.

(** A PGI with one smallness and one smoothness term, targets reached, stable membership *)
Lemma case_pgi : let s := ([0%nat; 1%nat], TPgi (mkPgi None [[mkT false false None; mkT true false None]])) in
  let o := mkO (Some [10]) 0 true 0 in let i := mkI true [5] [0%nat; 1%nat] [3; 4] in
  ready o [10] (fst s) i = true /\
  run o [OEnd i] s = Ok ([0%nat; 1%nat], TPgi (mkPgi None [[mkT false false None; mkT true true None]])) /\
  run o [OUpdate [3; 4]; OEnd i] s = Ok ([0%nat; 1%nat], TPgi (mkPgi (Some [3; 4]) [[mkT false false (Some [3; 4]); mkT true true (Some [3; 4])]])).
Proof. repeat split; reflexivity. Qed.
(** A sum with another regularization *)
Lemma case_sum : let s := ([0%nat; 1%nat], TSum [PPgi (mkPgi None []); PWls [mkT true false None]]) in
  let o := mkO (Some [10]) 0 true 0 in let i := mkI true [5] [0%nat; 1%nat] [3; 4] in
  run o [OEnd i] s = Ok ([0%nat; 1%nat], TSum [PPgi (mkPgi None []); PWls [mkT true false (Some [3; 4])]]).
Proof. reflexivity. Qed.
