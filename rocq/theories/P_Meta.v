(** Property C35: meta simulations. *)
From Coq Require Import Lra.
From Verif Require Import Py Vec VecDeriv Frechet Meta SpecMeta MetaFacts MetaFacts2.
Local Open Scope R_scope.

(** After any use of the meta simulation alone, its data at a model are the concatenation of
    the parts' data at their mapped models. *)
Theorem C35_dpred : forall (F : Type) n (sims : list (@msim F)) maps ops m, no_touch ops -> length sims = length maps ->
  snd (meta_dpred sims maps (meta_run n sims maps ops) (Some m) None) = Ok (concat (each (fun s p => part_dpred s p m) sims maps)).
Proof. intros F n sims maps ops m H L. apply dpred_ok; [apply run_synced, H|exact L]. Qed.
Print Assumptions C35_dpred.
(** ... and [Jvec] is their derivative, when each part's is. *)
Theorem C35_Jvec_is_derivative : forall (F : Type) n (sims : list (@msim F)) maps ops m, no_touch ops -> length sims = length maps -> length m = n ->
  (forall q, In q (combine sims maps) -> part_diff n m (fst q) (snd q)) ->
  exists J, frechet n (total_nD sims) (fun y => concat (each (fun s p => part_dpred s p y) sims maps)) m J /\
    forall v, length v = n -> snd (meta_Jvec sims maps (meta_run n sims maps ops) m v None) = Ok (mv J v).
Proof.
  intros F n sims maps ops m H L Lm Hd. destruct (stack_frechet n m Lm sims maps L Hd) as (J & HJ & E). exists J. split; [exact HJ|].
  intros v Lv. rewrite E by exact Lv. apply Jvec_ok; [apply run_synced, H|exact L].
Qed.
Print Assumptions C35_Jvec_is_derivative.
(** [Jtvec] is its adjoint. *)
Theorem C35_adjoint : forall (F : Type) n (sims : list (@msim F)) maps ops ops' m v w, no_touch ops -> no_touch ops' -> all_shaped n m sims maps ->
  length v = n -> length w = total_nD sims ->
  exists j g, snd (meta_Jvec sims maps (meta_run n sims maps ops) m v None) = Ok j /\ snd (meta_Jtvec n sims maps (meta_run n sims maps ops') m w None) = Ok g /\
    length j = total_nD sims /\ length g = n /\ dot j w = dot v g.
Proof. intros F n sims maps ops ops' m v w H H' Hs Lv Lw. apply Jtvec_ok; try assumption; apply run_synced; assumption. Qed.
Print Assumptions C35_adjoint.
(** The diagonal, computed at a new model, is that of (WJ)'(WJ) when each parameter feeds at
    most one output of each mapping. *)
Theorem C35_diagonal_partial : forall (F : Type) n (sims : list (@msim F)) maps ops ops' m W c, no_touch ops -> no_touch ops' ->
  m_model (meta_run n sims maps ops') <> Some m \/ m_jtj (meta_run n sims maps ops') = None ->
  all_shaped n m sims maps -> (forall p, In p maps -> one_output n (p_J p m)) -> length W = total_nD sims -> (c < n)%nat ->
  exists d j, snd (meta_jtjdiag n sims maps (meta_run n sims maps ops') m W None) = Ok d /\
    snd (meta_Jvec sims maps (meta_run n sims maps ops) m (unit_at n c) None) = Ok j /\ nth c d 0 = sqnorm (vmul W j).
Proof. intros F n sims maps ops ops' m W c H H'. apply jtjdiag_ok; apply run_synced; assumption. Qed.
Print Assumptions C35_diagonal_partial.
(** Sums. *)
Theorem C35_sum_dpred : forall (F : Type) n nD (sims : list (@msim F)) maps ops m, no_touch ops -> length sims = length maps ->
  snd (sum_dpred nD sims maps (sum_run n nD sims maps ops) (Some m) None) = Ok (vsums nD (each (fun s p => part_dpred s p m) sims maps)).
Proof. intros F n nD sims maps ops m H L. apply sum_dpred_ok; [apply sum_run_synced, H|exact L]. Qed.
Print Assumptions C35_sum_dpred.
Theorem C35_sum_adjoint : forall (F : Type) n nD (sims : list (@msim F)) maps ops ops' m v w, no_touch ops -> no_touch ops' -> all_shaped n m sims maps ->
  (forall s, In s sims -> s_nD s = nD) -> length v = n -> length w = nD ->
  exists j g, snd (sum_Jvec nD sims maps (sum_run n nD sims maps ops) m v None) = Ok j /\ snd (sum_Jtvec n sims maps (sum_run n nD sims maps ops') m w None) = Ok g /\
    dot j w = dot v g.
Proof. intros F n nD sims maps ops ops' m v w H H'. apply sum_Jt; apply sum_run_synced; assumption. Qed.
Print Assumptions C35_sum_adjoint.
(** Repeated simulations, whatever state the simulation was left in. *)
Theorem C35_repeated : forall (F : Type) (s : @msim F) maps st m v,
  snd (rep_dpred s maps st (Some m) None) = Ok (concat (map (fun p => part_dpred s p m) maps)) /\
  snd (rep_Jvec s maps st m v None) = Ok (concat (map (fun p => part_Jvec s p m v) maps)).
Proof. intros F s maps st m v. split; [apply rep_dpred_ok|apply rep_Jvec_ok]. Qed.
Print Assumptions C35_repeated.

Example C35_case : all_shaped 2 [5; 7] sims2 maps2 /\ (forall q, In q (combine sims2 maps2) -> part_diff 2 [5; 7] (fst q) (snd q)) /\
  (forall p, In p maps2 -> one_output 2 (p_J p [5; 7])).
Proof.
  split; [|split].
  - split; [reflexivity|]. intros q [<-|[<-|[]]]; (split; [split; [reflexivity|repeat constructor]|]); (split; [split; [reflexivity|repeat constructor]|reflexivity]).
  - intros q [<-|[<-|[]]]; split; apply frechet_linear; try reflexivity; (split; [reflexivity|repeat constructor]).
  - intros p [<-|[<-|[]]] c i j _ Hi Hj; destruct i as [|[|i]], j as [|[|j]]; auto; exfalso; cbn in Hi, Hj; destruct c; cbn in *; congruence.
Qed.

(** Refuted: using an inner simulation directly leaves its model out of step; evaluating the
    meta simulation again at the same model does not restore it. *)
Theorem C35_touched_refuted : exists ops m, snd (meta_dpred sims2 maps2 (meta_run 2 sims2 maps2 ops) (Some m) None) <> Ok (concat (each (fun s p => part_dpred s p m) sims2 maps2)).
Proof.
  exists [MSet [1; 1]; MTouch 0 [2]], [1; 1]. cbn. unfold set_model. cbn.
  destruct (Req_EM_T 1 1); [|congruence]. cbn. intros [= H]. lra.
Qed.
Print Assumptions C35_touched_refuted.
(** Refuted: a second diagonal at the same model with other weights is the first one. *)
Theorem C35_diagonal_cache_refuted : forall (F : Type) n (sims : list (@msim F)) maps st m W W' f f' d,
  m_model st = Some m -> snd (meta_jtjdiag n sims maps st m W f) = Ok d ->
  snd (meta_jtjdiag n sims maps (fst (meta_jtjdiag n sims maps st m W f)) m W' f') = Ok d.
Proof.
  intros F n sims maps st m W W' f f' d Hm H. assert (Es : forall j, set_model maps (mkMst (Some m) (m_inner st) j) m = mkMst (Some m) (m_inner st) j).
  { intros j. unfold set_model. cbn. replace (veqb m m) with true by (symmetry; apply veqb_eq; reflexivity). reflexivity. }
  assert (Est : st = mkMst (Some m) (m_inner st) (m_jtj st)) by (destruct st; cbn in *; congruence). unfold meta_jtjdiag in H |- *. rewrite Est in H |- *. rewrite !Es in H |- *. cbn [m_jtj m_model m_inner] in H |- *.
  destruct (m_jtj st) as [d0|].
  - cbn [fst snd] in *. rewrite Es. cbn. exact H.
  - destruct (bind _ _); cbn [fst snd] in *; [|discriminate]. rewrite Es. cbn. exact H.
Qed.
Print Assumptions C35_diagonal_cache_refuted.
(** Refuted: the diagonal of a sum leaves out the products between simulations: two copies
    of one simulation with sensitivity 1 give 2 instead of 4. *)
Theorem C35_sum_diagonal_refuted : let sims := [lin 1 1 [[1]]; lin 1 1 [[1]]] in let maps := [mkMm 1 1 (mv [[1]]) (fun _ => [[1]]); mkMm 1 1 (mv [[1]]) (fun _ => [[1]])] in
  exists d j, snd (sum_jtjdiag 1 sims maps (meta_start sims) [0] [1] None) = Ok d /\ snd (sum_Jvec 1 sims maps (meta_start sims) [0] (unit_at 1 0) None) = Ok j /\
    nth 0 d 0 = 2 /\ sqnorm (vmul [1] j) = 4.
Proof.
  cbn zeta. eexists. eexists. split; [reflexivity|]. split; [reflexivity|]. cbn. replace (1 * 1 * (1 * 1 * 1) + 0) with 1 by ring. rewrite sqrt_1. split; lra.
Qed.
Print Assumptions C35_sum_diagonal_refuted.
