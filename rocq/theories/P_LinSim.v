(** C44: linear simulations; C45: time steps; C57: exponential sinusoid kernels. *)
From Verif Require Import Py Vec VecDeriv PropsM LinSim SpecLinSim LinSimFacts.
From Coq Require Import Lra.
Local Open Scope R_scope.

(** C44: after any history, predicted data (and fields) are G f(m) for the operator and
    mapping in use, and stay so when asked again without a model. *)
Theorem C44_data s G f n p d m : reached s -> uses s G f -> map_ok n p f -> is_mat d p G -> length m = n ->
  snd (ldpred s (Some m) None) = Ok (mv G (pm_val f m)) /\ snd (lfields s (Some m)) = Ok (mv G (pm_val f m)) /\
  snd (ldpred (fst (ldpred s (Some m) None)) None None) = Ok (mv G (pm_val f m)).
Proof. exact (c44_data s G f n p d m). Qed.
Print Assumptions C44_data.
Example C44_data_ex : exists s, reached s /\ uses s [[2]; [3]] (mkPmap (fun x => x) (fun _ => [[1]]) (Some 1%nat)) /\ l_model s = Some [5].
Proof.
  exists (lrun (lin_init (Some (mkPmap (fun x => x) (fun _ => [[1]]) (Some 1%nat))) (Some [[2]])) [LJvec [4] [1]; LSetG [[2]; [3]]; LDpred (Some [5])]).
  split; [eexists; eexists; eexists; reflexivity|]. split; [split; reflexivity|reflexivity].
Qed.
Theorem C44_jacobian s G f n p d m v : reached s -> uses s G f -> map_ok n p f -> is_mat d p G -> length m = n -> length v = n ->
  exists J, snd (getJ s m) = Ok J /\ is_mat d n J /\ snd (jvec s m v) = Ok (mv J v).
Proof. exact (c44_getJ s G f n p d m v). Qed.
Print Assumptions C44_jacobian.
Theorem C44_adjoint s G f n p d m v w : reached s -> uses s G f -> map_ok n p f -> is_mat d p G -> length m = n -> length v = n -> length w = d ->
  exists a b, snd (jvec s m v) = Ok a /\ snd (jtvec s m w) = Ok b /\ length a = d /\ length b = n /\ dot a w = dot v b.
Proof. exact (c44_adjoint s G f n p d m v w). Qed.
Print Assumptions C44_adjoint.
Theorem C44_derivative s G f n p d m : reached s -> uses s G f -> map_ok n p f -> is_mat d p G -> length m = n ->
  exists F J, (forall x, length x = n -> snd (ldpred s (Some x) None) = Ok (F x)) /\
    (forall v, length v = n -> snd (jvec s m v) = Ok (J v)) /\ has_jacobian n d F m J.
Proof. exact (c44_derivative s G f n p d m). Qed.
Print Assumptions C44_derivative.
(** Finding: an operator set after construction does not change the number of data of the
    survey, which then differs from the number of predicted data. *)
Theorem C44_count_refuted : exists f G l m r, let s := lrun (lin_init (Some f) None) l in
  uses s G f /\ map_ok 1 1 f /\ snd (ldpred s (Some m) None) = Ok r /\ length r <> l_nD s.
Proof. exact c44_nD. Qed.
Print Assumptions C44_count_refuted.

(** C45: after any history of assignments (also rejected ones), reads and deletions the
    times are the last accepted start with the last accepted steps added one by one, and
    their number is the number of steps; without steps both raise. *)
Theorem C45_times t0 v l : widths_of v <> None -> let s := trun (time_init t0 v) l in
  match last_steps (match widths_of v with Some h => h | None => None end) l with
  | Some h => exists ts, snd (times s) = Ok ts /\ coherent (last_t0 t0 l) h ts /\ snd (nT s) = Ok (length h)
  | None => snd (times s) = Err TypeError /\ snd (nT s) = Err TypeError
  end.
Proof. exact (c45_times t0 v l). Qed.
Print Assumptions C45_times.
Example C45_times_ex : last_steps (Some [1]) [TTimes; TSteps (TList [W2 1 2; WBad]); TSteps (TList [W2 1 2; W1 4]); TT0 (Some 3); TTimes; TSteps TBad] = Some [1; 1; 4].
Proof. reflexivity. Qed.
(** These times are determined, are partial sums, and increase for positive steps. *)
Theorem C45_sums t0 h ts : coherent t0 h ts -> forall i, (i <= length h)%nat -> nth i ts 0 = t0 + vsum (firstn i h).
Proof. exact (c45_sum t0 h ts). Qed.
Print Assumptions C45_sums.
Theorem C45_increasing t0 h ts : coherent t0 h ts -> Forall (fun x => 0 < x) h -> forall i j, (i < j <= length h)%nat -> nth i ts 0 < nth j ts 0.
Proof. exact (c45_increasing t0 h ts). Qed.
Print Assumptions C45_increasing.
Example C45_increasing_ex : coherent 3 [1; 2] [3; 4; 6].
Proof. split; [reflexivity|]. split; [reflexivity|]. intros [|[|i]] Hi; cbn in *; try lia; ring. Qed.
(** The compact form unpacks to repeated steps; plain numbers to themselves. *)
Theorem C45_compact l : unpack_widths (map (fun xn => W2 (fst xn) (snd xn)) l) = Ok (flat_map (fun xn => repeat (fst xn) (snd xn)) l).
Proof. exact (c45_compact l). Qed.
Print Assumptions C45_compact.
Theorem C45_plain l : unpack_widths (map W1 l) = Ok l.
Proof. exact (c45_single l). Qed.
Print Assumptions C45_plain.
(** Steps with a factor grow by that factor from the first one on; a negative factor
    gives the same steps in the reverse order. Items follow each other in order. *)
Theorem C45_padding x n f : exists p, unpack_widths [W3 x n f] = Ok p /\ length p = n /\
  forall i, (i < n)%nat -> nth i p 0 = x * Rabs f ^ (if Rlt_dec f 0 then n - i else i + 1).
Proof. exact (c45_padding x n f). Qed.
Print Assumptions C45_padding.
Theorem C45_append a b pa pb : unpack_widths a = Ok pa -> unpack_widths b = Ok pb -> unpack_widths (a ++ b) = Ok (pa ++ pb).
Proof. exact (c45_append a b pa pb). Qed.
Print Assumptions C45_append.
Example C45_append_ex : unpack_widths [W2 1 2] = Ok [1; 1]. Proof. reflexivity. Qed.
Example C45_compact_ex : flat_map (fun xn => repeat (fst xn) (snd xn)) [(1, 2%nat); (4, 1%nat)] = [1; 1; 4].
Proof. reflexivity. Qed.

(** C57: with all parameters set before the operator is first read, its entries are the
    trapezoidal integrals of the kernels over the cells. *)
Theorem C57_operator c l : forallb (fun o => negb (is_read o)) l = true ->
  let s := erun (mkEst c None None) l in exists G, snd (read_G s) = Ok G /\ is_operator (e_cfg s) G.
Proof. exact (c57_operator c l). Qed.
Print Assumptions C57_operator.
Example C57_operator_ex : e_cfg (erun (mkEst (mkEcfg 0 0 1 1 1 0 [1]) None None) [EP 2; EN 0; EN 4; EMesh 1 [1; 1]]) = mkEcfg 2 0 1 1 4 1 [1; 1].
Proof. reflexivity. Qed.
(** Once read the operator never changes again, whatever is assigned ... *)
Theorem C57_frozen c l1 l2 G : snd (read_G (erun (mkEst c None None) l1)) = Ok G ->
  snd (read_G (erun (fst (read_G (erun (mkEst c None None) l1))) l2)) = Ok G.
Proof. exact (c57_frozen c l1 l2 G). Qed.
Print Assumptions C57_frozen.
(** ... so it is not the operator of the current parameters (finding). *)
Theorem C57_stale_refuted : exists c l G, let s := erun (mkEst c None None) l in snd (read_G s) = Ok G /\ ~ is_operator (e_cfg s) G.
Proof. exact c57_stale. Qed.
Print Assumptions C57_stale_refuted.
(** Finding: raising the number of kernels after their exponents were read makes the
    operator raise. *)
Theorem C57_index_refuted c n : (e_n c < n)%nat -> snd (read_G (erun (mkEst c None None) [EReadJk; EN n])) = Err IndexError.
Proof. exact (c57_index c n). Qed.
Print Assumptions C57_index_refuted.
