From Verif Require Import Py Vec VecDeriv Joint Cplx CplxFacts SolveDeriv RichardsFacts RichardsFacts2 RichardsFacts3 DcFacts Fdem SpecFdem FdemFacts FdemFacts2 FdemFacts3 FdemFacts4 FdemFacts5 FdemFacts6.
From Verif Require JointFacts LinSimFacts DcFacts4.
From Coq Require Import Reals Lra Lia Permutation.
Local Open Scope R_scope.

(** ** The frequencies and the sources of each *)
Lemma insert_freq_in f l x : In x (insert_freq f l) <-> x = f \/ In x l.
Proof.
  induction l as [|g l IH]; cbn [insert_freq]; [cbn; intuition congruence|]. destruct (Req_EM_T f g) as [->|N]; [cbn; intuition congruence|].
  destruct (Rlt_dec f g); cbn [In]; [intuition congruence|]. rewrite IH. intuition congruence.
Qed.
Inductive below (x : R) : list R -> Prop := below_nil : below x [] | below_cons y l : x < y -> below y l -> below x (y :: l).
Lemma below_in x l : below x l -> Forall (fun y => x < y) l.
Proof. intros H. induction H as [|x y l Hy H IH]; constructor; [exact Hy|]. eapply Forall_impl; [|exact IH]. cbv beta. intros. lra. Qed.
Lemma insert_below f l : forall x, x < f -> below x l -> below x (insert_freq f l).
Proof.
  induction l as [|g l IH]; intros x Hx H; cbn [insert_freq]; [constructor; [exact Hx|constructor]|]. inversion H; subst. destruct (Req_EM_T f g); [exact H|].
  destruct (Rlt_dec f g); constructor; auto; [constructor; assumption|]. apply IH; [lra|assumption].
Qed.
Lemma freqs_sorted l : fold_right insert_freq [] l = [] \/ exists x r, fold_right insert_freq [] l = x :: r /\ below x r.
Proof.
  induction l as [|f l IH]; cbn [fold_right]; [left; reflexivity|]. right. destruct IH as [->|(x & r & -> & H)]; [exists f, []; split; [reflexivity|constructor]|].
  cbn [insert_freq]. destruct (Req_EM_T f x) as [->|N]; [eauto|]. destruct (Rlt_dec f x); [exists f, (x :: r); split; [reflexivity|constructor; assumption]|].
  exists x, (insert_freq f r). split; [reflexivity|]. apply insert_below; [lra|exact H].
Qed.
Lemma below_nodup x l : below x l -> NoDup l /\ ~ In x l.
Proof.
  intros H. induction H as [|x y l Hy H IH]; [split; [constructor|intros []]|]. destruct IH as [N I]. split; [constructor; assumption|].
  intros [->|K]; [lra|]. pose proof (below_in y l H) as F. rewrite Forall_forall in F. specialize (F x K). lra.
Qed.
Lemma freqs_nodup srcs : NoDup (freqs srcs).
Proof. unfold freqs. destruct (freqs_sorted (map s_freq srcs)) as [->|(x & r & -> & H)]; [constructor|]. destruct (below_nodup x r H). constructor; assumption. Qed.
Lemma freqs_in srcs f : In f (freqs srcs) <-> In f (map s_freq srcs).
Proof. unfold freqs. induction (map s_freq srcs) as [|g l IH]; cbn [fold_right]; [tauto|]. rewrite insert_freq_in, IH. cbn. intuition congruence. Qed.
Definition visited (srcs : list source) : list source := concat (map snd (G srcs)).
Lemma visited_eq srcs : visited srcs = concat (map (fun f => with_freq f srcs) (freqs srcs)).
Proof. unfold visited, G, make_survey. cbn. rewrite map_map. reflexivity. Qed.
Lemma visited_in srcs src : In src (visited srcs) <-> In src srcs.
Proof.
  rewrite visited_eq. rewrite in_concat. split.
  - intros (l & H & I). apply in_map_iff in H. destruct H as (f & <- & _). apply with_freq_in in I. apply I.
  - intros I. exists (with_freq (s_freq src) srcs). split; [|apply with_freq_in; auto]. apply in_map_iff. exists (s_freq src). split; [reflexivity|]. apply freqs_in. apply in_map. exact I.
Qed.
Lemma visited_nodup srcs : NoDup srcs -> NoDup (visited srcs).
Proof.
  intros N. rewrite visited_eq. pose proof (freqs_nodup srcs) as NF. induction (freqs srcs) as [|f l IH]; [constructor|]. cbn [map concat]. inversion NF; subst.
  assert (K : forall a b : list source, NoDup a -> NoDup b -> (forall x, In x a -> ~ In x b) -> NoDup (a ++ b)).
  { clear. induction a as [|x a IH]; intros b Na Nb D; [exact Nb|]. cbn. inversion Na; subst. constructor; [|apply IH; auto; intros; apply D; right; assumption].
    rewrite in_app_iff. intros [I|I]; [contradiction|]. apply (D x); [left; reflexivity|exact I]. }
  apply K; [apply NoDup_filter; exact N|apply IH; assumption|]. intros x I1 I2. apply with_freq_in in I1. apply in_concat in I2. destruct I2 as (c & I2 & I3). apply in_map_iff in I2. destruct I2 as (g & <- & I4). apply with_freq_in in I3.
  destruct I1 as [_ E1]. destruct I3 as [_ E2]. congruence.
Qed.
Lemma ids_nodup srcs : NoDup (map s_id srcs) -> NoDup srcs. Proof. apply NoDup_map_inv. Qed.
Lemma visited_perm srcs : NoDup (map s_id srcs) -> Permutation (visited srcs) srcs.
Proof. intros N. apply NoDup_Permutation; [apply visited_nodup; apply ids_nodup; exact N|apply ids_nodup; exact N|]. intros x. apply visited_in. Qed.
Lemma ids_inj srcs a b : NoDup (map s_id srcs) -> In a srcs -> In b srcs -> s_id a = s_id b -> a = b.
Proof.
  induction srcs as [|x l IH]; intros N Ia Ib E; [destruct Ia|]. cbn in N. inversion N; subst. destruct Ia as [->|Ia], Ib as [->|Ib]; try reflexivity.
  - exfalso. apply H1. rewrite E. apply in_map. exact Ib.
  - exfalso. apply H1. rewrite <- E. apply in_map. exact Ia.
  - apply IH; assumption.
Qed.
Lemma dict_map {A} srcs (f : source -> A) l src : NoDup (map s_id srcs) -> incl l srcs -> In src l -> dict_get Nat.eqb (s_id src) (map (fun x => (s_id x, f x)) l) = Some (f src).
Proof.
  intros N I H. induction l as [|x l IH]; [destruct H|]. cbn [map dict_get]. destruct (Nat.eqb_spec (s_id src) (s_id x)) as [E|E].
  - assert (x = src) as ->; [|reflexivity]. apply (ids_inj srcs); [exact N|apply I; left; reflexivity|apply I; exact H|symmetry; exact E].
  - destruct H as [->|H]; [contradiction|]. apply IH; [|exact H]. intros y Hy. apply I. right. exact Hy.
Qed.
Lemma nth_error_combine_seq {A} (l : list A) i x : In (i, x) (combine (seq 0 (length l)) l) -> nth_error l i = Some x.
Proof.
  assert (K : forall k i, In (i, x) (combine (seq k (length l)) l) -> (k <= i)%nat /\ nth_error l (i - k) = Some x).
  { clear i. induction l as [|y l IH]; intros k i H; [destruct H|]. cbn in H. destruct H as [H|H].
    - inversion H; subst. split; [lia|]. rewrite Nat.sub_diag. reflexivity.
    - destruct (IH _ _ H) as [L E]. split; [lia|]. replace (i - k)%nat with (S (i - S k)) by lia. exact E. }
  intros H. destruct (K 0%nat i H) as [_ E]. rewrite Nat.sub_0_r in E. exact E.
Qed.
Lemma over_all {A} srcs (g : nat -> nat -> R -> source -> result A) (f : source -> A) :
  (forall i fr l src, nth_error (G srcs) i = Some (fr, l) -> l = with_freq fr srcs -> In src srcs -> s_freq src = fr -> g i (length l) fr src = Ok (f src)) ->
  over g (G srcs) = Ok (map (fun src => (s_id src, f src)) (visited srcs)).
Proof.
  intros H. unfold over. rewrite (LinSimFacts.mapM_all _ (fun ig => map (fun src => (s_id src, f src)) (snd (snd ig)))).
  - cbn [bind]. f_equal. unfold visited. rewrite concat_map, map_map. f_equal. generalize (G srcs) as l. intros l. rewrite <- (map_map snd (fun g0 => map (fun src => (s_id src, f src)) (snd g0))).
    assert (E : forall k, map snd (combine (seq k (length l)) l) = l) by (clear; induction l as [|x l IH]; intros k; [reflexivity|]; cbn; rewrite IH; reflexivity). rewrite E. reflexivity.
  - intros [i [fr l]] I. cbn [snd]. pose proof (nth_error_combine_seq _ _ _ I) as E. pose proof (G_in srcs (fr, l) (nth_error_In _ _ E)) as E2. cbn in E2. rewrite (LinSimFacts.mapM_all _ (fun src => (s_id src, f src))); [reflexivity|].
    intros src Is. rewrite E2 in Is. apply with_freq_in in Is. rewrite (H i fr l src E E2 (proj1 Is) (proj2 Is)). reflexivity.
Qed.
Lemma assemble_all {A} (d : A) srcs (f : source -> list A) : NoDup (map s_id srcs) -> assemble d (make_survey srcs) (map (fun src => (s_id src, f src)) (visited srcs)) = concat (map f srcs).
Proof.
  intros N. unfold assemble. cbn [make_survey sv_list]. f_equal. apply map_ext_in. intros src I. rewrite (dict_map srcs); auto; [|apply visited_in; exact I]. intros y Hy. apply visited_in. exact Hy.
Qed.

Section Values.
  Context (s : fdem) (srcs : list source) (SU : setup_ok s srcs).
  Notation nE := (f_nE s). Notation nF := (f_nF s). Notation p := (f_p s).
  Lemma SZ : sizes s. Proof. apply SU. Qed.
  Lemma ND : NoDup (map s_id srcs). Proof. apply SU. Qed.
  Lemma src_good src : In src srcs -> src_ok s src. Proof. intros I. destruct SU as (_ & _ & F). rewrite Forall_forall in F. apply F. exact I. Qed.
  Lemma rx_good src r : In src srcs -> In r (s_rx src) -> rx_ok s r.
  Proof. intros I J. destruct SU as (_ & _ & F). rewrite Forall_forall in F. destruct (F src I) as [_ F2]. rewrite Forall_forall in F2. apply F2. exact J. Qed.
  Definition edge (x : fname) : bool := match gloc s x with Ok e => e | _ => true end.
  Definition pt (c : component) (z : cvec) : vec := match c with Real => fst z | _ => snd z end.
  Lemma gloc_ok r : rx_ok s r -> gloc s (r_field r) = Ok (edge (r_field r)) /\ fdim s (r_field r) = if edge (r_field r) then nE else nF.
  Proof.
    intros (_ & _ & _ & X1 & X2). unfold edge, gloc, fdim. destruct (isEB s), (r_field r); try (split; reflexivity); try (exfalso; apply X1; reflexivity); exfalso; apply X2; reflexivity.
  Qed.
  Lemma part_ok r z : rx_ok s r -> part (r_comp r) z = Ok (pt (r_comp r) z). Proof. intros (_ & _ & [->| ->] & _); reflexivity. Qed.
  Lemma nD_ok r : rx_ok s r -> rx_nD r = r_nloc r. Proof. intros (_ & _ & [E|E] & _); unfold rx_nD; rewrite E; reflexivity. Qed.
  Definition P (r : receiver) : mat := getP r (edge (r_field r)).
  Lemma P_mat r : rx_ok s r -> is_mat (rx_nD r) (fdim s (r_field r)) (P r).
  Proof. intros R. rewrite nD_ok, (proj2 (gloc_ok r R)) by exact R. destruct R as (A & B & _). unfold P, getP. destruct (edge _); assumption. Qed.
  Lemma field_ok r : rx_ok s r -> r_field r <> FhSec /\ (isEB s = false -> r_field r <> FbSec). Proof. intros (_ & _ & _ & A & B). split; assumption. Qed.
  Lemma callable_ok r : rx_ok s r -> callable (r_field r) = Ok tt. Proof. intros R. destruct (field_ok r R) as [A _]. unfold callable. destruct (r_field r); try reflexivity. exfalso. apply A. reflexivity. Qed.

  Lemma fieldsP_eq m : fieldsP s srcs m = (m, map (fun src => (s_id src, sol s m src)) (visited srcs)).
  Proof.
    unfold fieldsP, visited. f_equal. rewrite concat_map, map_map. f_equal. apply map_ext_in. intros g I. apply map_ext_in. intros src Is. rewrite (G_in srcs g I) in Is. apply with_freq_in in Is. unfold sol. rewrite (proj2 Is). reflexivity.
  Qed.
  Lemma lookup_ok m src : In src srcs -> lookup s (make_survey srcs) (fieldsP s srcs m) src = Ok (sol s m src).
  Proof.
    intros I. unfold lookup. rewrite listed_ok by exact I. rewrite fieldsP_eq. cbn [snd]. rewrite (dict_map srcs); [reflexivity|exact ND| |apply visited_in; exact I]. intros y Hy. apply visited_in. exact Hy.
  Qed.
  Definition rxv (m : vec) (src : source) (r : receiver) : vec := mv (P r) (pt (r_comp r) (getfield s m m src (r_field r) (sol s m src))).
  Definition loop {A} (f : source -> receiver -> list A) (l : list source) : list A := concat (map (fun src => concat (map (f src) (s_rx src))) l).
  Lemma dpred_eq m : dpred_of s (stP s srcs m) (fieldsP s srcs m) = Ok (loop (rxv m) srcs).
  Proof.
    unfold dpred_of, stP. cbn [st_model st_sv make_survey sv_list]. rewrite (LinSimFacts.mapM_all _ (fun src => concat (map (rxv m src) (s_rx src)))); [reflexivity|].
    intros src I. change (mkSv srcs (map (fun f => (f, with_freq f srcs)) (freqs srcs))) with (make_survey srcs). rewrite lookup_ok by exact I. cbn [bind]. rewrite (LinSimFacts.mapM_all _ (rxv m src)); [reflexivity|].
    intros r J. pose proof (rx_good src r I J) as R. unfold rx_eval. rewrite (proj1 (gloc_ok r R)). cbn [bind]. rewrite fieldsP_eq. cbn [fst]. rewrite part_ok by exact R. reflexivity.
  Qed.
  Lemma loop_len {A} (f : source -> receiver -> list A) l : (forall src r, In src l -> In r (s_rx src) -> length (f src r) = rx_nD r) -> length (loop f l) = data_size l.
  Proof.
    unfold loop, data_size. induction l as [|x l IH]; intros H; [reflexivity|]. cbn [map concat]. rewrite app_length, IH by (intros; apply H; [right|]; assumption). unfold list_sum at 2. cbn [fold_right]. change (fold_right Nat.add 0%nat) with list_sum. f_equal.
    assert (H' : forall r, In r (s_rx x) -> length (f x r) = rx_nD r) by (intros; apply H; [left; reflexivity|assumption]). clear H IH. unfold src_nD. induction (s_rx x) as [|r rs IH]; [reflexivity|].
    cbn [map concat]. rewrite app_length. unfold list_sum. cbn [fold_right]. change (fold_right Nat.add 0%nat) with list_sum. f_equal; [apply H'; left; reflexivity|]. apply IH. intros; apply H'. right. assumption.
  Qed.
  Lemma loop_vderiv (f : R -> source -> receiver -> vec) f' l : (forall src r, In src l -> In r (s_rx src) -> vderiv (rx_nD r) (fun t => f t src r) 0 (f' src r)) ->
    vderiv (data_size l) (fun t => loop (f t) l) 0 (loop f' l).
  Proof.
    unfold loop, data_size. induction l as [|x l IH]; intros H; [cbn; apply (vderiv_const 0 []); reflexivity|].
    cbn [map concat]. unfold list_sum. cbn [fold_right]. change (fold_right Nat.add 0%nat) with list_sum. apply JointFacts.vderiv_app; [|apply IH; intros; apply H; [right|]; assumption].
    assert (H' : forall r, In r (s_rx x) -> vderiv (rx_nD r) (fun t => f t x r) 0 (f' x r)) by (intros; apply H; [left; reflexivity|assumption]). clear H IH. unfold src_nD.
    induction (s_rx x) as [|r rs IH]; [cbn; apply (vderiv_const 0 []); reflexivity|]. cbn [map concat]. unfold list_sum. cbn [fold_right]. change (fold_right Nat.add 0%nat) with list_sum.
    apply JointFacts.vderiv_app; [apply H'; left; reflexivity|]. apply IH. intros; apply H'; right; assumption.
  Qed.
  (** Derivatives *)
  Section At.
    Context (m : vec) (Lm : length m = p) (FW : f_fwd s = false).
    Context (ST : forall fr src, In src srcs -> s_freq src = fr -> stacked s (length (with_freq fr srcs)) = false).
    Definition rhs (v : vec) (src : source) : cvec := cadd (copp (getADeriv s (s_freq src) m (sol s m src) v)) (qval s m v src).
    Definition du (v : vec) (src : source) : cvec := f_solve s (getA s (s_freq src) m) (rhs v src).
    Definition jrx (v : vec) (src : source) (r : receiver) : vec :=
      mv (P r) (pt (r_comp r) (cadd (field_du s m src (r_field r) (du v src)) (field_dm s m m src (r_field r) (sol s m src) v))).
    Lemma Ainv_ok i fr l b : nth_error (G srcs) i = Some (fr, l) -> Ainv s (stP s srcs m) i b = Ok (f_solve s (getA s fr m) b).
    Proof. intros E. unfold Ainv, stP, AP. cbn [st_A]. rewrite nth_error_map, E. cbn. rewrite FW. reflexivity. Qed.
    Lemma Jvec_eq' v : Jvec_of s (stP s srcs m) m v (fieldsP s srcs m) = Ok (loop (jrx v) srcs).
    Proof.
      unfold Jvec_of. cbn [stP st_sv]. change (sv_groups (make_survey srcs)) with (G srcs). rewrite (over_all srcs _ (fun src => concat (map (jrx v src) (s_rx src)))).
      - cbn [bind]. rewrite assemble_all by exact ND. reflexivity.
      - intros i fr l src E El I Ef. rewrite lookup_ok by exact I. cbn [bind]. rewrite El. rewrite qval_ok by (apply (ST fr src); assumption). cbn [bind]. rewrite (Ainv_ok i fr l) by exact E. cbn [bind].
        rewrite (LinSimFacts.mapM_all _ (jrx v src)); [reflexivity|]. intros r J. pose proof (rx_good src r I J) as R. unfold in_slices. rewrite listed_ok by exact I. cbn [bind]. unfold rx_deriv. rewrite (proj1 (gloc_ok r R)). cbn [bind]. rewrite callable_ok by exact R. cbn [bind].
        rewrite fieldsP_eq. cbn [fst]. rewrite part_ok by exact R. f_equal. unfold jrx, du, rhs. rewrite Ef. fold (P r). unfold pt. destruct (r_comp r); reflexivity.
    Qed.
    Lemma len_rhs v src : length v = p -> In src srcs -> clen (dim s) (rhs v src).
    Proof.
      intros Lv I. pose proof SZ as Z. pose proof (src_good src I) as SO. pose proof (len_sol s Z m src SO) as Ls. pose proof (len_s_m s Z m src SO) as LM. pose proof (len_s_e s Z m src SO) as LE. pose proof (len_s_eDeriv s Z m src v SO) as LD.
      unfold rhs, getADeriv, qval, getRHSDeriv. rewrite stacked1. cbn [val]. unfold dim, isEB in *. destruct (f_form s); cln.
    Qed.
    Lemma len_du v src : length v = p -> In src srcs -> clen (dim s) (du v src).
    Proof. intros. apply len_solve; [exact SZ|]. apply len_rhs; assumption. Qed.
    Lemma len_jrx v src r : rx_ok s r -> length (jrx v src r) = rx_nD r.
    Proof. intros R. unfold jrx. rewrite mv_length. apply (P_mat r R). Qed.
    (** Adjoint *)
    Definition zr (r : receiver) (w : vec) : cvec :=
      let n := fdim s (r_field r) in let pw := mtv n (P r) w in match r_comp r with Real => (pw, vzero n) | _ => (vzero n, vopp pw) end.
    Lemma len_zr r w : rx_ok s r -> clen (fdim s (r_field r)) (zr r w).
    Proof. intros R. pose proof (mtv_length _ _ _ w (P_mat r R)). unfold zr. destruct (r_comp r); apply len_pair; rewrite ?vopp_length; auto using vzero_length. Qed.
    Lemma zr_dot r w y : rx_ok s r -> length w = rx_nD r -> clen (fdim s (r_field r)) y -> dot w (mv (P r) (pt (r_comp r) y)) = rdot (zr r w) y.
    Proof.
      intros R Lw [Y1 Y2]. pose proof (P_mat r R) as M. pose proof R as (_ & _ & C & _). unfold zr, rdot, pt. destruct C as [C|C]; rewrite C; cbn [fst snd].
      - rewrite (mv_mtv_adjoint _ _ _ _ _ M) by assumption. rewrite dot_zero_l. ring.
      - rewrite (mv_mtv_adjoint _ _ _ _ _ M) by assumption. rewrite dot_zero_l, dot_vopp_l. ring.
    Qed.
    Definition duT (src : source) (r : receiver) (w : vec) : cvec := field_duT s m src (r_field r) (zr r w).
    Definition dmT (src : source) (r : receiver) (w : vec) : cvec := field_dmT s m m src (r_field r) (sol s m src) (zr r w).
    Lemma derivT_ok src r w : In src srcs -> In r (s_rx src) -> rx_derivT s m m src r (sol s m src) w = Ok (duT src r w, dmT src r w).
    Proof.
      intros I J. pose proof (rx_good src r I J) as R. destruct (gloc_ok r R) as [E1 E2]. unfold rx_derivT. rewrite E1. cbn [bind]. rewrite <- E2. fold (P r). rewrite callable_ok by exact R. unfold duT, dmT, zr.
      pose proof R as (_ & _ & [C|C] & _); rewrite C; reflexivity.
    Qed.
    Lemma rx_adj v src r w : length v = p -> In src srcs -> In r (s_rx src) -> length w = rx_nD r ->
      dot w (jrx v src r) = rdot (duT src r w) (du v src) + rdot (dmT src r w) (creal v).
    Proof.
      intros Lv I J Lw. pose proof SZ as Z. pose proof (rx_good src r I J) as R. destruct (field_ok r R) as [X1 X2]. pose proof (src_good src I) as SO. pose proof (len_zr r w R) as Lz. pose proof (len_du v src Lv I) as Ld. pose proof (len_sol s Z m src SO) as Ls.
      unfold jrx, duT, dmT.
      assert (L1 : clen (fdim s (r_field r)) (field_du s m src (r_field r) (du v src))).
      { clear - Z X1 X2 Ld. unfold field_du, fdim, dim, isEB in *. cbv zeta. destruct (f_form s) eqn:K; destruct (r_field r); try (exfalso; apply X1; reflexivity); try (exfalso; apply X2; reflexivity); cln. }
      assert (L2 : clen (fdim s (r_field r)) (field_dm s m m src (r_field r) (sol s m src) v)).
      { pose proof (len_s_m s Z m src SO) as LM. pose proof (len_s_e s Z m src SO) as LE. pose proof (len_s_eDeriv s Z m src v SO) as LD.
        pose proof (len_field s Z m src SO Fb _ ltac:(discriminate) ltac:(discriminate) Ls) as LFb. pose proof (len_field s Z m src SO Fh _ ltac:(discriminate) ltac:(discriminate) Ls) as LFh. revert LFb LFh. unfold field_dm. generalize (getfield s m m src Fb (sol s m src)) as fb. generalize (getfield s m m src Fh (sol s m src)) as fh. intros fh fb LFb LFh.
        unfold fdim, dim, isEB in *. cbv zeta. destruct (f_form s) eqn:K; destruct (r_field r); try (exfalso; apply X1; reflexivity); try (exfalso; apply X2; reflexivity); cln. }
      rewrite zr_dot by cln. rewrite (rdot_add_r (fdim s (r_field r))) by assumption. rewrite (field_du_adj s Z m src) by assumption. rewrite (field_dm_adj s Z m v Lm Lv src SO) by assumption. reflexivity.
    Qed.
    (** From the solution to the model *)
    Definition back (src : source) (a : cvec) : cvec := let x := f_solve s (getA s (s_freq src) m) a in cadd (copp (getADerivT s (s_freq src) m (sol s m src) x)) (qvalT s m src x).
    Lemma len_back src a : In src srcs -> clen (dim s) a -> clen p (back src a).
    Proof. intros I La. pose proof SZ as Z. pose proof (src_good src I) as SO. unfold back. cbv zeta. pose proof (len_solve s Z (getA s (s_freq src) m) a La). apply len_add; [apply len_opp; apply len_ADerivT; try assumption; apply len_sol; assumption|apply len_qvalT; assumption]. Qed.
    Lemma back_adj v src a : length v = p -> In src srcs -> csolves (dim s) (f_solve s) (getA s (s_freq src) m) -> clen (dim s) a -> rdot a (du v src) = rdot (back src a) (creal v).
    Proof.
      intros Lv I CS La. pose proof SZ as Z. pose proof (src_good src I) as SO. pose proof (len_sol s Z m src SO) as Ls. pose proof (len_rhs v src Lv I) as Lr. unfold du. rewrite (solve_symm s Z m (s_freq src)) by assumption.
      unfold back. cbv zeta. set (x := f_solve s (getA s (s_freq src) m) a). assert (Lx : clen (dim s) x) by (apply len_solve; assumption). unfold rhs in *.
      assert (L1 : clen (dim s) (qval s m v src)).
      { pose proof (len_s_m s Z m src SO) as LM. pose proof (len_s_e s Z m src SO) as LE. pose proof (len_s_eDeriv s Z m src v SO) as LD. unfold qval, getRHSDeriv. rewrite stacked1. cbn [val]. unfold dim, isEB in *. destruct (f_form s); cln. }
      assert (L2 : clen (dim s) (getADeriv s (s_freq src) m (sol s m src) v)). { unfold getADeriv, dim in *. destruct (f_form s); cln. }
      rewrite (rdot_add_r (dim s)) by cln. rewrite rdot_opp_r. rewrite (ADeriv_adj s Z m v Lm Lv src) by assumption. rewrite (q_adj s Z m v Lm Lv src SO) by assumption.
      rewrite (rdot_add_l p); [|apply len_opp; apply len_ADerivT; assumption|apply len_qvalT; assumption|apply len_real; exact Lv]. rewrite rdot_opp_l. reflexivity.
    Qed.
    Lemma len_duT src r w : rx_ok s r -> clen (dim s) (duT src r w). Proof. intros R. destruct (field_ok r R). apply len_field_duT; auto using SZ, len_zr. Qed.
    Lemma len_dmT src r w : In src srcs -> rx_ok s r -> clen p (dmT src r w). Proof. intros I R. destruct (field_ok r R). pose proof SZ. pose proof (src_good src I). apply len_field_dmT; auto using len_zr, len_sol. Qed.
    (** getJ *)
    Definition row (src : source) (r : receiver) (c : nat) : vec := fst (cadd (back src (duT src r (unit_at (rx_nD r) c))) (dmT src r (unit_at (rx_nD r) c))).
    Definition rows (src : source) (r : receiver) : mat := map (row src r) (seq 0 (rx_nD r)).
    Lemma J_eq' : J_of s (stP s srcs m) m (fieldsP s srcs m) = Ok (loop rows srcs).
    Proof.
      unfold J_of. cbn [stP st_A st_sv]. change (sv_groups (make_survey srcs)) with (G srcs). replace (firstn (length (AP s srcs m)) (G srcs)) with (G srcs) by (unfold AP; rewrite map_length, firstn_all; reflexivity).
      rewrite (over_all srcs _ (fun src => concat (map (rows src) (s_rx src)))).
      - cbn [bind]. rewrite assemble_all by exact ND. reflexivity.
      - intros i fr l src E El I Ef. unfold j_rows. cbn [stP st_sv]. rewrite lookup_ok by exact I. cbn [bind]. rewrite (LinSimFacts.mapM_all _ (rows src)); [reflexivity|]. intros r J. rewrite (LinSimFacts.mapM_all _ (row src r)); [reflexivity|]. intros c Hc.
        rewrite fieldsP_eq. cbn [fst]. rewrite derivT_ok by assumption. cbn [bind fst snd]. change {| st_sv := make_survey srcs; st_model := Some m; st_A := Some (AP s srcs m); st_J := None; st_gtg := None |} with (stP s srcs m).
        rewrite (Ainv_ok i fr l) by exact E. cbn [bind]. rewrite El. rewrite qvalT_ok by (apply (ST fr src); assumption). cbn [bind]. unfold row, back. rewrite Ef. reflexivity.
    Qed.
    Lemma unit_len n c : length (unit_at n c) = n. Proof. unfold unit_at. rewrite map_length, seq_length. reflexivity. Qed.
    Lemma unit_nth n c i : (i < n)%nat -> nth i (unit_at n c) 0 = if Nat.eqb i c then 1 else 0.
    Proof. intros H. unfold unit_at. rewrite (nth_indep _ 0 (if Nat.eqb 0 c then 1 else 0)) by (rewrite map_length, seq_length; exact H). rewrite (map_nth (fun j => if Nat.eqb j c then 1 else 0)). rewrite seq_nth by exact H. reflexivity. Qed.
    Lemma dot_unit x : forall n c, length x = n -> (c < n)%nat -> dot (unit_at n c) x = nth c x 0.
    Proof.
      assert (K : forall x k c, dot (map (fun j => if Nat.eqb j c then 1 else 0) (seq k (length x))) x = if (k <=? c)%nat then nth (c - k) x 0 else 0).
      { clear. induction x as [|y x IH]; intros k c; cbn [length seq map dot]; [destruct (k <=? c)%nat; [destruct (c - k)%nat|]; reflexivity|]. rewrite IH. destruct (Nat.eqb_spec k c) as [->|N].
        - rewrite Nat.leb_refl, Nat.sub_diag. replace (S c <=? c)%nat with false by (symmetry; apply Nat.leb_gt; lia). cbn [nth]. ring.
        - destruct (Nat.leb_spec (S k) c), (Nat.leb_spec k c); try lia; [|ring]. replace (c - k)%nat with (S (c - S k)) by lia. cbn [nth]. ring. }
      intros n c L H. unfold unit_at. rewrite <- L. rewrite K. cbn. rewrite Nat.sub_0_r. reflexivity.
    Qed.
    Lemma row_ok v src r c : length v = p -> In src srcs -> In r (s_rx src) -> csolves (dim s) (f_solve s) (getA s (s_freq src) m) -> (c < rx_nD r)%nat -> length (row src r c) = p /\ dot (row src r c) v = nth c (jrx v src r) 0.
    Proof.
      intros Lv I J CS Hc. pose proof (rx_good src r I J) as R. pose proof (len_duT src r (unit_at (rx_nD r) c) R) as L1. pose proof (len_dmT src r (unit_at (rx_nD r) c) I R) as L2. pose proof (len_back src _ I L1) as L3.
      assert (L : clen p (cadd (back src (duT src r (unit_at (rx_nD r) c))) (dmT src r (unit_at (rx_nD r) c)))) by cln. split; [apply L|].
      unfold row. rewrite <- rdot_real by (rewrite Lv; exact L). rewrite (rdot_add_l p) by (try assumption; apply len_real; exact Lv). rewrite <- back_adj by assumption. rewrite <- rx_adj by (try assumption; apply unit_len).
      apply dot_unit; [apply len_jrx; exact R|exact Hc].
    Qed.
    Lemma mv_rows v src r : length v = p -> In src srcs -> In r (s_rx src) -> csolves (dim s) (f_solve s) (getA s (s_freq src) m) -> mv (rows src r) v = jrx v src r.
    Proof.
      intros Lv I J CS. pose proof (rx_good src r I J) as R. assert (LR : length (rows src r) = rx_nD r) by (unfold rows; rewrite map_length, seq_length; reflexivity).
      apply vec_ext; [rewrite mv_length, len_jrx by exact R; exact LR|]. intros c Hc. rewrite mv_length, LR in Hc. unfold mv, rows. rewrite map_map.
      rewrite (nth_indep _ 0 (dot (row src r 0) v)) by (rewrite map_length, seq_length; exact Hc). rewrite (map_nth (fun c => dot (row src r c) v)). rewrite seq_nth by exact Hc. apply row_ok; assumption.
    Qed.
    Lemma mv_loop v : length v = p -> (forall src, In src srcs -> csolves (dim s) (f_solve s) (getA s (s_freq src) m)) -> mv (loop rows srcs) v = loop (jrx v) srcs.
    Proof.
      intros Lv CS. unfold loop. rewrite mv_concat, map_map. f_equal. apply map_ext_in. intros src I. rewrite mv_concat, map_map. f_equal. apply map_ext_in. intros r J. apply mv_rows; auto.
    Qed.
    Lemma J_mat : (forall src, In src srcs -> csolves (dim s) (f_solve s) (getA s (s_freq src) m)) -> is_mat (data_size srcs) p (loop rows srcs).
    Proof.
      intros CS. split; [apply loop_len; intros; unfold rows; rewrite map_length, seq_length; reflexivity|]. apply Forall_forall. intros x Hx. unfold loop in Hx. apply in_concat in Hx. destruct Hx as (l & H1 & H2). apply in_map_iff in H1. destruct H1 as (src & <- & I).
      apply in_concat in H2. destruct H2 as (l & H2 & H3). apply in_map_iff in H2. destruct H2 as (r & <- & J). unfold rows in H3. apply in_map_iff in H3. destruct H3 as (c & <- & Hc). apply in_seq in Hc.
      apply (row_ok (vzero p) src r c); auto; [apply vzero_length|lia].
    Qed.
    (** Jtvec *)
    Lemma src_parts_ok l w : NoDup (map s_id l) -> length w = data_size l -> exists f : source -> vec, src_parts l w = map (fun src => (s_id src, f src)) l /\ (forall src, In src l -> length (f src) = src_nD src) /\
      forall g : source -> vec, (forall src, In src l -> length (g src) = src_nD src) -> dot w (concat (map g l)) = vsum (map (fun src => dot (f src) (g src)) l).
    Proof.
      revert w. induction l as [|x l IH]; intros w N L; cbn in L.
      - exists (fun _ => []). split; [reflexivity|]. split; [intros ? []|]. intros g _. destruct w; [reflexivity|discriminate].
      - inversion N; subst. change (fold_right Nat.add 0%nat (map src_nD l)) with (data_size l) in L. destruct (IH (skipn (src_nD x) w) H2 ltac:(rewrite skipn_length; lia)) as (f & E & Lf & D).
        exists (fun y => if Nat.eqb (s_id y) (s_id x) then firstn (src_nD x) w else f y).
        assert (NE : forall y, In y l -> Nat.eqb (s_id y) (s_id x) = false). { intros y Iy. apply Nat.eqb_neq. intros E'. apply H1. rewrite <- E'. apply in_map. exact Iy. }
        split; [|split].
        + cbn [src_parts map]. rewrite Nat.eqb_refl, E. f_equal. apply map_ext_in. intros y Iy. rewrite NE by exact Iy. reflexivity.
        + intros y [<-|Iy]; [rewrite Nat.eqb_refl, firstn_length; lia|]. rewrite NE by exact Iy. apply Lf. exact Iy.
        + intros g Lg. cbn [map concat vsum]. rewrite Nat.eqb_refl. rewrite <- (firstn_skipn (src_nD x) w) at 1. rewrite dot_app' by (rewrite firstn_length, Lg by (left; reflexivity); lia). rewrite D by (intros; apply Lg; right; assumption).
          f_equal. f_equal. apply map_ext_in. intros y Iy. rewrite NE by exact Iy. reflexivity.
    Qed.
    Lemma rx_parts_ok rs w : length w = list_sum (map rx_nD rs) -> (forall rw, In rw (rx_parts rs w) -> In (fst rw) rs /\ length (snd rw) = rx_nD (fst rw)) /\
      forall g : receiver -> vec, (forall r, In r rs -> length (g r) = rx_nD r) -> dot w (concat (map g rs)) = vsum (map (fun rw => dot (snd rw) (g (fst rw))) (rx_parts rs w)).
    Proof.
      revert w. induction rs as [|r rs IH]; intros w L; cbn in L.
      - split; [intros ? []|]. intros g _. destruct w; [reflexivity|discriminate].
      - change (fold_right Nat.add 0%nat (map rx_nD rs)) with (list_sum (map rx_nD rs)) in L. destruct (IH (skipn (rx_nD r) w) ltac:(rewrite skipn_length; lia)) as (E & D). split.
        + cbn [rx_parts]. intros rw [<-|H]; [cbn; split; [left; reflexivity|rewrite firstn_length; lia]|]. destruct (E rw H). split; [right|]; assumption.
        + intros g Lg. cbn [map concat vsum rx_parts fst snd]. rewrite <- (firstn_skipn (rx_nD r) w) at 1. rewrite dot_app' by (rewrite firstn_length, Lg by (left; reflexivity); lia). rewrite D by (intros; apply Lg; right; assumption). reflexivity.
    Qed.
    Lemma rdot_sum k l y : forall acc, clen k acc -> Forall (clen k) l -> clen k y -> clen k (fold_left cadd l acc) /\ rdot (fold_left cadd l acc) y = rdot acc y + vsum (map (fun a => rdot a y) l).
    Proof.
      induction l as [|x l IH]; intros acc La F Ly; cbn [fold_left map vsum]; [split; [exact La|ring]|]. pose proof (Forall_inv F) as Hx. apply Forall_inv_tail in F. cbv beta in Hx.
      destruct (IH (cadd acc x) ltac:(cln) F Ly) as [L1 E]. split; [exact L1|]. rewrite E, (rdot_add_l k) by assumption. ring.
    Qed.
    Definition jts (src : source) (w : vec) : vec :=
      let l := rx_parts (s_rx src) w in
      fst (cadd (fold_left cadd (map (fun rw => dmT src (fst rw) (snd rw)) l) (czero p)) (back src (fold_left cadd (map (fun rw => duT src (fst rw) (snd rw)) l) (czero (dim s))))).
    Lemma jt_src_ok i fr l src w : nth_error (G srcs) i = Some (fr, l) -> l = with_freq fr srcs -> In src srcs -> s_freq src = fr -> length w = src_nD src ->
      jt_src s (stP s srcs m) m (fieldsP s srcs m) i (length l) fr src w = Ok (jts src w).
    Proof.
      intros E El I Ef Lw. destruct (rx_parts_ok (s_rx src) w Lw) as [HP _]. unfold jt_src. cbn [stP st_sv]. rewrite lookup_ok by exact I. cbn [bind].
      rewrite (LinSimFacts.mapM_all _ (fun rw => (duT src (fst rw) (snd rw), dmT src (fst rw) (snd rw)))); [|intros rw Hrw; rewrite fieldsP_eq; cbn [fst]; apply derivT_ok; [exact I|apply HP; exact Hrw]].
      cbn [bind]. rewrite !map_map. cbn [fst snd]. change {| st_sv := make_survey srcs; st_model := Some m; st_A := Some (AP s srcs m); st_J := None; st_gtg := None |} with (stP s srcs m).
      rewrite (Ainv_ok i fr l) by exact E. cbn [bind]. rewrite El. rewrite qvalT_ok by (apply (ST fr src); assumption). cbn [bind]. unfold jts, back. rewrite Ef. reflexivity.
    Qed.
    Lemma jts_adj v src w : length v = p -> In src srcs -> csolves (dim s) (f_solve s) (getA s (s_freq src) m) -> length w = src_nD src ->
      length (jts src w) = p /\ dot w (concat (map (jrx v src) (s_rx src))) = dot (jts src w) v.
    Proof.
      intros Lv I CS Lw. destruct (rx_parts_ok (s_rx src) w Lw) as [HP HD]. pose proof (len_du v src Lv I) as Ld.
      assert (F1 : Forall (clen (dim s)) (map (fun rw => duT src (fst rw) (snd rw)) (rx_parts (s_rx src) w))).
      { apply Forall_forall. intros a Ha. apply in_map_iff in Ha. destruct Ha as (rw & <- & Hrw). apply len_duT. apply (rx_good src); [exact I|apply HP; exact Hrw]. }
      assert (F2 : Forall (clen p) (map (fun rw => dmT src (fst rw) (snd rw)) (rx_parts (s_rx src) w))).
      { apply Forall_forall. intros a Ha. apply in_map_iff in Ha. destruct Ha as (rw & <- & Hrw). apply len_dmT; [exact I|]. apply (rx_good src); [exact I|apply HP; exact Hrw]. }
      destruct (rdot_sum (dim s) _ (du v src) (czero (dim s)) (len_zero _) F1 Ld) as [L1 E1]. destruct (rdot_sum p _ (creal v) (czero p) (len_zero _) F2 (len_real _ _ Lv)) as [L2 E2].
      pose proof (len_back src _ I L1) as L3. assert (L4 : clen p (cadd (fold_left cadd (map (fun rw => dmT src (fst rw) (snd rw)) (rx_parts (s_rx src) w)) (czero p)) (back src (fold_left cadd (map (fun rw => duT src (fst rw) (snd rw)) (rx_parts (s_rx src) w)) (czero (dim s)))))) by cln.
      unfold jts. split; [apply L4|]. rewrite <- (rdot_real _ v) by (rewrite Lv; exact L4). rewrite (rdot_add_l p) by (try assumption; apply len_real; exact Lv). rewrite <- back_adj by assumption. rewrite E1, E2, !rdot_zero_l, !map_map.
      rewrite HD by (intros r J; apply len_jrx; apply (rx_good src); assumption).
      rewrite (map_ext_in _ (fun rw => rdot (duT src (fst rw) (snd rw)) (du v src) + rdot (dmT src (fst rw) (snd rw)) (creal v))).
      2:{ intros rw Hrw. destruct (HP rw Hrw). apply rx_adj; assumption. }
      clear. induction (rx_parts (s_rx src) w) as [|a l IH]; cbn [map vsum]; [ring|]. rewrite IH. ring.
    Qed.
    Lemma vsum_perm l l' : Permutation l l' -> vsum l = vsum l'. Proof. induction 1; cbn [vsum]; lra. Qed.
    Lemma Jtvec_eq' v w : length v = p -> length w = data_size srcs -> (forall src, In src srcs -> csolves (dim s) (f_solve s) (getA s (s_freq src) m)) ->
      exists a, Jtvec_of s (stP s srcs m) m w (fieldsP s srcs m) = Ok a /\ length a = p /\ dot w (loop (jrx v) srcs) = dot a v.
    Proof.
      intros Lv Lw CS. destruct (src_parts_ok srcs w ND Lw) as (f & E & Lf & D). unfold Jtvec_of. cbn [stP st_sv]. change (sv_groups (make_survey srcs)) with (G srcs). change (sv_list (make_survey srcs)) with srcs.
      rewrite (over_all srcs _ (fun src => jts src (f src))).
      2:{ intros i fr l src En El I Ef. rewrite E. rewrite (dict_map srcs); auto using incl_refl, ND. apply jt_src_ok; auto. }
      cbn [bind]. eexists. split; [reflexivity|]. rewrite map_map. cbn [snd]. rewrite Lm.
      assert (F : Forall (fun r => length r = p) (map (fun x => jts x (f x)) (visited srcs))).
      { apply Forall_forall. intros a Ha. apply in_map_iff in Ha. destruct Ha as (src & <- & I). apply (proj1 (visited_in srcs src)) in I. destruct (jts_adj v src (f src) Lv I (CS src I) (Lf src I)) as [K _]. exact K. }
      destruct (DcFacts4.sum_rows p _ (vzero p) (vzero_length p) F) as [LS NS]. split; [exact LS|].
      unfold loop. rewrite D.
      2:{ intros src I. rewrite <- (Nat.add_0_r (src_nD src)). pose proof (loop_len (jrx v) [src]) as K. unfold loop, data_size in K. cbn in K. rewrite app_nil_r in K. apply K. intros s0 r [<-|[]] J. apply len_jrx. apply (rx_good src); assumption. }
      rewrite (map_ext_in _ (fun src => dot (jts src (f src)) v)) by (intros src I; destruct (jts_adj v src (f src) Lv I (CS src I) (Lf src I)) as [_ K]; exact K).
      rewrite <- (vsum_perm _ _ (Permutation_map (fun src => dot (jts src (f src)) v) (visited_perm srcs ND))).
      assert (SUM : forall l acc, length acc = p -> Forall (fun r => length r = p) l -> dot (fold_left vadd l acc) v = dot acc v + vsum (map (fun r => dot r v) l)).
      { clear. induction l as [|x l IH]; intros acc La Fl; cbn [fold_left map vsum]; [ring|]. pose proof (Forall_inv Fl) as Hx. apply Forall_inv_tail in Fl. rewrite IH; [|ln|exact Fl]. rewrite dot_vadd_l by congruence. ring. }
      rewrite SUM; [|apply vzero_length|exact F]. rewrite dot_zero_l, map_map. ring.
    Qed.
  End At.
End Values.
