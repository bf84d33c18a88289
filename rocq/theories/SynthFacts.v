(** Facts about data objects and the arrays they hold. *)
From Verif Require Import Py Vec Survey DataM Synth SpecSynth.
From Coq Require Import Lia.
Local Open Scope R_scope.
Local Open Scope list_scope.

Lemma nth_error_in_app : forall (A : Type) (l r : list A) i, (i < length l)%nat -> nth_error (l ++ r) i = nth_error l i.
Proof. intros. apply nth_error_app1. assumption. Qed.

Lemma shown_ext : forall h e i, (i < length h)%nat -> shown (h ++ e) i = shown h i.
Proof. intros h e i H. unfold shown. rewrite nth_error_in_app by exact H. reflexivity. Qed.
Lemma kind_ext : forall h e i, (i < length h)%nat -> kind (h ++ e) i = kind h i.
Proof. intros h e i H. unfold kind. rewrite nth_error_in_app by exact H. reflexivity. Qed.
Lemma shown_real_ext : forall h e i, (forall j, i = Some j -> (j < length h)%nat) -> shown_real (h ++ e) i = shown_real h i.
Proof. intros h e [j|] H; cbn; [|reflexivity]. rewrite shown_ext by (apply H; reflexivity). reflexivity. Qed.
Lemma shown_last : forall h a, shown (h ++ [a]) (length h) = a_vals a.
Proof. intros. unfold shown. rewrite nth_error_app2, Nat.sub_diag by lia. reflexivity. Qed.
Lemma kind_last : forall h a, kind (h ++ [a]) (length h) = a_cplx a.
Proof. intros. unfold kind. rewrite nth_error_app2, Nat.sub_diag by lia. reflexivity. Qed.
Lemma get_arr_ok : forall h i a, get_arr h i = Ok a -> (i < length h)%nat /\ shown h i = a_vals a /\ kind h i = a_cplx a.
Proof.
  intros h i a H. unfold get_arr in H. destruct (nth_error h i) eqn:E; [|discriminate]. injection H as ->.
  split; [apply nth_error_Some; congruence|]. unfold shown, kind. rewrite E. split; reflexivity.
Qed.
Lemma get_arr_ext : forall h e i a, get_arr h i = Ok a -> get_arr (h ++ e) i = Ok a.
Proof.
  intros h e i a H. destruct (get_arr_ok _ _ _ H) as [Hi _]. unfold get_arr in *. rewrite nth_error_in_app by exact Hi. exact H.
Qed.
Lemma get_arr_last : forall h a, get_arr (h ++ [a]) (length h) = Ok a.
Proof. intros. unfold get_arr. rewrite nth_error_app2, Nat.sub_diag by lia. reflexivity. Qed.
Lemma real_vals : forall v, map fst (a_vals (real_arr v)) = v.
Proof. intros. unfold real_arr. cbn. rewrite map_map. cbn. apply map_id. Qed.
Lemma existsb_fst : forall v : list cplx, existsb (fun z => Rltb (fst z) 0) v = existsb (fun x => Rltb x 0) (map fst v).
Proof. induction v; [reflexivity|]. cbn. rewrite IHv. reflexivity. Qed.

(** Extension of the heap. *)
Definition extends (h h' : heap) : Prop := exists e, h' = h ++ e.
Lemma extends_refl : forall h, extends h h.
Proof. intro. exists []. symmetry. apply app_nil_r. Qed.
Lemma extends_trans : forall a b c, extends a b -> extends b c -> extends a c.
Proof. intros a b c [e ->] [f ->]. exists (e ++ f). symmetry. apply app_assoc. Qed.
Lemma extends_len : forall a b, extends a b -> (length a <= length b)%nat.
Proof. intros a b [e ->]. rewrite app_length. lia. Qed.

(** An array kept for an uncertainty is the one given or a new one. *)
Definition origin (h h' : heap) (u : uref) (i : option nat) : Prop :=
  forall j, i = Some j -> (In j (refs u) /\ (j < length h)%nat) \/ (length h <= j < length h')%nat.

Lemma keep_uncert_value : forall nD h u,
  match (do v <- value_of h u; check_uncert nD v) with
  | Ok w => exists h' i, keep_uncert nD h u = Ok (h', i) /\ extends h h' /\ shown_real h' i = w /\ origin h h' u i
  | Err _ => exists e, keep_uncert nD h u = Err e
  end.
Proof.
  intros nD h u.
  assert (Fresh : forall x, match (if existsb (fun y => Rltb y 0) (repeat x nD) then Err ValueError else Ok (Some (repeat x nD))) with
    | Ok w => exists h' i, (if existsb (fun y => Rltb y 0) (repeat x nD) then Err ValueError else let '(h1, k) := alloc h (real_arr (repeat x nD)) in Ok (h1, Some k)) = Ok (h', i)
        /\ extends h h' /\ shown_real h' i = w /\ origin h h' u i
    | Err _ => exists e, (if existsb (fun y => Rltb y 0) (repeat x nD) then Err ValueError else let '(h1, k) := alloc h (real_arr (repeat x nD)) in Ok (h1, Some k)) = Err e
    end).
  { intro x. destruct (existsb _ (repeat x nD)); [eexists; reflexivity|]. unfold alloc.
    eexists _, _. split; [reflexivity|]. split; [eexists; reflexivity|]. split.
    - cbn [shown_real option_map]. rewrite shown_last, real_vals. reflexivity.
    - intros j Hj. injection Hj as <-. right. rewrite app_length. cbn. lia. }
  destruct u as [|x|i].
  - cbn. eexists _, _. split; [reflexivity|]. split; [apply extends_refl|]. split; [reflexivity|]. intros j Hj. discriminate.
  - exact (Fresh x).
  - cbn [value_of keep_uncert]. destruct (get_arr h i) as [a|e] eqn:E; cbn [bind]; [|eexists; reflexivity].
    destruct (a_cplx a) eqn:C; cbn [bind]; [eexists; reflexivity|].
    destruct (get_arr_ok _ _ _ E) as (Hi & Hs & _).
    assert (Kept : forall v, v = a_vals a -> match (if Nat.eqb (length (map fst v)) nD then if existsb (fun x => Rltb x 0) (map fst v) then Err ValueError else Ok (Some (map fst v)) else Err ValueError) with
      | Ok w => exists h' j, (if negb (Nat.eqb (length v) nD) then Err ValueError else if existsb (fun z => Rltb (fst z) 0) v then Err ValueError else Ok (h, Some i)) = Ok (h', j)
          /\ extends h h' /\ shown_real h' j = w /\ origin h h' (RArr i) j
      | Err _ => exists e, (if negb (Nat.eqb (length v) nD) then Err ValueError else if existsb (fun z => Rltb (fst z) 0) v then Err ValueError else Ok (h, Some i)) = Err e
      end).
    { intros v Hv. rewrite map_length, existsb_fst. change (@length (R * R)%type v) with (@length cplx v). destruct (Nat.eqb (length v) nD); cbn [negb]; [|exists ValueError; reflexivity].
      destruct (existsb _ (map fst v)); [eexists; reflexivity|]. eexists _, _. split; [reflexivity|]. split; [apply extends_refl|].
      split; [cbn; rewrite Hs, <- Hv; reflexivity|]. intros j Hj. injection Hj as <-. left. split; [left; reflexivity|exact Hi]. }
    destruct (a_vals a) as [|z [|z' r]] eqn:V.
    + exact (Kept [] eq_refl).
    + cbn [map check_uncert]. exact (Fresh (fst z)).
    + exact (Kept (z :: z' :: r) eq_refl).
Qed.

(** Arguments keep their value when the heap grows. *)
Lemma value_of_ext : forall h e u, (forall j, In j (refs u) -> (j < length h)%nat) -> value_of (h ++ e) u = value_of h u.
Proof.
  intros h e u H. destruct u as [|x|i]; [reflexivity|reflexivity|]. cbn. unfold get_arr. rewrite nth_error_in_app by (apply H; left; reflexivity). reflexivity.
Qed.

(** Setting the standard deviation. *)
Lemma keep_std_value : forall nD h o u, (o_dobs o < length h)%nat -> (forall j, In j (refs u) -> (j < length h)%nat) ->
  match (do v <- value_of h u; match set_std (v_data (view nD h o)) v with (x, None) => Ok x | (_, Some e) => Err e end) with
  | Ok x => exists h' o', keep_std nD h o u = Ok (h', o') /\ extends h h' /\ o_dobs o' = o_dobs o /\ o_clean o' = o_clean o
      /\ mkData nD (shown h (o_dobs o)) (shown_real h' (o_rel o')) (shown_real h' (o_floor o')) = x
      /\ (forall j, o_rel o' = Some j -> (length h <= j < length h')%nat) /\ origin h h' u (o_floor o')
      /\ (forall j, o_rel o' = Some j -> o_floor o' <> Some j)
  | Err _ => exists e, keep_std nD h o u = Err e
  end.
Proof.
  intros nD h o u Hd Hu. unfold keep_std.
  assert (exists a, get_arr h (o_dobs o) = Ok a) as [a Ea].
  { unfold get_arr. destruct (nth_error h (o_dobs o)) eqn:E; [eexists; reflexivity|]. apply nth_error_None in E. lia. }
  destruct (get_arr_ok _ _ _ Ea) as (_ & Hs & _). rewrite Ea. cbn [bind]. unfold alloc.
  set (z := real_arr (repeat 0 (length (a_vals a)))). set (h0 := h ++ [z]).
  assert (X0 : extends h h0) by (exists [z]; reflexivity).
  assert (Lh0 : length h0 = Datatypes.S (length h)) by (unfold h0; rewrite app_length; cbn; lia).
  pose proof (keep_uncert_value nD h0 (RArr (length h))) as K1.
  assert (V0 : value_of h0 (RArr (length h)) = Ok (UVec (vzero (length (shown h (o_dobs o)))))).
  { unfold value_of, h0. rewrite get_arr_last. cbn [bind]. unfold z at 1. cbn [a_cplx real_arr]. unfold z. rewrite real_vals, Hs. reflexivity. }
  rewrite V0 in K1. cbn [bind] in K1.
  unfold set_std, set_rel. cbn [view v_data d_nD d_dobs].
  destruct (check_uncert nD (UVec (vzero (length (shown h (o_dobs o)))))) as [w|e] eqn:C1.
  2:{ destruct K1 as [e' K1]. rewrite K1. cbn [bind]. destruct (value_of h u); cbn [bind]; eexists; reflexivity. }
  destruct K1 as (h1 & i1 & K1 & X1 & S1 & O1). rewrite K1. cbn [bind fst snd].
  pose proof (keep_uncert_value nD h1 u) as K2.
  destruct (extends_trans _ _ _ X0 X1) as [e1 E1].
  assert (V1 : value_of h1 u = value_of h u) by (rewrite E1; apply value_of_ext; exact Hu).
  rewrite V1 in K2. destruct (value_of h u) as [v|e2] eqn:Ev; cbn [bind] in *.
  2:{ destruct K2 as [e3 K2]. rewrite K2. eexists; reflexivity. }
  unfold set_floor. cbn [d_nD d_dobs d_rel]. destruct (check_uncert nD v) as [w2|e2] eqn:C2; cbn [bind].
  2:{ destruct K2 as [e3 K2]. rewrite K2. eexists; reflexivity. }
  destruct K2 as (h2 & i2 & K2 & X2 & S2 & O2). rewrite K2. cbn [bind fst snd].
  pose proof (extends_len _ _ X1) as L1. pose proof (extends_len _ _ X2) as L2.
  assert (R1 : forall j, i1 = Some j -> (length h <= j < length h1)%nat).
  { intros j Hj. destruct (O1 j Hj) as [[[<-|[]] _]|H]; lia. }
  eexists _, _. split; [reflexivity|]. split; [exact (extends_trans _ _ _ (extends_trans _ _ _ X0 X1) X2)|].
  cbn [o_dobs o_clean o_rel o_floor]. split; [reflexivity|]. split; [reflexivity|]. split; [|split; [|split]].
  - f_equal; [|exact S2]. destruct X2 as [e2 ->]. rewrite shown_real_ext; [exact S1|]. intros j Hj. specialize (R1 j Hj). lia.
  - intros j Hj. specialize (R1 j Hj). lia.
  - intros j Hj. destruct (O2 j Hj) as [[H _]|H]; [left; split; [exact H|apply Hu; exact H]|right; lia].
  - intros j Hj Hk. specialize (R1 j Hj). destruct (O2 j Hk) as [[H _]|H]; [apply Hu in H; lia|lia].
Qed.

(** Making an object. *)
Lemma new_data_value : forall nD h d clean r f sd, (d < length h)%nat -> (forall c, clean = Some c -> (c < length h)%nat) ->
  (forall j, In j (refs r ++ refs f ++ refs sd) -> (j < length h)%nat) -> NoDup (d :: opt clean ++ refs r ++ refs f ++ refs sd) ->
  match (do r' <- value_of h r; do f' <- value_of h f; do s' <- value_of h sd; do x <- data_init nD (shown h d) r' f' s';
         match clean with Some c => if Nat.eqb (length (shown h c)) nD then Ok x else Err ValueError | None => Ok x end) with
  | Ok x => exists h' o, new_data nD h d clean r f sd = Ok (h', o) /\ extends h h' /\ view nD h' o = mkValue x (kind h d) (option_map (shown h) clean)
      /\ NoDup (held o) /\ (forall j, In j (held o) -> (j < length h')%nat /\ (In j (d :: opt clean ++ refs r ++ refs f ++ refs sd) \/ (length h <= j)%nat))
  | Err _ => exists e, new_data nD h d clean r f sd = Err e
  end.
Proof.
  intros nD h d clean r f sd Hd Hc Hr ND.
  assert (Rr : forall j, In j (refs r) -> (j < length h)%nat) by (intros; apply Hr, in_or_app; left; assumption).
  assert (Rf : forall j, In j (refs f) -> (j < length h)%nat) by (intros; apply Hr, in_or_app; right; apply in_or_app; left; assumption).
  assert (Rs : forall j, In j (refs sd) -> (j < length h)%nat) by (intros; apply Hr, in_or_app; right; apply in_or_app; right; assumption).
  assert (exists a, get_arr h d = Ok a) as [a Ea].
  { unfold get_arr. destruct (nth_error h d) eqn:E; [eexists; reflexivity|]. apply nth_error_None in E. lia. }
  destruct (get_arr_ok _ _ _ Ea) as (_ & Hs & Hk).
  unfold new_data, keep_data. rewrite Ea. cbn [bind]. rewrite <- Hs.
  pose proof (keep_uncert_value nD h r) as K1.
  destruct (value_of h r) as [r'|er] eqn:Vr; cbn [bind] in *.
  2:{ destruct K1 as [e K1]. destruct (Nat.eqb _ nD); cbn [bind]; [rewrite K1|]; eexists; reflexivity. }
  destruct (value_of h f) as [f'|ef] eqn:Vf; cbn [bind].
  2:{ destruct (Nat.eqb _ nD); cbn [bind]; [|eexists; reflexivity]. destruct (check_uncert nD r').
      - destruct K1 as (h1 & i1 & K1 & [e ->] & _). rewrite K1. cbn [bind fst]. pose proof (keep_uncert_value nD (h ++ e) f) as K2.
        rewrite (value_of_ext _ _ _ Rf), Vf in K2. cbn [bind] in K2. destruct K2 as [e2 K2]. rewrite K2. eexists; reflexivity.
      - destruct K1 as [e' K1]. rewrite K1. eexists; reflexivity. }
  unfold data_init, fromvec.
  destruct (Nat.eqb (length (shown h d)) nD) eqn:LD; cbn [bind].
  2:{ destruct (value_of h sd); cbn [bind]; eexists; reflexivity. }
  destruct (check_uncert nD r') as [w1|e1] eqn:C1; cbn [bind].
  2:{ destruct K1 as [e K1]. rewrite K1. destruct (value_of h sd); cbn [bind]; eexists; reflexivity. }
  destruct K1 as (h1 & i1 & K1 & X1 & S1 & O1). rewrite K1. cbn [bind fst snd].
  pose proof (keep_uncert_value nD h1 f) as K2. pose proof X1 as [x1 E1].
  assert (V2 : value_of h1 f = Ok f') by (rewrite E1, (value_of_ext _ _ _ Rf); exact Vf).
  rewrite V2 in K2. cbn [bind] in K2. destruct (check_uncert nD f') as [w2|e2] eqn:C2; cbn [bind].
  2:{ destruct K2 as [e K2]. rewrite K2. destruct (value_of h sd); cbn [bind]; eexists; reflexivity. }
  destruct K2 as (h2 & i2 & K2 & X2 & S2 & O2). rewrite K2. cbn [bind fst snd].
  pose proof (extends_len _ _ X1) as L1. pose proof (extends_len _ _ X2) as L2.
  pose proof (extends_trans _ _ _ X1 X2) as X12. pose proof X12 as [x12 E12].
  set (o0 := mkObj d None i1 i2). set (d0 := mkData nD (shown h d) w1 w2).
  assert (R1 : forall j, i1 = Some j -> (j < length h1)%nat).
  { intros j Hj. destruct (O1 j Hj) as [[H _]|H]; [apply Rr in H; lia|lia]. }
  assert (R2 : forall j, i2 = Some j -> (j < length h2)%nat).
  { intros j Hj. destruct (O2 j Hj) as [[H _]|H]; [apply Rf in H; lia|lia]. }
  assert (W0 : v_data (view nD h2 o0) = d0).
  { unfold view, o0, d0. cbn. f_equal; [rewrite E12; apply shown_ext; exact Hd| |exact S2]. destruct X2 as [x2 ->]. rewrite shown_real_ext; [exact S1|exact R1]. }
  (* the last steps *)
  assert (Fin : forall p x, extends h2 (fst p) -> o_dobs (snd p) = d -> o_clean (snd p) = None ->
     mkData nD (shown h d) (shown_real (fst p) (o_rel (snd p))) (shown_real (fst p) (o_floor (snd p))) = x ->
     (forall j, o_rel (snd p) = Some j -> (j < length (fst p))%nat /\ (In j (refs r) \/ (length h <= j)%nat)) ->
     (forall j, o_floor (snd p) = Some j -> (j < length (fst p))%nat /\ (In j (refs f ++ refs sd) \/ (length h <= j)%nat)) ->
     (forall j, o_rel (snd p) = Some j -> o_floor (snd p) <> Some j) ->
     match (match clean with Some c => if Nat.eqb (length (shown h c)) nD then Ok x else Err ValueError | None => Ok x end) with
     | Ok y => exists h' o, match clean with Some c => do c' <- (do a' <- get_arr (fst p) c; if Nat.eqb (length (a_vals a')) nD then Ok c else Err ValueError);
            Ok (fst p, mkObj (o_dobs (snd p)) (Some c') (o_rel (snd p)) (o_floor (snd p))) | None => Ok p end = Ok (h', o)
          /\ extends h h' /\ view nD h' o = mkValue y (kind h d) (option_map (shown h) clean)
          /\ NoDup (held o) /\ (forall j, In j (held o) -> (j < length h')%nat /\ (In j (d :: opt clean ++ refs r ++ refs f ++ refs sd) \/ (length h <= j)%nat))
     | Err _ => exists e, match clean with Some c => do c' <- (do a' <- get_arr (fst p) c; if Nat.eqb (length (a_vals a')) nD then Ok c else Err ValueError);
            Ok (fst p, mkObj (o_dobs (snd p)) (Some c') (o_rel (snd p)) (o_floor (snd p))) | None => Ok p end = Err e
     end).
  { intros [hp op] x Xp Dp Cp Vp Pr Pf Pn. cbn [fst snd] in *.
    pose proof (extends_trans _ _ _ X12 Xp) as Xh. pose proof Xh as [xh Eh]. pose proof (extends_len _ _ Xh) as Lh.
    assert (Good : forall cl, (forall c, cl = Some c -> clean = Some c) ->
      NoDup (d :: opt cl ++ opt (o_rel op) ++ opt (o_floor op))
      /\ (forall j, In j (d :: opt cl ++ opt (o_rel op) ++ opt (o_floor op)) -> (j < length hp)%nat /\ (In j (d :: opt clean ++ refs r ++ refs f ++ refs sd) \/ (length h <= j)%nat))).
    { intros cl Hcl. split.
      - assert (Q : NoDup (d :: opt cl ++ refs r ++ refs f ++ refs sd)).
        { destruct cl as [c|]; [rewrite (Hcl c eq_refl) in ND; exact ND|].
          destruct clean; cbn in ND |- *; [|exact ND]. inversion ND as [|? ? A B]; subst. inversion B; subst. constructor; [|assumption]. intro Z. apply A. right. exact Z. }
        assert (Hcr : forall c, In c (opt cl) -> (c < length h)%nat) by (intros c Z; apply Hc, Hcl; destruct cl; [destruct Z as [<-|[]]; reflexivity|destruct Z]).
        inversion Q as [|? ? A B]; subst x0 l.
        assert (Nr : forall j, o_rel op = Some j -> j <> d /\ ~ In j (opt cl)).
        { intros j Hj. destruct (Pr j Hj) as [_ [Z|Z]].
          - split; [intros ->; apply A, in_or_app; right; apply in_or_app; left; exact Z|].
            intro Y. destruct cl as [c|]; [|destruct Y]. destruct Y as [<-|[]]. cbn in B. inversion B as [|? ? B1 B2]; subst. apply B1, in_or_app. left. exact Z.
          - split; [lia|]. intro Y. apply Hcr in Y. lia. }
        assert (Nf : forall j, o_floor op = Some j -> j <> d /\ ~ In j (opt cl)).
        { intros j Hj. destruct (Pf j Hj) as [_ [Z|Z]].
          - split; [intros ->; apply A, in_or_app; right; apply in_or_app; right; exact Z|].
            intro Y. destruct cl as [c|]; [|destruct Y]. destruct Y as [<-|[]]. cbn in B. inversion B as [|? ? B1 B2]; subst. apply B1, in_or_app. right. exact Z.
          - split; [lia|]. intro Y. apply Hcr in Y. lia. }
        assert (Dc : ~ In d (opt cl)) by (intro Z; apply A, in_or_app; left; exact Z).
        destruct cl as [c|]; destruct (o_rel op) as [p1|]; destruct (o_floor op) as [p2|]; cbn in *;
          repeat match goal with
          | H : forall j, Some ?p = Some j -> _ |- _ => specialize (H p eq_refl)
          | H : forall j, None = Some j -> _ |- _ => clear H
          end; repeat constructor; cbn; intuition congruence.
      - intros j [<-|Z]; [split; [lia|left; left; reflexivity]|]. apply in_app_or in Z. destruct Z as [Z|Z].
        + destruct cl as [c|]; [|destruct Z]. destruct Z as [<-|[]]. specialize (Hcl c eq_refl). split; [specialize (Hc c Hcl); lia|]. left. right. rewrite Hcl. left. reflexivity.
        + apply in_app_or in Z. destruct Z as [Z|Z].
          * destruct (o_rel op) as [p1|]; [|destruct Z]. destruct Z as [<-|[]]. destruct (Pr p1 eq_refl) as [Y1 Y2]. split; [exact Y1|].
            destruct Y2 as [Y2|Y2]; [left; right; apply in_or_app; right; apply in_or_app; left; exact Y2|right; exact Y2].
          * destruct (o_floor op) as [p1|]; [|destruct Z]. destruct Z as [<-|[]]. destruct (Pf p1 eq_refl) as [Y1 Y2]. split; [exact Y1|].
            destruct Y2 as [Y2|Y2]; [left; right; apply in_or_app; right; apply in_or_app; right; exact Y2|right; exact Y2]. }
    destruct clean as [c|].
    - specialize (Hc c eq_refl).
      assert (exists ac, get_arr hp c = Ok ac) as [ac Eac].
      { unfold get_arr. destruct (nth_error hp c) eqn:E; [eexists; reflexivity|]. apply nth_error_None in E. lia. }
      destruct (get_arr_ok _ _ _ Eac) as (_ & Hsc & _). rewrite Eh, shown_ext in Hsc by exact Hc.
      rewrite Eac. cbn [bind]. rewrite <- Hsc. destruct (Nat.eqb (length (shown h c)) nD); cbn [bind]; [|eexists; reflexivity].
      destruct (Good (Some c) (fun _ Z => Z)) as [G1 G2]. eexists _, _. split; [reflexivity|]. split; [exact Xh|]. split; [|split; unfold held; cbn [o_dobs o_clean o_rel o_floor]; rewrite ?Dp; assumption].
      unfold view. cbn [o_dobs o_clean o_rel o_floor option_map]. rewrite Dp, <- Vp. rewrite Eh at 1 4 5. rewrite !shown_ext, kind_ext by assumption. reflexivity.
    - destruct (Good None) as [G1 G2]; [discriminate|]. eexists _, _. split; [reflexivity|]. split; [exact Xh|]. split; [|split; unfold held; cbn [o_dobs o_clean o_rel o_floor]; rewrite ?Dp, ?Cp; assumption].
      unfold view. rewrite Dp, Cp, <- Vp. rewrite Eh at 1 4. rewrite !shown_ext, kind_ext by assumption. reflexivity. }
  assert (Plain := fun H => Fin (h2, o0) d0 (extends_refl h2) eq_refl eq_refl H). cbn [fst snd o0 o_rel o_floor] in Plain.
  assert (Plain' : match (match clean with Some c => if Nat.eqb (length (shown h c)) nD then Ok d0 else Err ValueError | None => Ok d0 end) with
     | Ok y => exists h' o, match clean with Some c => do c' <- (do a' <- get_arr h2 c; if Nat.eqb (length (a_vals a')) nD then Ok c else Err ValueError);
            Ok (h2, mkObj d (Some c') i1 i2) | None => Ok (h2, o0) end = Ok (h', o)
          /\ extends h h' /\ view nD h' o = mkValue y (kind h d) (option_map (shown h) clean)
          /\ NoDup (held o) /\ (forall j, In j (held o) -> (j < length h')%nat /\ (In j (d :: opt clean ++ refs r ++ refs f ++ refs sd) \/ (length h <= j)%nat))
     | Err _ => exists e, match clean with Some c => do c' <- (do a' <- get_arr h2 c; if Nat.eqb (length (a_vals a')) nD then Ok c else Err ValueError);
            Ok (h2, mkObj d (Some c') i1 i2) | None => Ok (h2, o0) end = Err e
     end).
  { apply Plain.
    - unfold d0. f_equal; [|exact S2]. destruct X2 as [x2 ->]. rewrite shown_real_ext; [exact S1|exact R1].
    - intros j Hj. specialize (R1 j Hj). split; [lia|]. destruct (O1 j Hj) as [[H _]|H]; [left; exact H|right; lia].
    - intros j Hj. specialize (R2 j Hj). split; [lia|]. destruct (O2 j Hj) as [[H _]|H]; [left; apply in_or_app; left; exact H|right; lia].
    - intros j Hj Hk2. pose proof (R1 j Hj). destruct (O2 j Hk2) as [[H2 _]|H2]; [|lia]. destruct (O1 j Hj) as [[H1 _]|H1]; [|apply Rf in H2; lia].
      inversion ND as [|? ? _ B]; subst. clear - B H1 H2. destruct r as [| |ir]; [destruct H1|destruct H1|]. destruct f as [| |jf]; [destruct H2|destruct H2|].
      cbn [refs app] in B, H1, H2. destruct H1 as [<-|[]]. destruct H2 as [->|[]].
      destruct clean; cbn [opt app] in B; repeat match goal with H : NoDup (_ :: _) |- _ => inversion H; clear H; subst end; cbn in *; tauto. }
  assert (Std : forall u v, value_of h u = Ok v -> (forall j, In j (refs u) -> In j (refs sd)) ->
     match (do x <- (match set_std d0 v with (d', None) => Ok d' | (_, Some e) => Err e end); match clean with Some c => if Nat.eqb (length (shown h c)) nD then Ok x else Err ValueError | None => Ok x end) with
     | Ok y => exists h' o, (do p <- keep_std nD h2 o0 u; match clean with Some c => do c' <- (do a' <- get_arr (fst p) c; if Nat.eqb (length (a_vals a')) nD then Ok c else Err ValueError);
            Ok (fst p, mkObj (o_dobs (snd p)) (Some c') (o_rel (snd p)) (o_floor (snd p))) | None => Ok p end) = Ok (h', o)
          /\ extends h h' /\ view nD h' o = mkValue y (kind h d) (option_map (shown h) clean)
          /\ NoDup (held o) /\ (forall j, In j (held o) -> (j < length h')%nat /\ (In j (d :: opt clean ++ refs r ++ refs f ++ refs sd) \/ (length h <= j)%nat))
     | Err _ => exists e, (do p <- keep_std nD h2 o0 u; match clean with Some c => do c' <- (do a' <- get_arr (fst p) c; if Nat.eqb (length (a_vals a')) nD then Ok c else Err ValueError);
            Ok (fst p, mkObj (o_dobs (snd p)) (Some c') (o_rel (snd p)) (o_floor (snd p))) | None => Ok p end) = Err e
     end).
  { intros u v Vu Ru.
    assert (Ru' : forall j, In j (refs u) -> (j < length h2)%nat) by (intros j Hj; apply Ru, Rs in Hj; lia).
    assert (Do : (o_dobs o0 < length h2)%nat) by (cbn; lia).
    pose proof (keep_std_value nD h2 o0 u Do Ru') as K3. rewrite W0 in K3.
    assert (V3 : value_of h2 u = Ok v) by (rewrite E12, value_of_ext; [exact Vu|intros j Hj; apply Ru, Rs in Hj; exact Hj]).
    rewrite V3 in K3. cbn [bind] in K3.
    destruct (match set_std d0 v with (d', None) => Ok d' | (_, Some e) => Err e end) as [x|e]; cbn [bind].
    2:{ destruct K3 as [e' K3]. rewrite K3. eexists; reflexivity. }
    destruct K3 as (h3 & o3 & K3 & X3 & D3 & Cl3 & Vx & P3 & Q3 & N3). rewrite K3. cbn [bind].
    apply (Fin (h3, o3) x); cbn [fst snd]; [exact X3|exact D3|exact Cl3| | | |exact N3].
    - rewrite <- Vx. cbn [o0 o_dobs]. rewrite E12, shown_ext by exact Hd. reflexivity.
    - intros j Hj. specialize (P3 j Hj). split; [lia|right; lia].
    - intros j Hj. pose proof (extends_len _ _ X3). destruct (Q3 j Hj) as [[H2 H3]|H2]; [|split; [lia|right; lia]]. split; [lia|]. left. apply in_or_app. right. apply Ru, H2. }
  clear Fin Plain. fold o0 d0.
  destruct sd as [|x|i].
  - cbn [value_of bind negb]. destruct r as [|xr|ir].
    + cbn in Vr. injection Vr as <-. destruct f as [|xf|jf].
      * cbn in Vf. injection Vf as <-. cbn [andb]. exact (Std (RNum 0) (UScalar 0) eq_refl (fun _ Z => match Z with end)).
      * cbn in Vf. injection Vf as <-. cbn [andb bind]. exact Plain'.
      * destruct f'; [exfalso; revert Vf; unfold value_of; destruct (get_arr h jf) as [q|]; cbn; [destruct (a_cplx q)|]; discriminate| |]; cbn [andb bind]; exact Plain'.
    + cbn in Vr. injection Vr as <-. cbn [andb bind]. exact Plain'.
    + destruct r'; [exfalso; revert Vr; unfold value_of; destruct (get_arr h ir) as [q|]; cbn; [destruct (a_cplx q)|]; discriminate| |]; cbn [andb bind]; exact Plain'.
  - cbn [value_of bind negb]. exact (Std (RNum x) (UScalar x) eq_refl (fun _ Z => Z)).
  - destruct (value_of h (RArr i)) as [s'|es] eqn:Vs; cbn [bind].
    + specialize (Std (RArr i) s' Vs (fun _ Z => Z)).
      destruct s'; [exfalso; revert Vs; unfold value_of; destruct (get_arr h i) as [q|]; cbn; [destruct (a_cplx q)|]; discriminate| |]; cbn [negb]; exact Std.
    + assert (Do : (o_dobs o0 < length h2)%nat) by (cbn; lia).
      assert (Ru' : forall j, In j (refs (RArr i)) -> (j < length h2)%nat) by (intros j Hj; apply Rs in Hj; lia).
      pose proof (keep_std_value nD h2 o0 (RArr i) Do Ru') as K3. rewrite E12, value_of_ext, Vs in K3 by exact Rs. cbn [bind] in K3. destruct K3 as [e' K3]. rewrite <- E12 in K3. rewrite K3. eexists; reflexivity.
Qed.
