From Verif Require Import Py Vec VecDeriv Joint CplxFacts SolveDeriv RichardsFacts RichardsFacts2 RichardsFacts3 DcFacts Tdem SpecTdem TdemFacts TdemFacts2.
From Coq Require Import Reals Lra Lia.
Local Open Scope R_scope.

Lemma over_length {A} (f : nat -> vec -> A) us : forall k, length (over f k us) = length us.
Proof. induction us; intros; cbn [over length]; auto. Qed.
Lemma over_nth {A} (f : nat -> vec -> A) (d : A) us : forall k i, (i < length us)%nat -> nth i (over f k us) d = f (k + i)%nat (nth i us []).
Proof.
  induction us as [|u us IH]; intros k i Hi; [cbn in Hi; lia|]. destruct i; cbn [over nth]; [rewrite Nat.add_0_r; reflexivity|].
  rewrite IH by (cbn in Hi; lia). f_equal. lia.
Qed.
Lemma over_id us : forall k, over (fun _ u => u) k us = us.
Proof. induction us; intros; cbn [over]; f_equal; auto. Qed.
Lemma over_ext {A} (f g : nat -> vec -> A) us : (forall k u, f k u = g k u) -> forall k, over f k us = over g k us.
Proof. intros H. induction us; intros; cbn [over]; f_equal; auto. Qed.

Section Maxwell.
  Context (s : td) (SZ : sizes s).
  Definition fx : fname := if isEB s then Fe else Fj.
  Definition fy : fname := if isEB s then Fb else Fh.
  Lemma hist_nth m src x us k : length us = S (nT s) -> (k <= nT s)%nat -> nth k (history_of s m src x us) [] = getfield s m src k x (nth k us []).
  Proof. intros L Hk. unfold history_of. rewrite over_nth by lia. reflexivity. Qed.
  Lemma hist_length m src x us : length (history_of s m src x us) = length us. Proof. apply over_length. Qed.
  Lemma len_fx m src k u : src_ok s src -> length u = dim s -> length (getfield s m src k fx u) = nS s.
  Proof.
    intros SO Lu. pose proof (len_s_e s SZ src (time s k) SO) as LE. unfold getfield, fx. destruct (t_form s) eqn:K; lens s SZ K; ln.
  Qed.
  (** B and H solve for y, and give x by Ampere's law *)
  Lemma solves_y m src us : (t_form s = FormB \/ t_form s = FormH) -> src_ok s src -> no_zero (Sg s m) ->
    traj s m src us -> evolution s m src (history_of s m src fx us) us.
  Proof.
    intros K SO N (L & D & E). split; [rewrite hist_length; exact L|]. split; [exact L|]. assert (ED : dim s = nO s) by (unfold dim, nO, isEB; destruct K as [-> | ->]; reflexivity).
    split.
    - intros k Hk. rewrite hist_nth by assumption. split; [apply len_fx; auto|]. split; [rewrite <- ED; auto|].
      destruct K as [K|K]; [apply (amp_B s SZ K)|apply (amp_H s SZ K)]; auto; try (unfold fx, isEB; rewrite K; reflexivity); apply len_fx; auto.
    - intros k Hk. rewrite hist_nth by (assumption || lia). pose proof (step_pos s SZ k Hk). specialize (E k Hk). revert E.
      destruct K as [K|K]; [rewrite (step_B s SZ K)|rewrite (step_H s SZ K)]; try (apply D; lia); try assumption; unfold fx, isEB; rewrite K; auto.
  Qed.
  Lemma y_solves m src xs ys : (t_form s = FormB \/ t_form s = FormH) -> src_ok s src -> no_zero (Sg s m) ->
    evolution s m src xs ys -> traj s m src ys /\ xs = history_of s m src fx ys.
  Proof.
    intros K SO N (Lx & Ly & EA & EF). assert (ED : dim s = nO s) by (unfold dim, nO, isEB; destruct K as [-> | ->]; reflexivity).
    assert (X : forall k, (k <= nT s)%nat -> nth k xs [] = getfield s m src k fx (nth k ys [])).
    { intros k Hk. destruct (EA k Hk) as (L1 & L2 & A). unfold fx, isEB. destruct K as [K|K]; rewrite K; [apply (amp_B s SZ K) in A|apply (amp_H s SZ K) in A]; auto; rewrite ED; auto. }
    split.
    - split; [exact Ly|]. split; [intros; rewrite ED; apply EA; assumption|]. intros k Hk. specialize (EF k Hk). rewrite X in EF by lia. pose proof (step_pos s SZ k Hk).
      assert (L1 : length (nth k ys []) = dim s) by (rewrite ED; apply EA; lia). assert (L2 : length (nth (S k) ys []) = dim s) by (rewrite ED; apply EA; lia).
      revert EF. unfold fx, isEB. destruct K as [K|K]; rewrite K; [rewrite (step_B s SZ K)|rewrite (step_H s SZ K)]; auto.
    - apply nth_ext with (d := []) (d' := []); [rewrite hist_length; congruence|]. intros k Hk. rewrite hist_nth by lia. apply X. lia.
  Qed.
  (** E and J solve for x *)
  Definition ystep (m : vec) (dt : R) (x' y : vec) : vec :=
    if isEB s then vsub y (vscale dt (curl s x')) else vsub y (vscale dt (vmul (MuI s) (curlT s (vmul (Sg s m) x')))).
  Fixpoint ychain (m : vec) (y : vec) (dts : list R) (xs : list vec) : list vec :=
    y :: match dts, xs with dt :: dts', x' :: xs' => ychain m (ystep m dt x' y) dts' xs' | _, _ => [] end.
  Lemma ychain_nth m dts : forall xs y, length xs = length dts -> length (ychain m y dts xs) = S (length dts) /\ nth 0 (ychain m y dts xs) [] = y /\
    forall k, (k < length dts)%nat -> nth (S k) (ychain m y dts xs) [] = ystep m (nth k dts 0) (nth k xs []) (nth k (ychain m y dts xs) []).
  Proof.
    induction dts as [|dt dts IH]; intros [|x' xs] y L; try discriminate.
    - split; [reflexivity|]. split; [reflexivity|]. intros k Hk. cbn in Hk. lia.
    - cbn in L. destruct (IH xs (ystep m dt x' y) ltac:(lia)) as (L1 & E0 & E). cbn [ychain]. split; [cbn [length]; rewrite L1; reflexivity|]. split; [reflexivity|].
      intros [|k] Hk; cbn [nth]; [rewrite E0; reflexivity|]. apply E. cbn in Hk. lia.
  Qed.
  Lemma ystep_faraday m dt x' y : 0 < dt -> length x' = nS s -> length y = nO s -> length (ystep m dt x' y) = nO s /\ faraday s m dt x' y (ystep m dt x' y).
  Proof.
    intros Hd Lx Ly. pose proof (NM s SZ) as NMu. pose proof (nth_MuI s SZ) as NI. unfold ystep, faraday. destruct (isEB s) eqn:K; unfold nO, nS in *; pose proof (len_curl s SZ); pose proof (len_curlT s SZ);
      pose proof (len_Sg s SZ m); pose proof (len_Mu s SZ); pose proof (len_MuI s SZ); unfold nO, nS in *; rewrite K in *; (split; [ln|]).
    - vext (t_nF s). field. lra.
    - vext (t_nE s). rewrite NI by assumption. field. split; first [lra | apply NMu; assumption].
  Qed.
  Lemma solves_x m src us y0 : (t_form s = FormE \/ (t_form s = FormJ /\ same_rate s src)) -> src_ok s src -> no_zero (Sg s m) ->
    traj s m src us -> length y0 = nO s -> ampere s m src 0 (nth 0 us []) y0 -> exists ys, nth 0 ys [] = y0 /\ evolution s m src us ys.
  Proof.
    intros K SO N (L & D & E) Ly A0. assert (ED : dim s = nS s) by (unfold dim, nS, isEB; destruct K as [-> | [-> _]]; reflexivity).
    destruct us as [|u0 us']; [discriminate|]. assert (L' : length us' = length (t_steps s)) by (cbn in L; unfold nT in L; lia).
    destruct (ychain_nth m (t_steps s) us' y0 L') as (Lc & C0 & C). exists (ychain m y0 (t_steps s) us'). set (ys := ychain m y0 (t_steps s) us') in *. split; [exact C0|].
    assert (P : forall k, (k <= nT s)%nat -> length (nth k ys []) = nO s /\ ampere s m src k (nth k (u0 :: us') []) (nth k ys []) /\
                 ((k < nT s)%nat -> faraday s m (step s k) (nth (S k) (u0 :: us') []) (nth k ys []) (nth (S k) ys []))).
    { assert (PF : forall k, (k < nT s)%nat -> length (nth k ys []) = nO s -> length (nth (S k) ys []) = nO s /\ faraday s m (step s k) (nth (S k) (u0 :: us') []) (nth k ys []) (nth (S k) ys [])).
      { intros k Hk Lk. rewrite (C k Hk). apply ystep_faraday; [apply step_pos; assumption| |exact Lk]. rewrite <- ED. apply (D (S k)). lia. }
      induction k as [|k IH]; intros Hk.
      - split; [rewrite C0; exact Ly|]. split; [rewrite C0; exact A0|]. intros H. apply PF; [exact H|rewrite C0; exact Ly].
      - destruct (IH ltac:(lia)) as (Lk & Ak & Fk). specialize (Fk ltac:(lia)). destruct (PF k ltac:(lia) Lk) as [Lk' _]. split; [exact Lk'|].
        assert (A' : ampere s m src (S k) (nth (S k) (u0 :: us') []) (nth (S k) ys [])).
        { specialize (E k ltac:(lia)). pose proof (step_pos s SZ k ltac:(lia)). pose proof (D k ltac:(lia)) as D1. pose proof (D (S k) ltac:(lia)) as D2.
          destruct K as [K|[K SR]]; [apply (step_E s SZ K (step s k) m src k (nth k (u0 :: us') []) _ (nth k ys []))|apply (step_J s SZ K (step s k) m src k (nth k (u0 :: us') []) _ (nth k ys []))]; auto; lia. }
        split; [exact A'|]. intros H. apply PF; assumption. }
    split; [exact L|]. split; [rewrite Lc; reflexivity|]. split.
    - intros k Hk. destruct (P k Hk) as (Lk & Ak & _). split; [rewrite <- ED; apply D; exact Hk|]. auto.
    - intros k Hk. apply P; lia.
  Qed.
  Lemma x_solves m src xs ys : (t_form s = FormE \/ (t_form s = FormJ /\ same_rate s src)) -> src_ok s src -> no_zero (Sg s m) ->
    evolution s m src xs ys -> traj s m src xs.
  Proof.
    intros K SO N (Lx & Ly & EA & EF). assert (ED : dim s = nS s) by (unfold dim, nS, isEB; destruct K as [-> | [-> _]]; reflexivity).
    split; [exact Lx|]. split; [intros k Hk; rewrite ED; apply EA; exact Hk|]. intros k Hk. specialize (EF k Hk). pose proof (step_pos s SZ k Hk).
    destruct (EA k ltac:(lia)) as (L1 & L2 & A1). destruct (EA (S k) ltac:(lia)) as (L3 & L4 & A2). rewrite <- ED in L1, L3.
    destruct K as [K|[K SR]]; [apply (step_E s SZ K (step s k) m src k _ _ (nth k ys []) (nth (S k) ys []))|apply (step_J s SZ K (step s k) m src k _ _ (nth k ys []) (nth (S k) ys []))]; auto; lia.
  Qed.
  (** other histories of the solution itself *)
  Lemma hist_u m src us : history_of s m src (match t_form s with FormB => Fb | FormE => Fe | FormH => Fh | FormJ => Fj end) us = us.
  Proof. unfold history_of. rewrite (over_ext _ (fun _ u => u)); [apply over_id|]. intros. unfold getfield. destruct (t_form s); reflexivity. Qed.
End Maxwell.

(** ** The theorems *)
Lemma fields_ok s srcs m : setup_ok s srcs -> fields s srcs m = Ok (m, map (solution s m) srcs).
Proof.
  intros [SZ F]. rewrite Forall_forall in F. unfold fields.
  assert (G : match t_form s with FormB => existsb grounded srcs | _ => false end = false).
  { destruct (t_form s) eqn:K; try reflexivity. destruct (existsb grounded srcs) eqn:X; [|reflexivity]. apply existsb_exists in X. destruct X as (src & I & X). destruct (F src I) as [[_ H] _]. rewrite (H K) in X. discriminate. }
  rewrite G. assert (N : Nat.eqb (nT s) 0 = false). { apply Nat.eqb_neq. unfold nT. destruct SZ as (_ & _ & _ & _ & _ & _ & _ & _ & _ & N & _). destruct (t_steps s); [congruence|discriminate]. }
  rewrite N. assert (D : existsb (short_dipole s) srcs = false).
  { destruct (existsb (short_dipole s) srcs) eqn:X; [|reflexivity]. apply existsb_exists in X. destruct X as (src & I & X). destruct (F src I) as [[H _] _]. unfold short_dipole in X. destruct (s_init src); [|discriminate].
    destruct (s_kind src); [|discriminate]. cbn [andb] in X. apply Nat.ltb_lt in X. destruct H as (_ & _ & H). specialize (H eq_refl). lia. }
  rewrite D. reflexivity.
Qed.

Definition solved_for (s : td) : fname := match t_form s with FormB => Fb | FormE => Fe | FormH => Fh | FormJ => Fj end.
Lemma maxwell_y s srcs m : setup_ok s srcs -> solvable s m -> apart (t_thr s) (t_steps s) -> (t_form s = FormB \/ t_form s = FormH) ->
  exists uss, fields s srcs m = Ok (m, uss) /\ Forall2 (fun src us =>
    let xs := history_of s m src (if isEB s then Fe else Fj) us in let ys := history_of s m src (if isEB s then Fb else Fh) us in
    evolution s m src xs ys /\ nth 0 ys [] = initial s m src /\
    forall xs' ys', evolution s m src xs' ys' -> nth 0 ys' [] = initial s m src -> xs' = xs /\ ys' = ys) srcs uss.
Proof.
  intros ST OK AP K. exists (map (solution s m) srcs). split; [apply fields_ok; assumption|]. destruct ST as [SZ F].
  assert (NZ : no_zero (Sg s m)) by apply OK. induction F as [|src srcs [SO _] _ IH]; [constructor|]. constructor; [|exact IH].
  destruct (solution_traj s SZ m src AP SO OK) as [T I0]. cbv zeta.
  assert (HY : history_of s m src (if isEB s then Fb else Fh) (solution s m src) = solution s m src).
  { rewrite <- (hist_u s m src (solution s m src)) at 2. f_equal. unfold isEB. destruct K as [-> | ->]; reflexivity. }
  rewrite HY. split; [apply (solves_y s SZ); assumption|]. split; [exact I0|]. intros xs' ys' E H0.
  destruct (y_solves s SZ m src xs' ys' K SO NZ E) as [T' ->]. rewrite (traj_unique s SZ m src ys' (solution s m src)) by (auto; congruence). split; reflexivity.
Qed.
Lemma maxwell_x s srcs m : setup_ok s srcs -> solvable s m -> apart (t_thr s) (t_steps s) ->
  (t_form s = FormE \/ (t_form s = FormJ /\ Forall (same_rate s) srcs)) ->
  exists uss, fields s srcs m = Ok (m, uss) /\ Forall2 (fun src us =>
    let xs := history_of s m src (if isEB s then Fe else Fj) us in
    nth 0 xs [] = initial s m src /\
    (forall xs' ys', evolution s m src xs' ys' -> nth 0 xs' [] = initial s m src -> xs' = xs) /\
    (forall y0, length y0 = nO s -> ampere s m src 0 (initial s m src) y0 -> exists ys, nth 0 ys [] = y0 /\ evolution s m src xs ys)) srcs uss.
Proof.
  intros ST OK AP K. exists (map (solution s m) srcs). split; [apply fields_ok; assumption|]. destruct ST as [SZ F].
  assert (NZ : no_zero (Sg s m)) by apply OK.
  assert (K' : Forall (fun src => t_form s = FormE \/ (t_form s = FormJ /\ same_rate s src)) srcs).
  { destruct K as [K|[K R]]; [apply Forall_forall; auto|]. rewrite Forall_forall in *. auto. }
  clear K. induction F as [|src srcs [SO _] _ IH]; [constructor|]. inversion K' as [|? ? K K'']; subst. constructor; [|apply IH; exact K''].
  destruct (solution_traj s SZ m src AP SO OK) as [T I0]. cbv zeta.
  assert (HX : history_of s m src (if isEB s then Fe else Fj) (solution s m src) = solution s m src).
  { rewrite <- (hist_u s m src (solution s m src)) at 2. f_equal. unfold isEB. destruct K as [-> | [-> _]]; reflexivity. }
  rewrite HX. split; [exact I0|]. split.
  - intros xs' ys' E H0. apply (traj_unique s SZ m src); [exact OK|exact (x_solves s SZ m src xs' ys' K SO NZ E)|exact T|congruence].
  - intros y0 Ly A0. apply (solves_x s SZ); auto.
Qed.
(** a conversion: everything but the solution is shared *)
Lemma evo_BE s S1 S2 m src xs ys : evolution (with_form s FormB S1) m src xs ys <-> evolution (with_form s FormE S2) m src xs ys. Proof. reflexivity. Qed.
Lemma evo_HJ s S1 S2 m src xs ys : evolution (with_form s FormH S1) m src xs ys <-> evolution (with_form s FormJ S2) m src xs ys. Proof. reflexivity. Qed.
Lemma field_of_x s (SZ : sizes s) m src k x u : src_ok s src -> length u = dim s -> (t_form s = FormB -> x <> Fb /\ x <> Fh) -> (t_form s = FormH -> x <> Fb /\ x <> Fh) -> no_field s x = None ->
  let e := getfield s m src k (if isEB s then Fe else Fj) u in
  getfield s m src k x u =
  match isEB s, x with
  | true, Fe => e | true, Fj => vmul (t_MeI s) (vmul (Sg s m) e) | true, Fdb => vopp (curl s e) | true, Fdh => vmul (t_MfI s) (vmul (t_Mu s) (vopp (curl s e)))
  | false, Fj => e | false, Fe => vmul (t_MfI s) (vmul (Sg s m) e) | false, Fdh => vopp (vmul (MuI s) (curlT s (vmul (Sg s m) e)))
  | false, Fdb => vmul (t_MeI s) (vmul (t_Mu s) (vopp (vmul (MuI s) (curlT s (vmul (Sg s m) e)))))
  | _, _ => []
  end.
Proof.
  intros SO Lu NB NH NF. pose proof (len_s_e s SZ src (time s k) SO) as LE. cbv zeta. unfold no_field, gloc in NF. unfold getfield.
  destruct (t_form s) eqn:K; lens s SZ K; destruct x; try discriminate; try reflexivity; try (destruct (NB eq_refl); congruence); try (destruct (NH eq_refl); congruence); set (se := s_e s src _) in *.
  - replace (vmul (Sg s m) (vsub (curl s u) se)) with (vsub (vmul (Sg s m) (curl s u)) (vmul (Sg s m) se)) by (vext (t_nF s); ring).
    rewrite (lin_sub _ _ _ _ _ (L_curlT s SZ)) by ln. do 2 f_equal. vext (t_nE s). ring.
  - replace (vmul (Sg s m) (vsub (curl s u) se)) with (vsub (vmul (Sg s m) (curl s u)) (vmul (Sg s m) se)) by (vext (t_nF s); ring).
    rewrite (lin_sub _ _ _ _ _ (L_curlT s SZ)) by ln. vext (t_nE s). ring.
Qed.
Lemma agree_BE s S1 S2 src m : let sB := with_form s FormB S1 in let sE := with_form s FormE S2 in
  sizes sB -> sizes sE -> src_ok sB src -> apart (t_thr s) (t_steps s) -> solvable sB m -> solvable sE m -> initial sE m src = getfield sB m src 0 Fe (initial sB m src) ->
  forall x, no_field sE x = None -> history_of sE m src x (solution sE m src) = history_of sB m src x (solution sB m src).
Proof.
  intros sB sE SZ SZE SO AP OB OE I0. assert (SOE : src_ok sE src) by (split; [apply SO|discriminate]).
  destruct (solution_traj sB SZ m src AP SO OB) as [TB _]. destruct (solution_traj sE SZE m src AP SOE OE) as [TE _].
  assert (NZ : no_zero (Sg s m)) by apply OB.
  assert (X : solution sE m src = history_of sB m src Fe (solution sB m src)).
  { apply (traj_unique sE SZE m src); [exact OE|exact TE| |rewrite (hist_nth sB) by (apply TB || lia); exact I0].
    apply (x_solves sE SZE m src _ (solution sB m src)); [left; reflexivity|exact SOE|exact NZ|].
    apply (solves_y sB SZ m src (solution sB m src)); [left; reflexivity|exact SO|exact NZ|exact TB]. }
  intros x Hx. apply nth_ext with (d := []) (d' := []); [rewrite !hist_length, !solution_length; reflexivity|]. intros k Hk. rewrite hist_length, solution_length in Hk.
  rewrite (hist_nth sE) by (rewrite ?solution_length; reflexivity || lia). rewrite (hist_nth sB) by (rewrite ?solution_length; reflexivity || (change (nT sB) with (nT sE); lia)).
  rewrite X. rewrite (hist_nth sB) by (rewrite ?solution_length; reflexivity || (change (nT sB) with (nT sE); lia)).
  set (u := nth k (solution sB m src) []). assert (Lu : length u = dim sB) by (apply TB; change (nT sB) with (nT sE); lia).
  assert (Le : length (getfield sB m src k Fe u) = dim sE) by (apply (len_fx sB SZ m src k u SO Lu)).
  assert (Hb : x <> Fb /\ x <> Fh) by (destruct x; try discriminate; split; discriminate).
  rewrite (field_of_x sE SZE m src k x _ SOE Le ltac:(discriminate) ltac:(discriminate) Hx).
  assert (HxB : no_field sB x = None) by (destruct x; reflexivity).
  rewrite (field_of_x sB SZ m src k x _ SO Lu ltac:(intros; exact Hb) ltac:(discriminate) HxB). reflexivity.
Qed.
Lemma agree_HJ s S1 S2 src m : let sH := with_form s FormH S1 in let sJ := with_form s FormJ S2 in
  sizes sH -> sizes sJ -> src_ok sH src -> apart (t_thr s) (t_steps s) -> solvable sH m -> solvable sJ m -> same_rate sJ src -> initial sJ m src = getfield sH m src 0 Fj (initial sH m src) ->
  forall x, no_field sJ x = None -> history_of sJ m src x (solution sJ m src) = history_of sH m src x (solution sH m src).
Proof.
  intros sH sJ SZ SZE SO AP OB OE SR I0. assert (SOE : src_ok sJ src) by (split; [apply SO|discriminate]).
  destruct (solution_traj sH SZ m src AP SO OB) as [TB _]. destruct (solution_traj sJ SZE m src AP SOE OE) as [TE _].
  assert (NZ : no_zero (Sg s m)) by apply OB.
  assert (X : solution sJ m src = history_of sH m src Fj (solution sH m src)).
  { apply (traj_unique sJ SZE m src); [exact OE|exact TE| |rewrite (hist_nth sH) by (apply TB || lia); exact I0].
    apply (x_solves sJ SZE m src _ (solution sH m src)); [right; split; [reflexivity|exact SR]|exact SOE|exact NZ|].
    apply (solves_y sH SZ m src (solution sH m src)); [right; reflexivity|exact SO|exact NZ|exact TB]. }
  intros x Hx. apply nth_ext with (d := []) (d' := []); [rewrite !hist_length, !solution_length; reflexivity|]. intros k Hk. rewrite hist_length, solution_length in Hk.
  rewrite (hist_nth sJ) by (rewrite ?solution_length; reflexivity || lia). rewrite (hist_nth sH) by (rewrite ?solution_length; reflexivity || (change (nT sH) with (nT sJ); lia)).
  rewrite X. rewrite (hist_nth sH) by (rewrite ?solution_length; reflexivity || (change (nT sH) with (nT sJ); lia)).
  set (u := nth k (solution sH m src) []). assert (Lu : length u = dim sH) by (apply TB; change (nT sH) with (nT sJ); lia).
  assert (Le : length (getfield sH m src k Fj u) = dim sJ) by (apply (len_fx sH SZ m src k u SO Lu)).
  assert (Hb : x <> Fb /\ x <> Fh) by (destruct x; try discriminate; split; discriminate).
  rewrite (field_of_x sJ SZE m src k x _ SOE Le ltac:(discriminate) ltac:(discriminate) Hx).
  assert (HxB : no_field sH x = None) by (destruct x; reflexivity).
  rewrite (field_of_x sH SZ m src k x _ SO Lu ltac:(discriminate) ltac:(intros; exact Hb) HxB). reflexivity.
Qed.
(** The initial electric field is that of the DC problem *)
Lemma dot_ones_gradT s (SZ : sizes s) q : length q = nS s -> grad s (vconst (t_nn s) 1) = vzero (nS s) -> dot (gradT s q) (vconst (t_nn s) 1) = 0.
Proof. intros L G. rewrite <- (grad_dot s SZ) by (try assumption; apply repeat_length). rewrite G. apply dot_zero_r. Qed.
Lemma dot_e0 a n x : length a = S n -> dot (vmul (1 :: vzero n) a) (x :: repeat 1 n) = nth 0 a 0 * x.
Proof.
  intros L. destruct a as [|y a]; [discriminate|]. unfold vmul. cbn [zipw dot nth]. fold vmul. assert (Z : dot (vmul (vzero n) a) (repeat 1 n) = 0).
  { assert (length a = n) by (cbn in L; lia). replace (vmul (vzero n) a) with (vzero n) by (vext n; ring). apply dot_zero_l. }
  rewrite Z. ring.
Qed.
Lemma initial_dc s m q : sizes s -> solvable s m -> length q = nS s -> grad s (vconst (t_nn s) 1) = vzero (nS s) ->
  gradT s (vadd (if isEB s then vmul (Sg s m) (e0 s m q) else j0 s m q) q) = vzero (t_nn s).
Proof.
  intros SZ OK Lq G. destruct OK as (_ & _ & _ & H & _). destruct (H (gradT s q) (len_gradT s SZ q)) as (Lp & E & _). unfold e0, j0. fold (phi s m q) in Lp, E. set (f := phi s m q) in *.
  pose proof (len_Sg s SZ m). pose proof (len_SI s SZ m). pose proof (len_grad s SZ f) as LG. pose proof (L_gradT s SZ) as LT. pose proof (len_gradT s SZ) as LL.
  destruct (isEB s) eqn:K.
  - rewrite (proj1 (proj2 LT)) by ln. replace (vmul (Sg s m) (vopp (grad s f))) with (vopp (vmul (Sg s m) (grad s f))) by (vext (nS s); ring). rewrite (lin_opp _ _ _ _ LT) by ln.
    unfold getAdc in E. rewrite K in E. cbn [act negb] in E. fold (grad s f) in E. change (mtv (t_nn s) (t_G s) (vmul (Sg s m) (grad s f))) with (gradT s (vmul (Sg s m) (grad s f))) in E.
    assert (NN : (0 < t_nn s)%nat) by apply SZ. destruct (t_nn s) as [|n] eqn:EN; [lia|].
    assert (F0 : nth 0 f 0 = 0).
    { pose proof (dot_ones_gradT s SZ q Lq) as D1. pose proof (dot_ones_gradT s SZ (vmul (Sg s m) (grad s f)) ltac:(ln)) as D2. rewrite EN in D1, D2. specialize (D1 G). specialize (D2 G).
      rewrite <- E in D1. rewrite dot_vadd_l in D1 by (rewrite LL; symmetry; replace (S n - 1)%nat with n by lia; apply ln_mul; [cbn; rewrite vzero_length; reflexivity|exact Lp]).
      rewrite D2 in D1. replace (S n - 1)%nat with n in D1 by lia. unfold vconst in D1. cbn [repeat] in D1. rewrite dot_e0 in D1 by exact Lp. lra. }
    rewrite <- E. replace (S n - 1)%nat with n by lia. assert (Z : vmul (1 :: vzero n) f = vzero (S n)).
    { destruct f as [|x f]; [discriminate|]. cbn in F0. subst x. unfold vmul. cbn [zipw vzero]. cbn. rewrite Rmult_0_r. f_equal. assert (length f = n) by (cbn in Lp; lia). change (vmul (vzero n) f = vzero n). vext n. ring. }
    rewrite Z. specialize (LL (vmul (Sg s m) (grad s f))). vext (S n). ring.
  - rewrite (proj1 (proj2 LT)) by ln. rewrite (lin_opp _ _ _ _ LT) by ln. unfold getAdc in E. rewrite K in E. cbn [act negb] in E. fold (grad s f) in E. change (mtv (t_nn s) (t_G s) (vmul (SI s m) (grad s f))) with (gradT s (vmul (SI s m) (grad s f))) in E.
    rewrite E. vext (t_nn s). ring.
Qed.
