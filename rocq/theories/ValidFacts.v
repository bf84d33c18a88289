(** Proofs about the validators. *)
From Coq Require Import ZArith String.
From Verif Require Import Py Vec Validators SpecValid.
Local Open Scope R_scope.

Lemma xleb_spec a b : xleb a b = true <-> xle a b.
Proof.
  destruct a, b; cbn; try (destruct (Rle_dec r r0); intuition congruence); intuition congruence.
Qed.
Lemma xltb_spec a b : xltb a b = true <-> xlt a b.
Proof.
  unfold xlt. destruct a, b; cbn; try (destruct (Rlt_dec r r0); intuition (try congruence; lra)); intuition congruence.
Qed.
Lemma xltb_false a b : number a -> number b -> (xltb a b = false <-> xle b a).
Proof.
  unfold number. intros Ha Hb. destruct a, b; cbn; try congruence;
    try (destruct (Rlt_dec r r0); intuition (try congruence; lra)); intuition congruence.
Qed.
Lemma xleb_false a b : number a -> number b -> (xleb a b = false <-> xlt b a).
Proof.
  unfold number, xlt. intros Ha Hb. destruct a, b; cbn; try congruence;
    try (destruct (Rle_dec r r0); intuition (try congruence; lra)); intuition congruence.
Qed.
Lemma float_spec v lo hi il ih x : number lo -> number hi -> (forall y, as_float v = Some y -> number y) ->
  (validate_float v lo hi il ih = Ok x <-> as_float v = Some x /\ within x lo hi il ih).
Proof.
  intros Hlo Hhi Hv. unfold validate_float.
  assert (G : forall y, number y -> ((if (il && xltb y lo) || (negb il && xleb y lo) || (ih && xltb hi y) || (negb ih && xleb hi y) then Err ValueError else Ok y) = Ok x
     <-> y = x /\ within x lo hi il ih)).
  { intros y Hy. unfold within. 
    assert (A : (il && xltb y lo) || (negb il && xleb y lo) = false <-> (if il then xle lo y else xlt lo y)).
    { destruct il; cbn [andb negb orb]; [rewrite orb_false_r; apply xltb_false|apply xleb_false]; assumption. }
    assert (B : (ih && xltb hi y) || (negb ih && xleb hi y) = false <-> (if ih then xle y hi else xlt y hi)).
    { destruct ih; cbn [andb negb orb]; [rewrite orb_false_r; apply xltb_false|apply xleb_false]; assumption. }
    rewrite <- orb_assoc.
    destruct ((il && xltb y lo) || (negb il && xleb y lo)); cbn [orb].
    - split; [discriminate|]. intros [-> [C _]]. apply A in C. discriminate.
    - destruct ((ih && xltb hi y) || (negb ih && xleb hi y)).
      + split; [discriminate|]. intros [-> [_ C]]. apply B in C. discriminate.
      + split; [intros [= <-]; split; [reflexivity|]; split; [apply A|apply B]; reflexivity|intros [-> _]; reflexivity]. }
  destruct v as [z|y|]; cbn [bind as_float] in *.
  - rewrite G by (apply Hv; reflexivity). split; [intros [<- H]; auto|intros [[= <-] H]; auto].
  - rewrite G by (apply Hv; reflexivity). split; [intros [<- H]; auto|intros [[= <-] H]; auto].
  - split; [discriminate|intros [H _]; discriminate].
Qed.
Lemma float_nan lo hi il ih : validate_float (VFloat NaN) lo hi il ih = Ok NaN.
Proof. unfold validate_float. cbn. destruct il, ih, lo, hi; reflexivity. Qed.
Lemma ztrunc_spec r : (0 <= r -> IZR (ztrunc r) <= r < IZR (ztrunc r) + 1) /\ (r <= 0 -> IZR (ztrunc r) - 1 < r <= IZR (ztrunc r)).
Proof.
  unfold ztrunc. pose proof (base_Int_part r) as [A B]. pose proof (base_Int_part (- r)) as [C D].
  destruct (Rle_dec 0 r) as [H|H].
  - split; [intros; lra|]. intros. assert (r = 0) by lra. subst. replace (Int_part 0) with 0%Z; [cbn; lra|].
    assert (IZR (Int_part 0) <= 0) by lra. assert (-1 < IZR (Int_part 0)) by lra.
    apply (le_IZR _ 0) in H1. apply (lt_IZR (-1)) in H2. lia.
  - split; [intros; lra|]. intros. rewrite opp_IZR. lra.
Qed.
Definition int_of (v : pyval) : option Z := match v with VInt z => Some z | VFloat (Fin r) => Some (ztrunc r) | _ => None end.
Lemma integer_spec v lo hi z : number lo -> number hi ->
  (validate_integer v lo hi = Ok z <-> int_of v = Some z /\ xle lo (Fin (IZR z)) /\ xle (Fin (IZR z)) hi).
Proof.
  intros Hlo Hhi.
  assert (G : forall y, ((if xltb (Fin (IZR y)) lo || xltb hi (Fin (IZR y)) then Err ValueError else Ok y) = Ok z
     <-> y = z /\ xle lo (Fin (IZR z)) /\ xle (Fin (IZR z)) hi)).
  { intros y. pose proof (xltb_false (Fin (IZR y)) lo ltac:(discriminate) Hlo) as A. pose proof (xltb_false hi (Fin (IZR y)) Hhi ltac:(discriminate)) as B.
    destruct (xltb (Fin (IZR y)) lo), (xltb hi (Fin (IZR y))); cbn [orb];
      split; try discriminate; try (intros [-> [C D]]; try apply A in C; try apply B in D; try discriminate; reflexivity).
    intros [= <-]. split; [reflexivity|]. split; [apply A|apply B]; reflexivity. }
  unfold validate_integer. destruct v as [y|[r| | |]|]; cbn [bind int_of]; try (split; [discriminate|intros [H _]; discriminate]).
  - rewrite G. split; [intros [<- H]; auto|intros [[= <-] H]; auto].
  - rewrite G. split; [intros [<- H]; auto|intros [[= <-] H]; auto].
Qed.
Lemma read_int v z : int_of v = Some z <-> read_as_int v z.
Proof.
  destruct v as [y|[r| | |]|]; cbn; try (split; [discriminate|tauto]); [split; congruence|].
  destruct (ztrunc_spec r) as [A B]. split; [intros [= <-]; auto|]. intros [C D]. f_equal.
  destruct (Rle_dec 0 r) as [H|H].
  - specialize (A H). specialize (C H). assert (E1 : IZR (ztrunc r) < IZR (z + 1)) by (rewrite plus_IZR; lra).
    assert (E2 : IZR z < IZR (ztrunc r + 1)) by (rewrite plus_IZR; lra). apply lt_IZR in E1, E2. lia.
  - specialize (B ltac:(lra)). specialize (D ltac:(lra)). assert (E1 : IZR (ztrunc r - 1) < IZR z) by (rewrite minus_IZR; lra).
    assert (E2 : IZR (z - 1) < IZR (ztrunc r)) by (rewrite minus_IZR; lra). apply lt_IZR in E1, E2. lia.
Qed.
Lemma integer_ok v lo hi z : number lo -> number hi ->
  (validate_integer v lo hi = Ok z <-> read_as_int v z /\ xle lo (Fin (IZR z)) /\ xle (Fin (IZR z)) hi).
Proof. intros. rewrite <- read_int. apply integer_spec; assumption. Qed.
Lemma integer_truncates : validate_integer (VFloat (Fin (- (1 / 2)))) (Fin 0) PInf = Ok 0%Z.
Proof.
  apply integer_spec; [discriminate|discriminate|]. split; [|cbn; split; [lra|exact I]]. cbn. f_equal.
  destruct (ztrunc_spec (- (1 / 2))) as [_ H]. specialize (H ltac:(lra)). destruct H as [H1 H2].
  assert (A : IZR (ztrunc (- (1 / 2))) < 1) by lra. assert (B : -1 < IZR (ztrunc (- (1 / 2)))) by lra.
  apply (lt_IZR _ 1) in A. apply (lt_IZR (-1)) in B. lia.
Qed.

(** ** Strings *)
Section Strings.
  Variable fold : string -> string.
  Lemma exists_fold v l : existsb (String.eqb (fold v)) (map fold l) = true <-> exists s, In s l /\ fold s = fold v.
  Proof.
    rewrite existsb_exists. split.
    - intros (x & Hx & E). apply in_map_iff in Hx as (s & <- & Hs). apply String.eqb_eq in E. eauto.
    - intros (s & Hs & E). exists (fold s). split; [apply in_map; assumption|]. rewrite E. apply String.eqb_refl.
  Qed.
  Lemma match_item v i items : vstring_go fold v (i :: items) = 
    if existsb (String.eqb (fold v)) (map fold (names i)) then match canonical i with Some s => Ok s | None => Err IndexError end else vstring_go fold v items.
  Proof. destruct i as [s|[|s l]]; cbn; rewrite ?orb_false_r; reflexivity. Qed.
  Lemma string_spec v items c : vstring_go fold v items = Ok c <->
    exists i a, nth_error items i = Some a /\ same_name fold v a /\ canonical a = Some c /\
      forall j b, (j < i)%nat -> nth_error items j = Some b -> ~ same_name fold v b.
  Proof.
    induction items as [|it items IH].
    - cbn. split; [discriminate|]. intros (i & a & H & _). destruct i; discriminate.
    - rewrite match_item. destruct (existsb _ _) eqn:E.
      + apply exists_fold in E. split.
        * intros H. exists O, it. split; [reflexivity|]. split; [exact E|]. split; [|intros j b Hj; lia].
          destruct (canonical it) eqn:Ec; [injection H as <-; reflexivity|discriminate].
        * intros ([|i] & a & H1 & H2 & H3 & H4).
          -- cbn in H1. injection H1 as <-. rewrite H3. reflexivity.
          -- exfalso. apply (H4 O it); [lia|reflexivity|exact E].
      + assert (N : ~ same_name fold v it) by (intros H; apply exists_fold in H; congruence).
        rewrite IH. split.
        * intros (i & a & H1 & H2 & H3 & H4). exists (S i), a. split; [assumption|]. split; [assumption|]. split; [assumption|].
          intros [|j] b Hj Hb; [cbn in Hb; injection Hb as <-; assumption|]. apply (H4 j b); [lia|assumption].
        * intros ([|i] & a & H1 & H2 & H3 & H4); [cbn in H1; injection H1 as <-; contradiction|].
          exists i, a. split; [assumption|]. split; [assumption|]. split; [assumption|]. intros j b Hj Hb. apply (H4 (S j) b); [lia|assumption].
  Qed.
  Lemma canonical_some v a : same_name fold v a -> exists c, canonical a = Some c /\ In c (names a).
  Proof. intros (s & Hs & _). unfold canonical. destruct (names a) as [|c l]; [destruct Hs|]. exists c. split; [reflexivity|left; reflexivity]. Qed.
  Lemma string_rejects v items : vstring_go fold v items = Err ValueError <-> forall a, In a items -> ~ same_name fold v a.
  Proof.
    induction items as [|it items IH].
    - cbn. split; [intros _ a []|reflexivity].
    - rewrite match_item. destruct (existsb _ _) eqn:E.
      + apply exists_fold in E. split.
        * destruct (canonical_some v it E) as (c & -> & _). discriminate.
        * intros H. exfalso. apply (H it); [left; reflexivity|exact E].
      + assert (N : ~ same_name fold v it) by (intros H; apply exists_fold in H; congruence).
        rewrite IH. split; [intros H a [<-|Ha]; auto|intros H a Ha; apply H; right; assumption].
  Qed.
  (** With disjoint groups: any alias gives the canonical name, and the canonical name itself is a fixpoint. *)
  Lemma string_canonical items i a v c : disjoint_groups fold items -> nth_error items i = Some a -> same_name fold v a -> canonical a = Some c ->
    vstring_go fold v items = Ok c /\ vstring_go fold c items = Ok c.
  Proof.
    intros Hd Hi Hv Hc. assert (Hcc : same_name fold c a).
    { exists c. split; [|reflexivity]. unfold canonical in Hc. destruct (names a); [discriminate|]. injection Hc as <-. left; reflexivity. }
    split; apply string_spec; exists i, a; (split; [assumption|]); (split; [assumption|]); (split; [assumption|]);
      intros j b Hj Hb Hs.
    - assert (i = j) by (eapply (Hd i j a b v); eassumption). lia.
    - assert (i = j) by (eapply (Hd i j a b c); eassumption). lia.
  Qed.
End Strings.

(** ** Shapes *)
Lemma dims_ok_spec shp s : dims_ok shp s = true <-> matches shp s.
Proof.
  revert s; induction shp as [|[k|] shp IH]; intros [|n s]; cbn; try (split; [discriminate|intros H; inversion H]).
  - split; [constructor|reflexivity].
  - rewrite andb_true_iff, Nat.eqb_eq, IH. split; [intros [-> H]; constructor; assumption|intros H; inversion H; subst; auto].
  - rewrite IH. split; [intros H; constructor; assumption|intros H; inversion H; subst; assumption].
Qed.
Lemma shape_go_spec shapes s r : Forall (fun shp => (length shp <= 3)%nat) shapes ->
  (vshape_go shapes s = Ok r <-> exists i shp, nth_error shapes i = Some shp /\ (length s <= length shp)%nat /\ r = atleast (length shp) s /\ matches shp r /\
     forall j shp', (j < i)%nat -> nth_error shapes j = Some shp' -> ~ ((length s <= length shp')%nat /\ matches shp' (atleast (length shp') s))).
Proof.
  induction 1 as [|shp shapes H3 HF IH].
  - cbn. split; [discriminate|]. intros (i & ? & H & _). destruct i; discriminate.
  - cbn [vshape_go]. destruct (Nat.ltb_spec 3 (length shp)); [lia|].
    assert (Step : forall b : bool, (b = true <-> ((length s <= length shp)%nat /\ matches shp (atleast (length shp) s))) ->
      ((if b then Ok (atleast (length shp) s) else vshape_go shapes s) = Ok r <->
       exists i shp0, nth_error (shp :: shapes) i = Some shp0 /\ (length s <= length shp0)%nat /\ r = atleast (length shp0) s /\ matches shp0 r /\
       forall j shp', (j < i)%nat -> nth_error (shp :: shapes) j = Some shp' -> ~ ((length s <= length shp')%nat /\ matches shp' (atleast (length shp') s)))).
    { intros b Hb. destruct b.
      - destruct (proj1 Hb eq_refl) as [L M]. split.
        + intros [= <-]. exists O, shp. split; [reflexivity|]. split; [assumption|]. split; [reflexivity|]. split; [assumption|]. intros; lia.
        + intros ([|i] & q & E & _ & -> & _ & Hj); [cbn in E; injection E as <-; reflexivity|].
          exfalso. apply (Hj O shp); [lia|reflexivity|auto].
      - rewrite IH. split.
        + intros (i & q & E & L & R & M & Hj). exists (S i), q. split; [assumption|]. split; [assumption|]. split; [assumption|]. split; [assumption|].
          intros [|j] q' Hlt E'; [cbn in E'; injection E' as <-; intros HH; apply Hb in HH; discriminate|]. apply (Hj j q'); [lia|assumption].
        + intros ([|i] & q & E & L & R & M & Hj).
          * cbn in E. injection E as <-. subst r. assert (false = true) by (apply Hb; auto). discriminate.
          * exists i, q. split; [assumption|]. split; [assumption|]. split; [assumption|]. split; [assumption|].
            intros j q' Hlt E'. apply (Hj (S j) q'); [lia|assumption]. }
    destruct (Nat.ltb_spec (length shp) (length s)) as [L|L].
    + apply (Step false). split; [discriminate|]. lia.
    + apply Step. rewrite dims_ok_spec. split; [auto|tauto].
Qed.
Lemma atleast_size k s : size (atleast k s) = size s.
Proof. unfold atleast. destruct k as [|[|[|[|k]]]], s as [|a [|b [|c s]]]; cbn; try reflexivity; lia. Qed.
Lemma matches_length shp s : matches shp s -> length shp = length s.
Proof. induction 1; cbn; congruence. Qed.

(** ** Active cells *)
Lemma zmax_spec l mx : zmax l = Some mx -> forall z, In z l -> (z <= mx)%Z.
Proof.
  destruct l as [|x l]; [discriminate|]. cbn. intros [= <-].
  assert (G : forall l x, (x <= fold_left Z.max l x)%Z /\ forall z, In z l -> (z <= fold_left Z.max l x)%Z).
  { clear. induction l as [|y l IH]; intros x; cbn; [split; [lia|intros z []]|]. destruct (IH (Z.max x y)) as [A B]. split; [lia|].
    intros z [<-|Hz]; [lia|auto]. }
  destruct (G l x) as [A B]. intros z [<-|Hz]; auto.
Qed.
Lemma zmax_in l mx : zmax l = Some mx -> In mx l.
Proof.
  destruct l as [|x l]; [discriminate|]. cbn. intros [= <-].
  assert (G : forall l x, fold_left Z.max l x = x \/ In (fold_left Z.max l x) l).
  { clear. induction l as [|y l IH]; intros x; cbn; [auto|]. destruct (IH (Z.max x y)) as [->|H]; [|auto].
    destruct (Z.max_spec x y) as [[_ ->]|[_ ->]]; auto. }
  destruct (G l x) as [->|H]; auto.
Qed.
Lemma setb_length i b : length (setb i b) = length b.
Proof. revert i; induction b as [|x b IH]; intros [|i]; cbn; auto. Qed.
Lemma nth_setb i j b : (i < length b)%nat -> nth j (setb i b) false = if Nat.eqb i j then true else nth j b false.
Proof.
  revert i j; induction b as [|x b IH]; intros i j H; cbn in H; [lia|]. destruct i as [|i], j as [|j]; cbn; try reflexivity. apply IH. lia.
Qed.
Lemma ntrue_setb i b : (i < length b)%nat -> ntrue (setb i b) = if nth i b false then ntrue b else S (ntrue b).
Proof.
  revert i; induction b as [|x b IH]; intros i H; cbn in H; [lia|]. destruct i as [|i]; cbn; [destruct x; reflexivity|].
  rewrite IH by lia. destruct x, (nth i b false); reflexivity.
Qed.
Lemma ntrue_repeat n : ntrue (repeat false n) = O.
Proof. induction n; cbn; auto. Qed.
Lemma setall idx : forall b, Forall (fun i => (i < length b)%nat) idx ->
  let r := fold_left (fun b i => setb i b) idx b in
  length r = length b /\ (forall j, nth j r false = true <-> nth j b false = true \/ In j idx) /\ (ntrue r <= ntrue b + length idx)%nat /\
  (ntrue r = (ntrue b + length idx)%nat <-> NoDup idx /\ forall i, In i idx -> nth i b false = false).
Proof.
  induction idx as [|i idx IH]; intros b HF; cbn [fold_left].
  - split; [reflexivity|]. split; [intros j; cbn; tauto|]. split; [cbn; lia|]. cbn. split; [intros _; split; [constructor|intros i []]|intros _; lia].
  - inversion HF; subst. destruct (IH (setb i b)) as (A & B & C & D); [rewrite setb_length; assumption|].
    rewrite setb_length in A. rewrite ntrue_setb in C, D by assumption. split; [assumption|]. split; [|split].
    + intros j. rewrite B, nth_setb by assumption. destruct (Nat.eqb_spec i j) as [->|N]; cbn; intuition congruence.
    + cbn [length]. destruct (nth i b false); lia.
    + cbn [length]. destruct (nth i b false) eqn:Ei.
      * split; [intros H; lia|]. intros [_ H]. specialize (H i (or_introl eq_refl)). congruence.
      * replace (ntrue b + S (length idx))%nat with (S (ntrue b) + length idx)%nat by lia. rewrite D. split.
        -- intros [N H]. split.
           ++ constructor; [|assumption]. intros Hin. apply H in Hin. rewrite nth_setb, Nat.eqb_refl in Hin by assumption. discriminate.
           ++ intros k [<-|Hk]; [assumption|]. apply H in Hk as Hk'. rewrite nth_setb in Hk' by assumption. destruct (Nat.eqb i k); [discriminate|assumption].
        -- intros [N H]. inversion N; subst. split; [assumption|]. intros k Hk. rewrite nth_setb by assumption.
           destruct (Nat.eqb_spec i k); [subst; contradiction|]. apply H. right; assumption.
Qed.
Lemma mapM_norm_ok n l : Forall (fun z => (- Z.of_nat n <= z < Z.of_nat n)%Z) l ->
  mapM (norm_index n) l = Ok (map (fun z => Z.to_nat (cell_of n z)) l).
Proof.
  induction 1 as [|z l Hz HF IH]; cbn; [reflexivity|]. unfold norm_index at 1.
  destruct (Z.leb_spec (- Z.of_nat n) z), (Z.ltb_spec z (Z.of_nat n)); try lia. cbn [andb bind]. rewrite IH. reflexivity.
Qed.
Lemma mapM_norm_range n l idx : mapM (norm_index n) l = Ok idx -> Forall (fun z => (- Z.of_nat n <= z < Z.of_nat n)%Z) l.
Proof.
  revert idx; induction l as [|z l IH]; intros idx; cbn; [constructor|]. unfold norm_index at 1.
  destruct (Z.leb_spec (- Z.of_nat n) z), (Z.ltb_spec z (Z.of_nat n)); cbn [andb bind]; try discriminate.
  destruct (mapM (norm_index n) l); cbn [bind]; [|discriminate]. intros _. constructor; [lia|]. eapply IH; reflexivity.
Qed.
Lemma cell_of_range n z : (- Z.of_nat n <= z < Z.of_nat n)%Z -> (0 <= cell_of n z < Z.of_nat n)%Z.
Proof. unfold cell_of. destruct (Z.ltb_spec z 0); lia. Qed.
Lemma nodup_cells n l : Forall (fun z => (- Z.of_nat n <= z < Z.of_nat n)%Z) l ->
  (NoDup (map (fun z => Z.to_nat (cell_of n z)) l) <-> NoDup (map (cell_of n) l)).
Proof.
  induction 1 as [|z l Hz HF IH]; cbn; [split; constructor|]. rewrite !NoDup_cons_iff, IH.
  assert (E : In (Z.to_nat (cell_of n z)) (map (fun z => Z.to_nat (cell_of n z)) l) <-> In (cell_of n z) (map (cell_of n) l)).
  { rewrite !in_map_iff. split; intros (y & Hy & Hin); exists y; (split; [|assumption]).
    - rewrite Forall_forall in HF. apply HF in Hin. apply cell_of_range in Hin, Hz. lia.
    - congruence. }
  rewrite E. tauto.
Qed.
Lemma active_ints l n m : validate_active (Ints l) n = Ok m <->
  l <> [] /\ Forall (fun z => (- Z.of_nat n <= z < Z.of_nat n)%Z) l /\ NoDup (map (cell_of n) l) /\
  length m = n /\ forall i, (i < n)%nat -> (nth i m false = true <-> exists z, In z l /\ cell_of n z = Z.of_nat i).
Proof.
  assert (M : Forall (fun z => (- Z.of_nat n <= z < Z.of_nat n)%Z) l -> forall i, In i (map (fun z => Z.to_nat (cell_of n z)) l) <-> exists z, In z l /\ cell_of n z = Z.of_nat i).
  { intros HF i. rewrite in_map_iff. rewrite Forall_forall in HF. split.
    - intros (z & <- & Hz). exists z. split; [assumption|]. apply HF in Hz. apply cell_of_range in Hz. lia.
    - intros (z & Hz & E). exists z. split; [|assumption]. lia. }
  assert (F2 : Forall (fun z => (- Z.of_nat n <= z < Z.of_nat n)%Z) l -> Forall (fun i => (i < length (repeat false n))%nat) (map (fun z => Z.to_nat (cell_of n z)) l)).
  { intros HF. apply Forall_map. eapply Forall_impl; [|exact HF]. cbn. intros z Hz. rewrite repeat_length. apply cell_of_range in Hz. lia. }
  unfold validate_active. destruct (zmax l) as [mx|] eqn:Em; cbn [bind].
  2:{ split; [discriminate|]. intros (H & _). destruct l; [congruence|discriminate]. }
  assert (Hne : l <> []) by (intros ->; discriminate).
  destruct (Z.leb_spec (Z.of_nat n) mx) as [Hm|Hm]; cbn [bind].
  { split; [discriminate|]. intros (_ & HF & _). rewrite Forall_forall in HF. apply zmax_in in Em. apply HF in Em. lia. }
  assert (NF : forall j, nth j (repeat false n) false = false).
  { intros j. destruct (Nat.ltb_spec j n); [apply nth_repeat|apply nth_overflow; rewrite repeat_length; assumption]. }
  destruct (mapM (norm_index n) l) as [idx|e] eqn:Ei; cbn [bind].
  - assert (HF := mapM_norm_range _ _ _ Ei). rewrite mapM_norm_ok in Ei by assumption. injection Ei as <-.
    destruct (setall _ _ (F2 HF)) as (A & B & C & D). rewrite ntrue_repeat, map_length in *. rewrite repeat_length in A. cbn [Nat.add] in *.
    destruct (Nat.eqb_spec (ntrue (fold_left (fun b i => setb i b) (map (fun z => Z.to_nat (cell_of n z)) l) (repeat false n))) (length l)) as [E|E]; cbn [bind].
    + apply D in E as E'. destruct E' as [N _]. rewrite A, Nat.eqb_refl. split.
      * intros [= <-]. split; [assumption|]. split; [assumption|]. split; [apply nodup_cells in N; assumption|]. split; [assumption|].
        intros i Hi. rewrite B, M by assumption. rewrite NF. intuition discriminate.
      * intros (_ & _ & _ & Lm & Hm'). f_equal. apply (nth_ext _ _ false false); [congruence|]. intros i Hi. rewrite A in Hi.
        apply eq_true_iff_eq. rewrite Hm', B, M by assumption. rewrite NF. intuition discriminate.
    + split; [discriminate|]. intros (_ & _ & N & _). exfalso. apply E, D. split; [apply nodup_cells; assumption|]. intros; apply NF.
  - split; [discriminate|]. intros (_ & HF & _). rewrite mapM_norm_ok in Ei by assumption. discriminate.
Qed.
Lemma active_bools b n m : validate_active (Bools b) n = Ok m <-> length b = n /\ m = b.
Proof.
  unfold validate_active. cbn [bind]. destruct (Nat.eqb_spec (length b) n); split; intros H; try discriminate; try tauto.
  - injection H as <-. auto.
  - destruct H as [_ ->]. reflexivity.
Qed.
