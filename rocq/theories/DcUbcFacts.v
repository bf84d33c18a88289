(** UBC DC/IP files: from lines to blocks. *)
From Verif Require Import Py Vec DcUbc SpecDcUbc.
Local Open Scope R_scope.

Notation len := List.length.
Definition pn (P : R -> R) : num -> num := option_map P.
Lemma value_pr P x : value (pr P x) = pn P x.
Proof. reflexivity. Qed.
Lemma map_value_pr P l : map value (map (pr P) l) = map (pn P) l.
Proof. rewrite map_map. reflexivity. Qed.
Definition ends (r : rx) : list (loc * loc) := match r with PoleRx m => map (fun x => (x, x)) m | DipoleRx m n => combine m n end.
Definition all_ends (s : src) : list (loc * loc) := concat (map ends (receivers s)).
Definition row (e : nat) (p : loc * loc) : list num := firstn e (fst p) ++ firstn e (snd p).
Lemma zip2_combine {A B C} (f : A -> B -> C) : forall a b, zip2 f a b = map (fun p => f (fst p) (snd p)) (combine a b).
Proof. induction a as [|x a IH]; intros [|y b]; cbn; try reflexivity. now rewrite IH. Qed.
Lemma rx_rows_eq e r : rx_rows e r = map (row e) (ends r).
Proof. destruct r as [m|m n]; cbn; [now rewrite map_map|]. rewrite zip2_combine. reflexivity. Qed.
Lemma ends_len dim r : rx_ok dim r -> len (ends r) = rx_nD r.
Proof. destruct r as [m|m n]; cbn; [intros _; apply map_length|]. intros (_ & _ & L). rewrite combine_length. lia. Qed.
(** columns *)
Definition col (c : option (list num)) (count n : nat) (t : list (list num)) : list (list num) := match c with Some d => snoc_each t (firstn n (skipn count d)) | None => t end.
Definition col_ok (c : option (list num)) (k : nat) : Prop := match c with Some d => len d = k | None => True end.
Lemma zip2_app {A B C} (f : A -> B -> C) : forall a b a' b', len a = len b -> zip2 f (a ++ a') (b ++ b') = zip2 f a b ++ zip2 f a' b'.
Proof. induction a as [|x a IH]; intros [|y b] a' b' L; try discriminate; cbn; [reflexivity|]. f_equal. apply IH. cbn in L. lia. Qed.
Lemma zip2_len {A B C} (f : A -> B -> C) : forall a b, len a = len b -> len (zip2 f a b) = len a.
Proof. induction a as [|x a IH]; intros [|y b] L; try discriminate; cbn; [reflexivity|]. f_equal. apply IH. cbn in L. lia. Qed.
Lemma firstn_add {A} a b (l : list A) : firstn (a + b) l = firstn a l ++ firstn b (skipn a l).
Proof. revert l. induction a as [|a IH]; intros l; [reflexivity|]. destruct l; cbn; [now rewrite firstn_nil|]. f_equal. apply IH. Qed.
Lemma skipn_skipn' {A} a b (l : list A) : skipn a (skipn b l) = skipn (b + a) l.
Proof. revert l. induction b as [|b IH]; intros l; [reflexivity|]. destruct l; cbn; [apply skipn_nil|apply IH]. Qed.
Lemma slice_len {A} (d : list A) count n k : len d = k -> (count + n <= k)%nat -> len (firstn n (skipn count d)) = n.
Proof. intros L H. rewrite firstn_length, skipn_length. lia. Qed.
Lemma col_app c k count n1 n2 t1 t2 : col_ok c k -> len t1 = n1 -> len t2 = n2 -> (count + n1 + n2 <= k)%nat -> col c count (n1 + n2) (t1 ++ t2) = col c count n1 t1 ++ col c (count + n1) n2 t2.
Proof.
  intros Ok L1 L2 H. destruct c as [d|]; [|reflexivity]. cbn in *. unfold snoc_each. rewrite firstn_add, skipn_skipn'. rewrite zip2_app; [reflexivity|]. rewrite L1, (slice_len d count n1 k); [reflexivity|exact Ok|lia].
Qed.
Lemma col_len c k count n t : col_ok c k -> len t = n -> (count + n <= k)%nat -> len (col c count n t) = n.
Proof. intros Ok L H. destruct c as [d|]; [|exact L]. cbn in *. unfold snoc_each. rewrite zip2_len; [exact L|]. rewrite L, (slice_len d count n k); [reflexivity|exact Ok|exact H]. Qed.
Definition table (e : nat) (obs std : option (list num)) (count : nat) (ps : list (loc * loc)) : list (list num) := col std count (len ps) (col obs count (len ps) (map (row e) ps)).
Lemma table_app e obs std k count p1 p2 : col_ok obs k -> col_ok std k -> (count + len p1 + len p2 <= k)%nat -> table e obs std count (p1 ++ p2) = table e obs std count p1 ++ table e obs std (count + len p1) p2.
Proof.
  intros O S H. unfold table. rewrite app_length, map_app. rewrite (col_app obs k) by (rewrite ?map_length; try assumption; lia).
  rewrite (col_app std k); [reflexivity|exact S| | |exact H]; apply (col_len obs k); rewrite ?map_length; try assumption; try reflexivity; lia.
Qed.
Lemma table_len e obs std k count ps : col_ok obs k -> col_ok std k -> (count + len ps <= k)%nat -> len (table e obs std count ps) = len ps.
Proof. intros O S H. unfold table. apply (col_len std k); [exact S| |exact H]. apply (col_len obs k); [exact O|apply map_length|exact H]. Qed.
Definition numline (P : R -> R) (l : list num) : line := Nums (map (pr P) l).
Lemma kept_rows P (t : list (list num)) : Forall (fun r => r <> []) t -> filter kept (map (fun l => Nums (map (pr P) l)) t) = map (numline P) t.
Proof. induction 1 as [|r t N F IH]; [reflexivity|]. cbn. destruct r; [contradiction|]. cbn. now rewrite IH. Qed.
Lemma snoc_each_ne t c : Forall (fun r => r <> []) (snoc_each t c).
Proof. unfold snoc_each. revert c. induction t as [|r t IH]; intros [|x c]; cbn; constructor; [destruct r; discriminate|apply IH]. Qed.
Lemma row_ne dim e p : (0 < e <= dim)%nat -> located dim (fst p) -> row e p <> [].
Proof. intros E [L _]. unfold row. destruct (fst p) as [|x l]; [cbn in L; lia|]. destruct e; [lia|]. discriminate. Qed.
Lemma table_ne dim e obs std count ps : (0 < e <= dim)%nat -> Forall (fun p => located dim (fst p)) ps -> Forall (fun r => r <> []) (table e obs std count ps).
Proof.
  intros E F. unfold table, col. destruct std; [apply snoc_each_ne|]. destruct obs; [apply snoc_each_ne|]. induction F; constructor; [apply (row_ne dim); assumption|assumption].
Qed.
Lemma rx_ends_ok dim r : rx_ok dim r -> Forall (fun p => located dim (fst p) /\ located dim (snd p)) (ends r).
Proof.
  destruct r as [m|m n]; cbn.
  - intros F. apply Forall_map. induction F; constructor; auto.
  - intros (F1 & F2 & L). revert n F2 L. induction F1; intros [|y n] F2 L; cbn; try constructor; try discriminate; inversion F2; subst; cbn in *; auto.
Qed.
Lemma src_ends_ok dim s : Forall (rx_ok dim) (receivers s) -> Forall (fun p => located dim (fst p) /\ located dim (snd p)) (all_ends s) /\ len (all_ends s) = src_nD s.
Proof.
  unfold all_ends, src_nD. induction 1 as [|r l R F [IH1 IH2]]; cbn; [split; [constructor|reflexivity]|]. split; [apply Forall_app; split; [apply rx_ends_ok; exact R|exact IH1]|]. rewrite app_length, (ends_len dim r R), IH2. reflexivity.
Qed.
Lemma rxs_lines_kept P dim e obs std k : (0 < e <= dim)%nat -> col_ok obs k -> col_ok std k -> forall rs count, Forall (rx_ok dim) rs -> (count + len (concat (map ends rs)) <= k)%nat ->
  filter kept (rxs_lines P e obs std count rs) = map (numline P) (table e obs std count (concat (map ends rs))).
Proof.
  intros E O S. induction rs as [|r rs IH]; intros count F H.
  - cbn. unfold table, col. destruct std, obs; reflexivity.
  - inversion F as [|? ? Fr Frs]; subst. cbn [rxs_lines map concat]. cbn [map concat] in H. rewrite app_length in H. rewrite filter_app, (table_app e obs std k) by (try assumption; lia). rewrite map_app. f_equal.
    + unfold rx_lines. rewrite filter_app. cbn [filter kept]. rewrite app_nil_r, rx_rows_eq, <- (ends_len dim r Fr).
      change (filter kept (map (fun l => Nums (map (pr P) l)) (table e obs std count (ends r))) = map (numline P) (table e obs std count (ends r))). apply kept_rows.
      apply (table_ne dim e); [exact E|]. apply Forall_impl with (2 := rx_ends_ok dim r Fr). intros p [Q _]. exact Q.
    + rewrite <- (ends_len dim r Fr). apply IH; [exact Frs|lia].
Qed.
(** the two ends of a source *)
Definition tx_ends (s : src) : loc * loc := match s with PoleSrc a _ => (a, a) | DipoleSrc a b _ => (a, b) end.
Definition tx_toks (P : R -> R) (e : nat) (s : src) : list tok := map (pr P) (row e (tx_ends s)) ++ [TInt (src_nD s)].
Lemma tx_line_eq P e s : tx_line P e s = Nums (tx_toks P e s).
Proof. destruct s; reflexivity. Qed.
Fixpoint blocks (P : R -> R) (e : nat) (obs std : option (list num)) (count : nat) (ss : list src) : list line :=
  match ss with [] => [] | s :: ss => Nums (tx_toks P e s) :: map (numline P) (table e obs std count (all_ends s)) ++ blocks P e obs std (count + src_nD s) ss end.
Lemma src_lines_kept P dim e obs std k : (0 < e <= dim)%nat -> col_ok obs k -> col_ok std k -> forall ss count, Forall (src_ok dim) ss -> (count + nD ss <= k)%nat -> filter kept (src_lines P e obs std count ss) = blocks P e obs std count ss.
Proof.
  intros E O S. induction ss as [|s ss IH]; intros count F H; [reflexivity|]. inversion F as [|? ? Fs Fss]; subst. destruct Fs as (F1 & F2 & F3). cbn [src_lines blocks]. rewrite tx_line_eq. unfold nD in H. cbn [map list_sum fold_right] in H. fold (list_sum (map src_nD ss)) in H. fold (nD ss) in H.
  assert (Q : kept (Nums (tx_toks P e s)) = true) by (unfold tx_toks; destruct (map (pr P) (row e (tx_ends s))); reflexivity). cbn [filter]. rewrite Q. f_equal. rewrite filter_app. f_equal.
  - apply (rxs_lines_kept P dim e obs std k E O S); [exact F2|]. fold (all_ends s). rewrite (proj2 (src_ends_ok dim s F2)). lia.
  - apply IH; [exact Fss|lia].
Qed.

(** ** Reading a block *)
Definition width (surface : bool) (dim : nat) : nat := if surface then dim - 1 else dim.
Definition looks (surface : bool) (dim : nat) (P : R -> R) (p : loc * loc) : bool :=
  forallb (fun q => close (fst q) (snd q)) (combine (map (pn P) (firstn (width surface dim) (fst p))) (map (pn P) (firstn (width surface dim) (snd p)))).
Definition lone (surface : bool) (dim : nat) (P : R -> R) (x : loc) : loc := if surface && negb (dim =? 2)%nat then map (pn P) (firstn (dim - 1) x) else lifted surface dim P x.
Definition out_row (surface : bool) (dim : nat) (P : R -> R) (p : loc * loc) : list num :=
  if looks surface dim P p then lone surface dim P (fst p) else lifted surface dim P (fst p) ++ lifted surface dim P (snd p).
Lemma firstn_row {A} (e : nat) (x y z : list A) : len x = e -> firstn e (x ++ y ++ z) = x.
Proof. intros <-. rewrite firstn_app, Nat.sub_diag, firstn_all. cbn. apply app_nil_r. Qed.
Lemma skipn_row {A} (e : nat) (x y : list A) : len x = e -> skipn e (x ++ y) = y.
Proof. intros <-. rewrite skipn_app, Nat.sub_diag, skipn_all. reflexivity. Qed.
Lemma firstn_all' {A} (e : nat) (x : list A) : len x = e -> firstn e x = x.
Proof. intros <-. apply firstn_all. Qed.
Lemma width_le surface dim : (width surface dim <= dim)%nat.
Proof. unfold width. destruct surface; lia. Qed.
Lemma part_len surface dim P x : located dim x -> len (map (pn P) (firstn (width surface dim) x)) = width surface dim.
Proof. intros [L _]. rewrite map_length, firstn_length. pose proof (width_le surface dim). lia. Qed.
Lemma lifted_len surface dim P x : (2 <= dim)%nat -> located dim x -> len (lifted surface dim P x) = dim.
Proof. intros D [L _]. unfold lifted, printed. destruct surface; [rewrite app_length, map_length, firstn_length; cbn; lia|rewrite map_length; exact L]. Qed.
Lemma rx_row_eq surface dim P p extra : located dim (fst p) -> located dim (snd p) -> (2 <= dim)%nat ->
  rx_row dim surface (map (pn P) (row (width surface dim) p) ++ extra) = Ok (looks surface dim P p, out_row surface dim P p).
Proof.
  intros L1 L2 D. unfold rx_row, row. rewrite map_app, <- app_assoc. set (x := map (pn P) (firstn (width surface dim) (fst p))). set (y := map (pn P) (firstn (width surface dim) (snd p))).
  assert (Lx : len x = width surface dim) by (apply part_len; exact L1). assert (Ly : len y = width surface dim) by (apply part_len; exact L2).
  unfold out_row, looks. fold x y. unfold width in *. destruct surface; cbn [width andb].
  - rewrite (firstn_row (dim - 1) x), (skipn_row (dim - 1) x) by exact Lx. rewrite <- (app_nil_l extra). replace (firstn (dim - 1) (y ++ [] ++ extra)) with y by (symmetry; apply firstn_row; exact Ly). unfold allclose. rewrite Lx, Ly, Nat.eqb_refl. cbn [bind]. f_equal. f_equal. destruct (forallb _ _).
    + unfold lone. cbn [andb]. destruct (dim =? 2)%nat; cbn [negb]; [unfold lifted, printed; reflexivity|reflexivity].
    + unfold lifted, printed. fold (pn P). rewrite <- app_assoc. reflexivity.
  - rewrite (firstn_row dim x), (skipn_row dim x) by exact Lx. rewrite <- (app_nil_l extra) at 1. replace (firstn dim (y ++ [] ++ extra)) with y by (symmetry; apply firstn_row; exact Ly). unfold allclose. rewrite Lx, Ly, Nat.eqb_refl. cbn [bind]. f_equal. f_equal.
    assert (X : x = printed P (fst p)) by (unfold x, printed; rewrite firstn_all' by apply L1; reflexivity). assert (Y : y = printed P (snd p)) by (unfold y, printed; rewrite firstn_all' by apply L2; reflexivity).
    destruct (forallb _ _).
    + unfold lone, lifted. cbn. exact X.
    + unfold lifted. rewrite <- X, <- Y. replace (2 * dim)%nat with (dim + dim)%nat by lia. rewrite firstn_add, firstn_row, skipn_row by exact Lx. f_equal. rewrite <- (app_nil_l extra). apply firstn_row. exact Ly.
Qed.
