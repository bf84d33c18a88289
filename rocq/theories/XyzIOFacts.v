(** DC/IP data in columns: what is read. *)
From Verif Require Import Py Vec Abmn SpecAbmn AbmnFacts AbmnFacts2 XyzIO SpecXyzIO.
From Coq Require Import Permutation.
Local Open Scope R_scope.

Lemma mapM_F2 {A B} (f : A -> result B) : forall l l', mapM f l = Ok l' -> Forall2 (fun x y => f x = Ok y) l l'.
Proof.
  induction l as [|x l IH]; intros l' H; cbn in H; [injection H as <-; constructor|]. destruct (f x) as [y|] eqn:E; [|discriminate]. cbn in H. destruct (mapM f l) as [ys|]; [|discriminate]. cbn in H. injection H as <-.
  constructor; [exact E|apply IH; reflexivity].
Qed.
Lemma F2_mapM {A B} (f : A -> result B) l l' : Forall2 (fun x y => f x = Ok y) l l' -> mapM f l = Ok l'.
Proof. induction 1 as [|x y l l' H _ IH]; [reflexivity|]. cbn. rewrite H. cbn. rewrite IH. reflexivity. Qed.
Lemma index_spec h : forall l i, index_of h l = Ok i -> nth_error l i = Some h.
Proof.
  induction l as [|x l IH]; intros i H; cbn in H; [discriminate|]. destruct (String.eqb x h) eqn:E; [injection H as <-; apply String.eqb_eq in E; subst; reflexivity|].
  destruct (index_of h l) as [k|] eqn:K; [|discriminate]. cbn in H. injection H as <-. cbn. apply IH. reflexivity.
Qed.
Lemma index_nodup h : forall l i, NoDup l -> nth_error l i = Some h -> index_of h l = Ok i.
Proof.
  induction l as [|x l IH]; intros i N H; [destruct i; discriminate|]. inversion N as [|? ? Hx Nl]; subst. cbn. destruct i as [|i]; cbn in H.
  - injection H as ->. rewrite String.eqb_refl. reflexivity.
  - destruct (String.eqb x h) eqn:E; [apply String.eqb_eq in E; subst; exfalso; apply Hx; apply (nth_error_In _ _ H)|]. rewrite (IH i Nl H). reflexivity.
Qed.
Lemma cell_spec i r x : cell i r = Ok x <-> nth_error r i = Some x.
Proof. unfold cell. destruct (nth_error r i); split; congruence. Qed.
Lemma F2_nth {A B} (P : A -> B -> Prop) : forall l l' i x, Forall2 P l l' -> nth_error l i = Some x -> exists y, nth_error l' i = Some y /\ P x y.
Proof. induction l as [|a l IH]; intros l' i x F H; [destruct i; discriminate|]. inversion F; subst. destruct i as [|i]; cbn in *; [injection H as <-; eexists; split; [reflexivity|assumption]|apply (IH _ _ _ H4 H)]. Qed.
Lemma F2_nth_r {A B} (P : A -> B -> Prop) : forall l l' i y, Forall2 P l l' -> nth_error l' i = Some y -> exists x, nth_error l i = Some x /\ P x y.
Proof. induction l as [|a l IH]; intros l' i y F H; inversion F; subst; [destruct i; discriminate|]. destruct i as [|i]; cbn in *; [injection H as <-; eexists; split; [reflexivity|assumption]|apply (IH _ _ _ H4 H)]. Qed.
Lemma F2_trans {A B C} (P : A -> B -> Prop) (Q : B -> C -> Prop) (S : A -> C -> Prop) : (forall a b c, P a b -> Q b c -> S a c) -> forall l l' l'', Forall2 P l l' -> Forall2 Q l' l'' -> Forall2 S l l''.
Proof. intros H l l' l'' F. revert l''. induction F; intros l'' G; inversion G; subst; constructor; eauto. Qed.
Lemma F2_impl {A B} (P Q : A -> B -> Prop) : (forall a b, P a b -> Q a b) -> forall l l', Forall2 P l l' -> Forall2 Q l l'.
Proof. intros H l l' F. induction F; constructor; auto. Qed.

(** A row, restricted to the columns asked for. *)
Lemma select_entries heads req cols r v : mapM (fun h => index_of h heads) req = Ok cols -> select cols r = Ok v -> Forall2 (entry heads r) req v.
Proof.
  intros H1 H2. apply mapM_F2 in H1. unfold select in H2. apply mapM_F2 in H2. apply (F2_trans _ _ _ (fun h i x E1 E2 => ex_intro _ i (conj (index_spec _ _ _ E1) (proj1 (cell_spec _ _ _) E2))) _ _ _ H1 H2).
Qed.
Lemma place_spec surface cols v p : place surface cols v = Ok p -> exists w, select cols v = Ok w /\ p = w ++ (if surface then [9999] else []).
Proof. unfold place. destruct (select cols v) as [w|]; [|discriminate]. cbn. intros H. injection H as <-. exists w. split; [reflexivity|]. destruct surface; [reflexivity|symmetry; apply app_nil_r]. Qed.
Lemma split4 heads r ha hb hm hn rest v : Forall2 (entry heads r) (ha ++ hb ++ hm ++ hn ++ rest) v ->
  exists va vb vm vn w, v = va ++ vb ++ vm ++ vn ++ w /\ Forall2 (entry heads r) ha va /\ Forall2 (entry heads r) hb vb /\ Forall2 (entry heads r) hm vm /\ Forall2 (entry heads r) hn vn.
Proof.
  intros F. apply Forall2_app_inv_l in F. destruct F as (va & v1 & Fa & F & ->). apply Forall2_app_inv_l in F. destruct F as (vb & v2 & Fb & F & ->). apply Forall2_app_inv_l in F. destruct F as (vm & v3 & Fm & F & ->).
  apply Forall2_app_inv_l in F. destruct F as (vn & w & Fn & _ & ->). exists va, vb, vm, vn, w. repeat split; assumption.
Qed.
Lemma F2_len {A B} (P : A -> B -> Prop) l l' : Forall2 P l l' -> len l = len l'.
Proof. induction 1 as [|x y l l' _ _ IH]; [reflexivity|]. cbn. f_equal. exact IH. Qed.
Lemma quad_spec heads r ha hb hm hn rest v surface k q : (k = 3 \/ k = 2)%nat -> dims k ha -> dims k hb -> dims k hm -> dims k hn ->
  Forall2 (entry heads r) (ha ++ hb ++ hm ++ hn ++ rest) v -> row_quad surface (location_columns (4 * k)) v = Ok q -> row_of heads surface ha hb hm hn r q.
Proof.
  unfold dims. intros Hk La Lb Lm Ln F Q. apply split4 in F. destruct F as (va & vb & vm & vn & w & -> & Fa & Fb & Fm & Fn).
  pose proof (F2_len _ _ _ Fa) as Ma. pose proof (F2_len _ _ _ Fb) as Mb. pose proof (F2_len _ _ _ Fm) as Mm. pose proof (F2_len _ _ _ Fn) as Mn. rewrite La in Ma. rewrite Lb in Mb. rewrite Lm in Mm. rewrite Ln in Mn.
  destruct Hk as [K|K]; subst k.
  - destruct va as [|a1 [|a2 [|a3 [|]]]]; try discriminate. destruct vb as [|b1 [|b2 [|b3 [|]]]]; try discriminate. destruct vm as [|m1 [|m2 [|m3 [|]]]]; try discriminate. destruct vn as [|n1 [|n2 [|n3 [|]]]]; try discriminate.
    cbn in Q. injection Q as <-. unfold row_of, electrode. cbn [qa qb qm qn].
    split; [|split; [|split]]; [exists [a1; a2; a3]|exists [b1; b2; b3]|exists [m1; m2; m3]|exists [n1; n2; n3]]; (split; [assumption|destruct surface; reflexivity]).
  - destruct va as [|a1 [|a2 [|]]]; try discriminate. destruct vb as [|b1 [|b2 [|]]]; try discriminate. destruct vm as [|m1 [|m2 [|]]]; try discriminate. destruct vn as [|n1 [|n2 [|]]]; try discriminate.
    cbn in Q. injection Q as <-. unfold row_of, electrode. cbn [qa qb qm qn].
    split; [|split; [|split]]; [exists [a1; a2]|exists [b1; b2]|exists [m1; m2]|exists [n1; n2]]; (split; [assumption|destruct surface; reflexivity]).
Qed.
Lemma column_spec f req cols t out h i c : NoDup (x_heads f) -> mapM (fun h => index_of h (x_heads f)) req = Ok cols -> mapM (select cols) (x_rows f) = Ok t ->
  same_number (x_heads f) req h -> index_of h (x_heads f) = Ok i -> column_of t i out = Ok c -> sorted_column f out h c.
Proof.
  intros N Hc Ht (i' & E1 & E2) Hi Hcol. assert (i' = i) by (pose proof (index_nodup h _ _ N E1); congruence). subst i'. unfold column_of in Hcol. apply mapM_F2 in Hcol. apply mapM_F2 in Ht.
  unfold sorted_column. eapply F2_impl; [|exact Hcol]. intros j x H. cbn in H. destruct (nth_error t j) as [v|] eqn:Ev; [|discriminate]. destruct (F2_nth_r _ _ _ _ _ Ht Ev) as (r & Er & Sr). exists r. split; [exact Er|].
  pose proof (select_entries _ _ _ _ _ Hc Sr) as F. destruct (F2_nth _ _ _ _ _ F E2) as (y & Ey & En). apply cell_spec in H. assert (x = y) by congruence. subst y. exact En.
Qed.
(** What is read, when the columns have the same number in the file and in the request. *)
Lemma read_right f ha hb hm hn hd hu hx surface k s d u x : NoDup (x_heads f) -> (k = 3 \/ k = 2)%nat -> dims k ha -> dims k hb -> dims k hm -> dims k hn ->
  Forall (same_number (x_heads f) (request ha hb hm hn hd hu hx)) (asked hd hu hx) ->
  read_xyz f ha hb hm hn hd hu hx surface = Ok (s, d, u, x) ->
  exists rows out, Forall2 (row_of (x_heads f) surface ha hb hm hn) (x_rows f) rows /\ from_rows rows = Ok (s, out) /\
    match hd with Some h => exists c, d = Some c /\ sorted_column f out h c | None => d = None end /\
    match hu with Some h => exists c, u = Some c /\ sorted_column f out h c | None => u = None end /\
    match hx with Some l => exists cs, x = Some cs /\ Forall2 (fun h e => fst e = h /\ sorted_column f out h (snd e)) l cs | None => x = None end.
Proof.
  intros N Hk La Lb Lm Ln A H. unfold read_xyz in H. fold (request ha hb hm hn hd hu hx) in H.
  destruct (mapM (fun h => index_of h (x_heads f)) (request ha hb hm hn hd hu hx)) as [cols|] eqn:Ec; [|discriminate]. cbn [bind] in H. destruct (mapM (select cols) (x_rows f)) as [t|] eqn:Et; [|discriminate]. cbn [bind] in H.
  destruct (len t <=? 1)%nat; [discriminate|]. assert (Kk : (len (request ha hb hm hn hd hu hx) - (len (opt_list hd) + len (opt_list hu) + len (match hx with Some l => l | None => [] end)) = 4 * k)%nat).
  { unfold request. rewrite !app_length. unfold dims in *. lia. }
  rewrite Kk in H. match type of H with bind ?r _ = _ => destruct r as [rows|] eqn:Er; [|discriminate] end. cbn [bind] in H.
  destruct (from_rows rows) as [[s' out]|] eqn:Ef; [|discriminate]. cbn [bind] in H.
  assert (Col : forall h i c, In h (asked hd hu hx) -> index_of h (x_heads f) = Ok i -> column_of t i out = Ok c -> sorted_column f out h c).
  { intros h i c Hh Hi Hc. rewrite Forall_forall in A. apply (column_spec f _ cols t out h i c N Ec Et (A h Hh) Hi Hc). }
  match type of H with bind ?r _ = _ => destruct r as [d'|] eqn:Ed; [|discriminate] end. cbn [bind] in H. match type of H with bind ?r _ = _ => destruct r as [u'|] eqn:Eu; [|discriminate] end. cbn [bind] in H.
  match type of H with bind ?r _ = _ => destruct r as [x'|] eqn:Ex; [|discriminate] end. cbn [bind] in H. injection H as -> -> -> ->. exists rows, out. split; [|split; [exact Ef|split; [|split]]].
  - apply mapM_F2 in Et. apply mapM_F2 in Er. refine (F2_trans _ _ _ _ _ _ _ Et Er). intros r v q Hv Hq. apply (quad_spec (x_heads f) r ha hb hm hn (asked hd hu hx) v surface k q Hk La Lb Lm Ln); [|exact Hq]. apply (select_entries _ _ cols); assumption.
  - destruct hd as [h|]; [|injection Ed as <-; reflexivity]. destruct (index_of h (x_heads f)) as [i|] eqn:Ei; [|discriminate]. cbn in Ed. destruct (column_of t i out) as [c|] eqn:Eo; [|discriminate]. cbn in Ed. injection Ed as <-.
    exists c. split; [reflexivity|]. apply (Col h i c); try assumption. left. reflexivity.
  - destruct hu as [h|]; [|injection Eu as <-; reflexivity]. destruct (index_of h (x_heads f)) as [i|] eqn:Ei; [|discriminate]. cbn in Eu. destruct (column_of t i out) as [c|] eqn:Eo; [|discriminate]. cbn in Eu. injection Eu as <-.
    exists c. split; [reflexivity|]. apply (Col h i c); try assumption. unfold asked. apply in_or_app. right. left. reflexivity.
  - destruct hx as [l|]; [|injection Ex as <-; reflexivity]. match type of Ex with bind ?r _ = _ => destruct r as [cs|] eqn:Em; [|discriminate] end. cbn in Ex. injection Ex as <-. exists cs. split; [reflexivity|].
    apply mapM_F2 in Em. assert (I : incl l (asked hd hu (Some l))) by (intros h Hh; unfold asked; apply in_or_app; right; apply in_or_app; right; exact Hh). clear - Em I Col.
    set (hx := asked hd hu (Some l)) in *. clearbody hx. induction Em as [|h e l cs H _ IH]; [constructor|]. constructor; [|apply IH; intros z Hz; apply I; right; exact Hz].
    destruct (index_of h (x_heads f)) as [i|] eqn:Ei; [|discriminate]. cbn in H. destruct (column_of t i out) as [c|] eqn:Eo; [|discriminate]. cbn in H. injection H as <-. split; [reflexivity|]. apply (Col h i c); try assumption. apply I. left. reflexivity.
Qed.
(** One row. *)
Lemma read_single f ha hb hm hn hd hu hx surface r : x_rows f = [r] -> exists e, read_xyz f ha hb hm hn hd hu hx surface = Err e.
Proof.
  intros E. unfold read_xyz. destruct (mapM (fun h => index_of h (x_heads f)) _) as [cols|e]; [|exists e; reflexivity]. cbn [bind]. rewrite E. cbn [mapM]. destruct (select cols r) as [v|e]; [|exists e; reflexivity]. cbn. exists IndexError. reflexivity.
Qed.
