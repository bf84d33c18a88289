(** Vocabulary for DC/IP data in columns. *)
From Verif Require Import Py Vec Abmn SpecAbmn XyzIO.
Local Open Scope R_scope.

(** Row [r] has value [x] under header [h]. *)
Definition entry (heads : list string) (r : vec) (h : string) (x : R) : Prop := exists i, nth_error heads i = Some h /\ nth_error r i = Some x.
(** The place of an electrode given by its headers; surface data get elevation 9999. *)
Definition electrode (heads : list string) (surface : bool) (r : vec) (hs : list string) (p : vec) : Prop :=
  exists v, Forall2 (entry heads r) hs v /\ p = v ++ (if surface then [9999] else []).
Definition row_of (heads : list string) (surface : bool) (ha hb hm hn : list string) (r : vec) (q : quad) : Prop :=
  electrode heads surface r ha (qa q) /\ electrode heads surface r hb (qb q) /\ electrode heads surface r hm (qm q) /\ electrode heads surface r hn (qn q).
(** Column [h] of the file, in the order [out]. *)
Definition sorted_column (f : xfile) (out : list nat) (h : string) (c : vec) : Prop :=
  Forall2 (fun j x => exists r, nth_error (x_rows f) j = Some r /\ entry (x_heads f) r h x) out c.
(** The column has the same number in the file as among the columns asked for. *)
Definition same_number (heads request : list string) (h : string) : Prop := exists i, nth_error heads i = Some h /\ nth_error request i = Some h.
Definition request (ha hb hm hn : list string) (hd hu : option string) (hx : option (list string)) : list string :=
  ha ++ hb ++ hm ++ hn ++ opt_list hd ++ opt_list hu ++ match hx with Some l => l | None => [] end.
Definition asked (hd hu : option string) (hx : option (list string)) : list string := opt_list hd ++ opt_list hu ++ match hx with Some l => l | None => [] end.
Definition dims (k : nat) (l : list string) : Prop := List.length l = k.
Definition printed_quad (pr : R -> R) (q : quad) : quad := {| qa := map pr (qa q); qb := map pr (qb q); qm := map pr (qm q); qn := map pr (qn q) |}.
Definition quad_dim (k : nat) (q : quad) : Prop := List.length (qa q) = k /\ List.length (qb q) = k /\ List.length (qm q) = k /\ List.length (qn q) = k.
(** Values in an order. *)
Definition sorted (pr : R -> R) (out : list nat) (c : vec) : vec := map (fun j => pr (nth j c 0)) out.
(** A file with a column before the electrodes. *)
Definition late : xfile := {| x_heads := ["V"; "XA"; "ZA"; "XB"; "ZB"; "XM"; "ZM"; "XN"; "ZN"]%string;
  x_rows := [[100; 1; 0; 2; 0; 3; 0; 4; 0]; [200; 11; 0; 12; 0; 13; 0; 14; 0]] |}.
Definition pair2 (x z : string) : list string := [x; z].
(** Columns and headers written after the electrodes, and the headers of the electrodes. *)
Definition col {A} (h : option string) (c : A) : list A := match h with Some _ => [c] | None => [] end.
Definition columns (o : ddata) (hd hu : option string) (extra : list (string * vec)) : list vec := col hd (dd_obs o) ++ col hu (dd_std o) ++ map snd extra.
Definition names (hd hu : option string) (extra : list (string * vec)) : list string := opt_list hd ++ opt_list hu ++ map fst extra.
Definition std_heads (k : nat) : list string := if (k =? 2)%nat then heads2 else heads3.
Definition std_part (k i : nat) : list string := firstn k (skipn (i * k) (std_heads k)).
Definition two_rows : survey := [SrcDipole [RxDipole [[3; 0]; [4; 0]] [[4; 0]; [5; 0]]] [1; 0] [2; 0]].
Definition two_data : ddata := {| dd_survey := two_rows; dd_obs := [7; 8]; dd_std := [1; 2] |}.
