(** Vocabulary for the UBC files of gravity and magnetic data. *)
From Verif Require Import Py Vec PfIO.
Local Open Scope R_scope.

(** What is asked of the printing of numbers: it keeps signs, prints zero for zero only,
    keeps inclinations in their range, and prints what it read back the same. *)
Record sound_printer (P : printer) : Prop := {
  exp_opp : forall x, p_exp P (- x) = - p_exp P x;
  exp_zero : forall x, p_exp P x = 0 <-> x = 0;
  exp_nonneg : forall x, 0 <= x -> 0 <= p_exp P x;
  exp_again : forall x, p_exp P (p_exp P x) = p_exp P x;
  fix2_range : forall x, -90 <= x <= 90 -> -90 <= p_fix2 P x <= 90;
  fix2_again : forall x, p_fix2 P (p_fix2 P x) = p_fix2 P x }.
(** A number, lists and tables after printing. *)
Definition printed (P : printer) (l : list num) : list num := map (nmap (p_exp P)) l.
Definition printed_table (P : printer) (t : list (list num)) : list (list num) := map (printed P) t.
Definition printed2 (P : printer) (x : num) : num := nmap (p_fix2 P) x.
Definition points (locs : list (list num)) : Prop := Forall (fun r => List.length r = 3%nat) locs.
Definition finite (l : list num) : Prop := Forall (fun x => x <> None) l.
Definition some_nonzero (l : list num) : Prop := exists x, In x l /\ x <> Some 0.
Definition all_zero (l : list num) : Prop := Forall (fun x => x = Some 0) l.
(** Data objects as the setters of data.py leave them. *)
Definition fits_data (n : nat) (l : option (list num)) : Prop := match l with Some l => List.length l = n | None => True end.
Definition sound_data (d : pdata) : Prop :=
  List.length (d_obs d) = nD (d_rxs d) /\ fits_data (nD (d_rxs d)) (d_rel d) /\ fits_data (nD (d_rxs d)) (d_floor d) /\ (d_rel d <> None \/ d_floor d <> None).
Definition one (locs : list (list num)) (comps : list string) : list receiver := [{| r_locs := locs; r_comps := comps |}].
(** The read object is the written one, printed. *)
Definition same_printed (P : printer) (d d' : pdata) (comps : list string) : Prop :=
  exists rx s, d_rxs d = [rx] /\ d_rxs d' = one (printed_table P (r_locs rx)) comps /\
    d_obs d' = printed P (d_obs d) /\ stdev d = Ok s /\ stdev d' = Ok (printed P s).
(** Blank lines. *)
Definition blank (l : line) : Prop := tokens l = [].
(** Concrete cases: exact printing, two stations. *)
Definition exactly : printer := {| p_fix2 := fun x => x; p_exp := fun x => x |}.
Definition stations : list (list num) := [[Some 1; Some 2; Some 3]; [Some 4; Some 5; Some 6]].
Definition case (fld : option (num * num * num)) (comps : list string) (obs std : list num) : pdata :=
  {| d_field := fld; d_rxs := one stations comps; d_obs := obs; d_rel := None; d_floor := Some std |}.
Definition north : option (num * num * num) := Some (Some 50000, Some 60, Some 15).
(** Two files that differ by blank lines only. *)
Inductive without_blanks : file -> file -> Prop :=
| wb_nil : without_blanks [] []
| wb_same l f f' : without_blanks f f' -> without_blanks (l :: f) (l :: f')
| wb_left l f f' : blank l -> without_blanks f f' -> without_blanks (l :: f) f'
| wb_right l f f' : blank l -> without_blanks f f' -> without_blanks f (l :: f').
