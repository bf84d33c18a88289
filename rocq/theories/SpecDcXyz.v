(** Vocabulary for column files of DC/IP data. *)
From Verif Require Import Py Vec Abmn SpecAbmn DcXyz.
From Coq Require Import String Permutation.
Local Open Scope R_scope.
Local Open Scope list_scope.

(** The number of a row that stands under a header. *)
Fixpoint under (h : string) (head : list string) (r : vec) : R :=
  match head, r with x :: head, v :: r => if String.eqb x h then v else under h head r | _, _ => 0 end.
Definition place (f : cfile) (surface : bool) (hs : list string) (r : vec) : vec := map (fun h => under h (f_head f) r) hs ++ if surface then [sky] else [].
Definition electrodes_of (f : cfile) (h : headers) (surface : bool) (r : vec) : quad :=
  {| qa := place f surface (h_a h) r; qb := place f surface (h_b h) r; qm := place f surface (h_m h) r; qn := place f surface (h_n h) r |}.
Definition column_of (f : cfile) (out : list nat) (h : string) : vec := map (fun j => under h (f_head f) (nth j (f_rows f) [])) out.
Definition full_file (f : cfile) : Prop := NoDup (f_head f) /\ Forall (fun r => List.length r = List.length (f_head f)) (f_rows f) /\ (2 <= List.length (f_rows f))%nat.
(** Two or three coordinates per electrode. *)
Definition coordinates (k : nat) (h : headers) : Prop := List.length (h_a h) = k /\ List.length (h_b h) = k /\ List.length (h_m h) = k /\ List.length (h_n h) = k /\ (k = 2 \/ k = 3)%nat.
(** What a reader of the file should get. *)
Definition read_right (f : cfile) (h : headers) (surface : bool) (x : xyz) (out : list nat) : Prop :=
  from_rows (map (electrodes_of f h surface) (f_rows f)) = Ok (x_survey x, out) /\
  x_obs x = option_map (column_of f out) (h_data h) /\ x_std x = option_map (column_of f out) (h_unc h) /\
  x_dict x = option_map (map (fun n => (n, column_of f out n))) (h_dict h).
Definition round_quad (P : R -> R) (q : quad) : quad := {| qa := map P (qa q); qb := map P (qb q); qm := map P (qm q); qn := map P (qn q) |}.
Definition quad_dim (k : nat) (q : quad) : Prop := List.length (qa q) = k /\ List.length (qb q) = k /\ List.length (qm q) = k /\ List.length (qn q) = k.
Definition standard (k : nat) (hd hu : option string) (dict : option (list string)) : headers :=
  if (k =? 2)%nat then {| h_a := ["XA"; "ZA"]; h_b := ["XB"; "ZB"]; h_m := ["XM"; "ZM"]; h_n := ["XN"; "ZN"]; h_data := hd; h_unc := hu; h_dict := dict |}%string
  else {| h_a := ["XA"; "YA"; "ZA"]; h_b := ["XB"; "YB"; "ZB"]; h_m := ["XM"; "YM"; "ZM"]; h_n := ["XN"; "YN"; "ZN"]; h_data := hd; h_unc := hu; h_dict := dict |}%string.
(** Every datum of a survey that was read belongs to the electrodes of a row. *)
Definition first_place (q : quad) : quad := {| qa := [nth 0 (qa q) 0; sky]; qb := [nth 0 (qb q) 0; sky]; qm := [nth 0 (qm q) 0; sky]; qn := [nth 0 (qn q) 0; sky] |}.
Definition picked (P : R -> R) (v : vec) (out : list nat) : vec := map (fun j => P (nth j v 0)) out.
Definition kept (g : quad -> quad) (s : survey) (x : xyz) (out : list nat) : Prop :=
  Permutation out (seq 0 (List.length (locations s))) /\ Forall2 recorded (locations (x_survey x)) (map (fun j => g (row (locations s) j)) out).
(** Positions along a line. *)
Definition line_heads (a b m n : string) (d : option string) : headers := {| h_a := [a]; h_b := [b]; h_m := [m]; h_n := [n]; h_data := d; h_unc := None; h_dict := None |}.
(** Concrete files. *)
Definition demo_heads : headers := standard 2 (Some "DATA"%string) (Some "UNC"%string) None.
Definition demo_file : cfile := {| f_head := head2 ++ ["DATA"; "UNC"]%string; f_rows := [[0; 0; 10; 0; 20; 0; 30; 0; 5; 1]; [0; 0; 10; 0; 30; 0; 40; 0; 6; 2]] |}.
Definition demo_xyz : survey := [SrcDipole [RxDipole [[20; 0]; [30; 0]] [[30; 0]; [40; 0]]] [0; 0] [10; 0]].
Definition first_heads : headers := standard 2 (Some "DATA"%string) None None.
Definition first_file : cfile := {| f_head := ("DATA"%string :: head2); f_rows := [[5; 0; 0; 10; 0; 20; 0; 30; 0]; [6; 0; 0; 10; 0; 30; 0; 40; 0]] |}.
Definition line_file : cfile := {| f_head := ["A"; "B"; "M"; "N"; "D"]%string; f_rows := [[0; 10; 20; 30; 5]; [0; 10; 20; 40; 6]] |}.
