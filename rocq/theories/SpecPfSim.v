(** What a user expects of the integral gravity and magnetic simulations: the answers
    are those of the survey, magnetization and model of the moment. *)
From Verif Require Import PfSim.
Local Open Scope R_scope.

Section Spec.
Context {Cmp : Type}.
Variables (e : env Cmp) (eng : engine) (amp : bool) (k : nat) (s : list (list Cmp * list pt)).

Definition matrix : mat := by_location (e_rows e eng k) s.
(** Length of each vector (x, y, z) of a list holding them one after the other. *)
Definition amplitudes (v : vec) : vec :=
  map (fun i => sqrt (nth (3 * i) v 0 * nth (3 * i) v 0 + nth (3 * i + 1) v 0 * nth (3 * i + 1) v 0 + nth (3 * i + 2) v 0 * nth (3 * i + 2) v 0))
    (seq 0 (length v / 3)).
Definition predicted (m : vec) : vec :=
  let d := mv matrix (e_phys e m) in if amp then amplitudes d else d.
(** Derivative of the data with respect to the physical property: for amplitudes the
    rows of the three components weighted with the unit vector. *)
Definition data_rows (m : vec) : mat :=
  if amp then
    let d := mv matrix (e_phys e m) in
    map (fun i => let c j := nth (3 * i + j) d 0 / nth i (amplitudes d) 0 in
         let r j := nth (3 * i + j) matrix [] in
         vadd (vadd (vscale (c 0%nat) (r 0%nat)) (vscale (c 1%nat) (r 1%nat))) (vscale (c 2%nat) (r 2%nat)))
      (seq 0 (length d / 3))
  else matrix.
Definition sensitivity (m : vec) : mat := map (mtv (e_nP e) (e_physJ e m)) (data_rows m).
Definition expected (o : op Cmp) : result out :=
  match o with
  | OFields m => Ok (OutV (predicted (snd m)))
  | OJvec m v => Ok (OutV (mv (sensitivity (snd m)) v))
  | OJtvec m v => Ok (OutV (mtv (e_nP e) (sensitivity (snd m)) v))
  | OGetJ m => if amp then Err NotImplementedError else Ok (OutM (sensitivity (snd m)))
  | ODiag m W => Ok (OutV (weighted_diagonal (e_nP e) (sensitivity (snd m))
      (match W with Some d => map (fun x => x * x) d | None => repeat 1 (survey_nD s) end)))
  | _ => Ok OutNone
  end.

(** Sizes fit. *)
Definition env_ok : Prop :=
  (forall c l, length (e_rows e eng k c l) = e_nC e) /\
  (forall m, length m = e_nP e -> length (e_phys e m) = e_nC e /\ is_mat (e_nC e) (e_nP e) (e_physJ e m)) /\
  (amp = true -> exists n, survey_nD s = (3 * n)%nat).
Definition n_data : nat := if amp then (survey_nD s / 3)%nat else survey_nD s.
(** At most one nonzero entry in each column (no parameter feeds two cells). *)
Definition one_per_column (J : mat) : Prop :=
  forall c i j, nth c (nth i J []) 0 <> 0 -> nth c (nth j J []) 0 <> 0 -> i = j.
Definition no_zero_amplitude (m : vec) : Prop := amp = true -> Forall (fun a => a <> 0) (predicted m).
(** The questions a user may ask. *)
Definition fits (sto : store) (o : op Cmp) : Prop :=
  match o with
  | OFields m => length (snd m) = e_nP e
  | OJvec m v => (eng, sto) <> (Geoana, ForwardOnly) /\ length (snd m) = e_nP e /\ length v = e_nP e /\ no_zero_amplitude (snd m)
  | OJtvec m v => (eng, sto) <> (Geoana, ForwardOnly) /\ length (snd m) = e_nP e /\ length v = n_data /\ no_zero_amplitude (snd m)
  | OGetJ m => (eng, sto) <> (Geoana, ForwardOnly) /\ length (snd m) = e_nP e
  | ODiag m W => (eng, sto) <> (Geoana, ForwardOnly) /\ length (snd m) = e_nP e /\ no_zero_amplitude (snd m) /\ one_per_column (e_physJ e (snd m)) /\
      (match W with Some d => length d = n_data | None => amp = false end) /\
      (sto = ForwardOnly -> amp = false /\ (forall r, In r s -> fst r <> []) /\ (match W with Some d => exists a, d = repeat a (survey_nD s) | None => True end))
  | _ => False
  end.
Definition model_of (o : op Cmp) : option mobj :=
  match o with OFields m | OJvec m _ | OJtvec m _ | OGetJ m | ODiag m _ => Some m | _ => None end.
(** Two models of a history are equal or neither the same array nor close. *)
Definition apart (a b : mobj) : Prop := snd a = snd b \/ (fst a <> fst b /\ allclose (snd a) (snd b) = Ok false).
Definition well_separated (ops : list (op Cmp)) : Prop :=
  forall o o' a b, In o ops -> In o' ops -> model_of o = Some a -> model_of o' = Some b -> apart a b.
End Spec.
(** The simulation at the end of a history. *)
Definition at_end {Cmp} (e : env Cmp) (st : sim Cmp) (ops : list (op Cmp)) : sim Cmp := fold_left (fun st o => fst (step e st o)) ops st.

(** Small simulations for the examples.  One cell, one component, sensitive to the
    magnetization number and to the location; and two cells with the components of a vector. *)
Definition one_cell : env unit :=
  mkenv (fun _ k _ l => [1 + INR k + px l]) 1 (fun m => m) (fun _ => [[1]]) 1.
Definition at_origin : list (list unit * list pt) := [([tt], [origin])].
Definition at_east : list (list unit * list pt) := [([tt], [east])].
Definition two_cell : env nat :=
  mkenv (fun _ _ c _ => match c with O => [1; 0] | S O => [0; 1] | _ => [0; 0] end) 2 (fun m => m) (fun _ => [[1; 0]; [0; 1]]) 2.
Definition vector_survey : list (list nat * list pt) := [([0%nat; 1%nat; 2%nat], [origin])].
(** One parameter for two cells. *)
Definition spread_cell : env nat :=
  mkenv (fun _ _ _ _ => [1; 1]) 2 (fun m => [nth 0 m 0; nth 0 m 0]) (fun _ => [[1]; [1]]) 1.
Definition nano : R := / 1000000000.
Definition three_questions : list (op nat) := [OFields (0%nat, [3; 4]); OJvec (1%nat, [1; 0]) [1; 0]; ODiag (2%nat, [0; 1]) (Some [2])].
