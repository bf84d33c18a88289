(** C71: UBC files of gravity, gravity gradient and magnetic data. *)
From Verif Require Import Py Vec PfIO SpecPfIO PfIOFacts PfIOFacts2 PfIOFacts3.
Local Open Scope R_scope.

(** Vertical gravity written and read back: the locations, the data and the standard
    deviations are the printed ones. *)
Theorem C71_gravity_round_trip_partial : forall P d locs, sound_printer P -> sound_data d -> points locs -> finite (d_obs d) -> some_nonzero (d_obs d) ->
  d_rxs d = one locs ["gz"%string] ->
  exists f d', write_grav P d = Ok f /\ read_grav f = Returns d' /\ d_field d' = None /\ same_printed P d d' ["gz"%string].
Proof. exact grav_round. Qed.
Print Assumptions C71_gravity_round_trip_partial.
Example C71_gravity_case : let d := case None ["gz"%string] [Some 1; Some (-2)] [Some 3; Some 4] in
  sound_printer exactly /\ sound_data d /\ points stations /\ finite (d_obs d) /\ some_nonzero (d_obs d) /\ d_rxs d = one stations ["gz"%string].
Proof. split; [exact exactly_sound|]. split; [apply case_sound; reflexivity|]. split; [exact stations_points|]. split; [apply (finite_some [1; -2])|]. split; [apply first_nonzero; lra|reflexivity]. Qed.

(** Total field data: the inducing field too. *)
Theorem C71_magnetic_round_trip_partial : forall P d locs, sound_printer P -> sound_data d -> points locs -> finite (d_obs d) -> some_nonzero (d_obs d) ->
  forall amp inc dec, d_rxs d = one locs ["tmi"%string] -> d_field d = Some (amp, Some inc, dec) -> -90 <= inc <= 90 ->
  exists f d', write_mag P d = Ok f /\ read_mag f = Returns d' /\
    d_field d' = Some (printed2 P amp, printed2 P (Some inc), printed2 P dec) /\ same_printed P d d' ["tmi"%string].
Proof. exact mag_round. Qed.
Print Assumptions C71_magnetic_round_trip_partial.
Example C71_magnetic_case : let d := case north ["tmi"%string] [Some 1; Some (-2)] [Some 3; Some 4] in
  sound_data d /\ finite (d_obs d) /\ some_nonzero (d_obs d) /\ d_rxs d = one stations ["tmi"%string] /\ d_field d = Some (Some 50000, Some 60, Some 15) /\ -90 <= 60 <= 90.
Proof. split; [apply case_sound; reflexivity|]. split; [apply (finite_some [1; -2])|]. split; [apply first_nonzero; lra|]. split; [reflexivity|]. split; [reflexivity|lra]. Qed.

(** Gradient data with any list of gradient components. *)
Theorem C71_gradient_round_trip_partial : forall P d locs comps, sound_printer P -> sound_data d -> points locs -> finite (d_obs d) -> some_nonzero (d_obs d) ->
  Forall (fun c => In c ["gyy"; "gxy"; "gyz"; "gxx"; "gxz"; "gzz"; "guv"]%string) comps -> d_rxs d = one locs comps ->
  exists f d', snd (write_gg P d) = Ok f /\ read_gg f = Ok d' /\ d_field d' = None /\ same_printed P d d' comps.
Proof. exact gg_round. Qed.
Print Assumptions C71_gradient_round_trip_partial.
Example C71_gradient_case : let d := case None ["gxz"; "gyy"]%string [Some 1; Some (-2); Some 5; Some 0] [Some 3; Some 4; Some 5; Some 6] in
  sound_data d /\ finite (d_obs d) /\ some_nonzero (d_obs d) /\ d_rxs d = one stations ["gxz"; "gyy"]%string.
Proof. split; [apply case2_sound; reflexivity|]. split; [apply (finite_some [1; -2; 5; 0])|]. split; [apply first_nonzero; lra|reflexivity]. Qed.

(** What was read, written again, is the same file. *)
Theorem C71_gravity_same_file : forall P d d' locs comps comps', sound_printer P -> d_rxs d = one locs comps' -> List.length comps = List.length comps' ->
  same_printed P d d' comps -> write_grav P d' = write_grav P d.
Proof. exact grav_again. Qed.
Print Assumptions C71_gravity_same_file.
Theorem C71_magnetic_same_file : forall P d d' locs comps comps' amp inc dec, sound_printer P -> d_rxs d = one locs comps' -> List.length comps = List.length comps' ->
  d_field d = Some (amp, inc, dec) -> d_field d' = Some (printed2 P amp, printed2 P inc, printed2 P dec) -> same_printed P d d' comps -> write_mag P d' = write_mag P d.
Proof. exact mag_again. Qed.
Print Assumptions C71_magnetic_same_file.
Theorem C71_gradient_same_file : forall P d d' locs comps, sound_printer P -> d_rxs d = one locs comps -> same_printed P d d' comps -> snd (write_gg P d') = snd (write_gg P d).
Proof. exact gg_again. Qed.
Print Assumptions C71_gradient_same_file.
Example C71_same_file_case : let d := case None ["gz"%string] [Some 1; Some (-2)] [Some 3; Some 4] in exists d', same_printed exactly d d' ["gz"%string].
Proof.
  destruct C71_gravity_case as (A & B & C & D & E & F). destruct (C71_gravity_round_trip_partial exactly _ stations A B C D E F) as (f & d' & _ & _ & _ & S). exists d'. exact S.
Qed.

(** Blank lines among the rows of gravity and magnetic files do not matter. *)
Theorem C71_gravity_blank_lines : forall l f f', without_blanks f f' -> read_grav (l :: f) = read_grav (l :: f').
Proof. exact grav_blanks. Qed.
Print Assumptions C71_gravity_blank_lines.
Theorem C71_magnetic_blank_lines : forall l1 l2 l3 f f' n, int_of (tokens l3) = Ok (S n) -> without_blanks f f' -> read_mag (l1 :: l2 :: l3 :: f) = read_mag (l1 :: l2 :: l3 :: f').
Proof. exact mag_blanks. Qed.
Print Assumptions C71_magnetic_blank_lines.
Example C71_blank_case : let r := Toks [TNum (Some 1); TNum (Some 2); TNum (Some 3); TNum (Some 4)] in without_blanks [r; Toks []; r] [Toks []; r; r].
Proof. apply wb_right; [reflexivity|]. apply wb_same. apply wb_left; [reflexivity|]. apply wb_same, wb_nil. Qed.

(** A gradient file cut anywhere is refused. *)
Theorem C71_gradient_cut : forall P d f k, snd (write_gg P d) = Ok f -> (k < List.length f)%nat -> exists e, read_gg (firstn k f) = Err e.
Proof. exact gg_cut. Qed.
Print Assumptions C71_gradient_cut.
Example C71_gradient_cut_case : exists f, snd (write_gg exactly (case None ["gzz"%string] [Some 1; Some 2] [Some 3; Some 4])) = Ok f.
Proof.
  destruct (C71_gradient_round_trip_partial exactly (case None ["gzz"%string] [Some 1; Some 2] [Some 3; Some 4]) stations ["gzz"%string] exactly_sound) as (f & _ & W & _);
    [apply case_sound; reflexivity|exact stations_points|apply (finite_some [1; 2])|apply first_nonzero; lra|constructor; [cbn; tauto|constructor]|reflexivity|]. exists f. exact W.
Qed.

(** A gravity or magnetic file cut among its rows is not refused: reading it never ends. *)
Theorem C71_gravity_cut_refuted : forall P d locs c, sound_data d -> points locs -> d_rxs d = one locs [c] ->
  forall f k, write_grav P d = Ok f -> (2 <= k < List.length f)%nat -> read_grav (firstn k f) = Hangs.
Proof. exact grav_cut. Qed.
Print Assumptions C71_gravity_cut_refuted.
Theorem C71_magnetic_cut_refuted : forall P d locs c, sound_data d -> points locs -> d_rxs d = one locs [c] ->
  forall f k amp inc dec, write_mag P d = Ok f -> d_field d = Some (amp, inc, dec) -> (4 <= k < List.length f)%nat -> read_mag (firstn k f) = Hangs.
Proof. exact mag_cut. Qed.
Print Assumptions C71_magnetic_cut_refuted.

(** Data that are all zero come back as nan. *)
Theorem C71_gravity_zero_refuted : forall P d locs c, sound_printer P -> sound_data d -> points locs -> all_zero (d_obs d) -> locs <> [] -> d_rxs d = one locs [c] ->
  exists f d', write_grav P d = Ok f /\ read_grav f = Returns d' /\ d_obs d' = repeat None (List.length locs).
Proof. exact grav_zero. Qed.
Print Assumptions C71_gravity_zero_refuted.
Theorem C71_magnetic_zero_refuted : forall P d locs c, sound_printer P -> sound_data d -> points locs -> all_zero (d_obs d) -> locs <> [] -> d_rxs d = one locs [c] ->
  forall amp inc dec, d_field d = Some (amp, Some inc, dec) -> -90 <= inc <= 90 ->
  exists f d', write_mag P d = Ok f /\ read_mag f = Returns d' /\ d_obs d' = repeat None (List.length locs).
Proof. exact mag_zero. Qed.
Print Assumptions C71_magnetic_zero_refuted.
(** Zero gradient data: their standard deviations come back as the data. *)
Theorem C71_gradient_zero_refuted : forall P locs c s d, sound_printer P -> In c ["gyy"; "gxy"; "gxx"; "gzz"; "guv"]%string -> points locs -> d_rxs d = one locs [c] ->
  sound_data d -> all_zero (d_obs d) -> stdev d = Ok s -> some_nonzero s ->
  exists f d', snd (write_gg P d) = Ok f /\ read_gg f = Ok d' /\ d_obs d' = printed P s.
Proof. exact gg_zero. Qed.
Print Assumptions C71_gradient_zero_refuted.
Example C71_zero_case : let d := case north ["gzz"%string] [Some 0; Some 0] [Some 3; Some 4] in
  sound_data d /\ all_zero (d_obs d) /\ d_rxs d = one stations ["gzz"%string] /\ stdev d = Ok [Some (sqrt (0 + 3 * 3)); Some (sqrt (0 + 4 * 4))].
Proof. split; [apply case_sound; reflexivity|]. split; [repeat constructor|]. split; reflexivity. Qed.

(** Whatever the component measured, it is read back as vertical gravity or total field. *)
Theorem C71_gravity_component_refuted : forall P d locs c, sound_printer P -> sound_data d -> points locs -> finite (d_obs d) -> some_nonzero (d_obs d) -> d_rxs d = one locs [c] ->
  exists f d', write_grav P d = Ok f /\ read_grav f = Returns d' /\ d_rxs d' = one (printed_table P locs) ["gz"%string] /\ d_obs d' = printed P (d_obs d).
Proof. exact grav_other. Qed.
Print Assumptions C71_gravity_component_refuted.
Theorem C71_magnetic_component_refuted : forall P d locs c amp inc dec, sound_printer P -> sound_data d -> points locs -> finite (d_obs d) -> some_nonzero (d_obs d) -> d_rxs d = one locs [c] ->
  d_field d = Some (amp, Some inc, dec) -> -90 <= inc <= 90 ->
  exists f d', write_mag P d = Ok f /\ read_mag f = Returns d' /\ d_rxs d' = one (printed_table P locs) ["tmi"%string] /\ d_obs d' = printed P (d_obs d).
Proof. exact mag_other. Qed.
Print Assumptions C71_magnetic_component_refuted.

(** Writing a gradient file changes the data object, which cannot be written again. *)
Theorem C71_gradient_unchanged_refuted : forall P d locs comps, d_rxs d = one locs comps -> comps <> [] ->
  Forall (fun c => In c ["gyy"; "gxy"; "gyz"; "gxx"; "gxz"; "gzz"; "guv"]%string) comps ->
  d_rxs (fst (write_gg P d)) <> d_rxs d /\ snd (write_gg P (fst (write_gg P d))) = Err ValueError.
Proof. exact gg_twice. Qed.
Print Assumptions C71_gradient_unchanged_refuted.
