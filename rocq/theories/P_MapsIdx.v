(** C24: projection, wires, injection and surjection maps. *)
From Coq Require Import ZArith String.
From Verif Require Import Py Vec VecDeriv Frechet MapsM MapsIdx SpecMapsIdx MapsIdxFacts.
Local Open Scope R_scope.

(** Wires with positive lengths and distinct names: contiguous pieces, in order, that
    reassemble to the model. *)
Theorem C24_wires_partition : forall args m, good_wires args -> Z.of_nat (length m) = zsum (map snd args) ->
  exists ws ps, wires_init args = Ok ws /\ wires_apply ws m = Ok ps /\ concat (map snd ps) = m /\
    map fst ps = map fst args /\ map (fun p => Z.of_nat (length (snd p))) ps = map snd args.
Proof. exact wires_ok. Qed.
Print Assumptions C24_wires_partition.
Theorem C24_wires_duplicate_raises : forall args, Forall (fun a => (0 < snd a)%Z) args -> ~ NoDup (map fst args) ->
  wires_init args = Err ValueError.
Proof. exact wires_duplicate. Qed.
Print Assumptions C24_wires_duplicate_raises.
(** A negative length is accepted, and other lengths are handed out. *)
Theorem C24_negative_wire_refuted : exists ws, wires_init [("a"%string, (-1)%Z); ("b"%string, 3%Z)] = Ok ws /\
  forall x y, wires_apply ws [x; y] = Ok [("a"%string, [x]); ("b"%string, [y])].
Proof. exact wires_negative. Qed.
Print Assumptions C24_negative_wire_refuted.
(** Integer indices are accepted exactly when there is one and all lie in the model. *)
Theorem C24_projection_accepts : forall nP l,
  (exists p, proj_init nP (IInts l) = Ok p) <-> l <> [] /\ Forall (fun z => (0 <= z < Z.of_nat nP)%Z) l.
Proof. exact proj_ints. Qed.
Print Assumptions C24_projection_accepts.
Theorem C24_projection_picks : forall nP l p m, proj_init nP (IInts l) = Ok p -> length m = nP ->
  proj_apply p m = Ok (map (fun z => nth (Z.to_nat z) m 0) l) /\ linear_part nP (length l) (proj_apply p) (proj_P p).
Proof. exact proj_ints_value. Qed.
Print Assumptions C24_projection_picks.
Theorem C24_projection_mask : forall nP b p m, length b = nP -> proj_init nP (IMask b) = Ok p -> length m = nP ->
  proj_apply p m = Ok (pick b m) /\ linear_part nP (count b) (proj_apply p) (proj_P p).
Proof. exact proj_mask_value. Qed.
Print Assumptions C24_projection_mask.
(** A list (not an array) of booleans: the value is masked, the matrix picks columns 1, 0, 1. *)
Theorem C24_boolean_list_refuted : exists p, proj_init 3 (IBools [true; false; true]) = Ok p /\
  forall a b c, proj_apply p [a; b; c] = Ok [a; c] /\ mv (proj_P p) [a; b; c] = [b; a; b].
Proof. exact proj_bools. Qed.
Print Assumptions C24_boolean_list_refuted.
Theorem C24_injection_value : forall b v s m, inject_init b v = Ok s -> length m = count b ->
  inject_apply s m = Ok (merge b m (inactive_vals (count (map negb b)) v)).
Proof. exact inject_value. Qed.
Print Assumptions C24_injection_value.
Theorem C24_injection_deriv : forall b v s, inject_init b v = Ok s -> linear_part (count b) (length b) (inject_apply s) (inject_P s).
Proof. exact inject_linear. Qed.
Print Assumptions C24_injection_deriv.
(** Assigning other active cells later: values still go to the old cells. *)
Theorem C24_reassigned_active_refuted : exists s s', inject_init [true; false] (Scalar 7) = Ok s /\
  inject_set_active s [false; true] = Ok s' /\ inject_nP s' = 1%nat /\
  forall x, inject_apply s' [x] = Ok [1 * x + 0 + 0; 0 * x + 0 + 7].
Proof. exact inject_stale. Qed.
Print Assumptions C24_reassigned_active_refuted.
Theorem C24_surject_full : forall nC, linear_part 1 nC (sfull_apply nC) (sfull_P nC) /\
  forall x, exists y, sfull_apply nC [x] = Ok y /\ y = repeat x nC.
Proof. exact sfull_ok. Qed.
Print Assumptions C24_surject_full.
(** [rep] cells per layer; cell c of layer k has number c + rep * k. *)
Theorem C24_vertical : forall nz rep m, length m = nz -> exists y, svert_apply nz rep m = Ok y /\ length y = (rep * nz)%nat /\
  forall c k, (c < rep)%nat -> (k < nz)%nat -> nth (c + rep * k) y 0 = nth k m 0.
Proof. exact svert_ok. Qed.
Print Assumptions C24_vertical.
Theorem C24_vertical_deriv : forall nz rep, linear_part nz (rep * nz) (svert_apply nz rep) (svert_P nz rep).
Proof. exact svert_linear. Qed.
Print Assumptions C24_vertical_deriv.
(** Cell (i, j, k) has number i + nx (j + ny k); it receives the entry of the 2-D model
    at its two coordinates other than the normal one. *)
Theorem C24_surject_2d_3d : forall nx ny nz n m, length m = s23_nP nx ny nz n ->
  exists y, s23_apply nx ny nz n m = Ok y /\ length y = (nx * ny * nz)%nat /\
  forall i j k, (i < nx)%nat -> (j < ny)%nat -> (k < nz)%nat ->
    nth (i + nx * (j + ny * k)) y 0 =
    match n with NZ => nth (i + nx * j) m 0 | NY => nth (i + nx * k) m 0 | NX => nth (j + ny * k) m 0 end.
Proof. exact s23_cells. Qed.
Print Assumptions C24_surject_2d_3d.
Theorem C24_surject_2d_3d_deriv : forall nx ny nz n,
  linear_part (s23_nP nx ny nz n) (nx * ny * nz) (s23_apply nx ny nz n) (s23_P nx ny nz n).
Proof. exact s23_linear. Qed.
Print Assumptions C24_surject_2d_3d_deriv.
(** Each cell gets the sum of the values of the units that contain it. *)
Theorem C24_units : forall units m nr, units <> [] -> Forall (fun ind => length ind = nr) units -> length m = length units ->
  exists y, sunits_apply units m = Ok y /\ length y = nr /\
  forall i, (i < nr)%nat -> nth i y 0 = vsum (map (fun um => if nth i (fst um) false then snd um else 0) (combine units m)).
Proof. exact sunits_ok. Qed.
Print Assumptions C24_units.
Theorem C24_units_deriv : forall units nr, units <> [] -> Forall (fun ind => length ind = nr) units ->
  linear_part (length units) nr (sunits_apply units) (sunits_P units).
Proof. exact sunits_linear. Qed.
Print Assumptions C24_units_deriv.
Example C24_example : good_wires [("sigma"%string, 2%Z); ("mu"%string, 3%Z)] /\
  (exists p, proj_init 4 (IInts [3; 0; 3]%Z) = Ok p) /\ (exists p, proj_init 3 (IMask [true; false; true]) = Ok p) /\
  (exists s, inject_init [true; false; true; false] (Array [5; 6]) = Ok s) /\
  merge [true; false; true; false] [1; 2] [5; 6] = [1; 5; 2; 6] /\ s23_nP 2 3 4 NY = 8%nat.
Proof.
  split; [split; [repeat constructor; cbn; lia|]|].
  - repeat constructor; cbn; intuition discriminate.
  - split; [eexists; reflexivity|]. split; [eexists; reflexivity|]. split; [eexists; reflexivity|]. split; reflexivity.
Qed.
