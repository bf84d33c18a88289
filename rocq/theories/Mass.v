(** Model of simpeg/base/pde_simulation.py: the mass matrices of a physical property, their
    inverses and derivatives (15-410), and when the stored ones are thrown away
    (BaseElectricalPDESimulation 610-643, BaseMagneticPDESimulation 646-677). The two sides
    of [pst] are sigma and rho, or mu and mui. *)
From Verif Require Import Py Vec PropsM.
Local Open Scope R_scope.

(** Where the matrices act: cell centres, nodes, faces, edges. *)
Inductive kind := Cc | No | Fa | Ed.
(** The mesh, as far as it matters here: for every kind the matrix B with
    M(prop) = diag(B prop). Lines 115 (diag(vol)), 130 (aveN2CC.T diag(vol)); for faces and
    edges this is the derivative discretize returns for an isotropic property on a tensor,
    cylindrical or tree mesh, where the inner product is linear in the property (281-288).
    Full tensors and other mesh types (289-290) are not modelled. *)
Definition dmesh := kind -> mat.
(** The mesh, the property pair, the model, and the stored matrices: diagonals of M, of its
    inverse, and derivatives. *)
Record msim := mkSim {
  s_mesh : dmesh; s_prop : pst; s_model : option vec;
  s_m : side -> kind -> option vec; s_i : side -> kind -> option vec; s_d : side -> kind -> option mat }.
Definition none {A} (_ : side) (_ : kind) : option A := None.
Definition sd_eqb (a b : side) : bool := match a, b with P, P | Q, Q => true | _, _ => false end.
Definition kind_eqb (a b : kind) : bool := match a, b with Cc, Cc | No, No | Fa, Fa | Ed, Ed => true | _, _ => false end.
Definition store {A} (c : side -> kind -> option A) (s : side) (k : kind) (a : A) : side -> kind -> option A :=
  fun s' k' => if sd_eqb s s' && kind_eqb k k' then Some a else c s' k'.
Definition sim_init (B : dmesh) : msim := mkSim B pst0 None none none none.
Definition with_prop (s : msim) (p : pst) : msim := mkSim (s_mesh s) p (s_model s) (s_m s) (s_i s) (s_d s).
(** 389-407 with 638-643: all matrices of both properties are deleted. *)
Definition clear (s : msim) : msim := mkSim (s_mesh s) (s_prop s) (s_model s) none none none.

(** ** Assignments *)
(** 638-643 / 662-667 [sim.sigma = v] (a rejected value raises in super().__setattr__
    before anything happens). *)
Definition set_prop (s : msim) (sd : side) (v : option vec) : msim := clear (with_prop s (set_value (s_prop s) sd v)).
(** props.py 176-178 [del sim.sigma]: goes through __delattr__, nothing is cleared. *)
Definition del_prop (s : msim) (sd : side) : msim := with_prop s (putv (s_prop s) sd None).
(** [sim.sigmaMap = f]: the name is not in the list of line 640, and clear_props
    (props.py 34-37) deletes the values without going through __setattr__. *)
Definition assign_map (s : msim) (sd : side) (f : option pmap) : msim := with_prop s (set_map (s_prop s) sd f).
(** 465-467 *)
Definition assign_mesh (s : msim) (B : dmesh) : msim := mkSim B (s_prop s) (s_model s) (s_m s) (s_i s) (s_d s).
Definition has_map (s : msim) : bool := match read_map (s_prop s) P with Some _ => true | None => false end.
(** props.py 408-477 with _delete_on_model_update (626-636 / 669-677): stored matrices go
    when there is a mapping and the new model is not close to the old one. Nested modelers
    are left out (C12). *)
Definition put_model (s : msim) (m : option vec) : msim := mkSim (s_mesh s) (s_prop s) m (s_m s) (s_i s) (s_d s).
Definition assign_model (s : msim) (m : option vec) : msim * option exn :=
  match m with
  | None => (match s_model s with
             | None => s
             | Some _ => put_model (if has_map s then clear s else s) None
             end, None)
  | Some v =>
      match read_map (s_prop s) P with
      | None => (s, Some ValueError)
      | Some f =>
          if fits (length v) (pm_in f) then
            match s_model s with
            | None => (put_model (clear s) m, None)
            | Some u => match allclose u v with
                        | Err e => (s, Some e)
                        | Ok true => (put_model s m, None)
                        | Ok false => (put_model (clear s) m, None)
                        end
            end
          else (s, Some ValueError)
      end
  end.

(** ** Reading *)
Definition diag_of (B : mat) (v : vec) : vec := mv B v.
Definition current (s : msim) (sd : side) : result vec :=
  do v <- read_value false (s_model s) (s_prop s) sd; match v with Some v => Ok v | None => Err AttributeError end.
(** 107-162: MccSigma, MnSigma, MfSigma, MeSigma *)
Definition get_m (s : msim) (sd : side) (k : kind) : msim * result vec :=
  match s_m s sd k with
  | Some d => (s, Ok d)
  | None => match current s sd with
            | Err e => (s, Err e)
            | Ok v => let d := diag_of (s_mesh s k) v in
                      (mkSim (s_mesh s) (s_prop s) (s_model s) (store (s_m s) sd k d) (s_i s) (s_d s), Ok d)
            end
  end.
(** 164-225: MccSigmaI, MnSigmaI, MfSigmaI, MeSigmaI (a zero on the diagonal gives inf) *)
Definition get_i (s : msim) (sd : side) (k : kind) : msim * result vec :=
  match s_i s sd k with
  | Some d => (s, Ok d)
  | None => match current s sd with
            | Err e => (s, Err e)
            | Ok v => let d := vinv (diag_of (s_mesh s k) v) in
                      (mkSim (s_mesh s) (s_prop s) (s_model s) (s_m s) (store (s_i s) sd k d) (s_d s), Ok d)
            end
  end.
(** Product of two matrices; [n] is the number of columns of the second. *)
Definition mmul (n : nat) (B D : mat) : mat := map (fun r => mtv n D r) B.
(** 237-241, 255-261, 275-288, 305-318: the stored derivative. Without a model the property
    of lines 276 and 306 cannot be read, and the derivative is Zero() (props.py 212-213),
    which _inner_mat_mul_op refuses (79-83). *)
Definition new_d (s : msim) (sd : side) (k : kind) : result mat :=
  match s_model s, read_deriv (s_model s) (s_prop s) sd with
  | Some x, Some D => Ok (mmul (length x) (s_mesh s k) D)
  | _, _ => Err (match k with Cc | No => TypeError | Fa | Ed => AttributeError end)
  end.
Definition get_d (s : msim) (sd : side) (k : kind) : msim * result mat :=
  match s_d s sd k with
  | Some d => (s, Ok d)
  | None => match new_d s sd k with
            | Err e => (s, Err e)
            | Ok d => (mkSim (s_mesh s) (s_prop s) (s_model s) (s_m s) (s_i s) (store (s_d s) sd k d), Ok d)
            end
  end.
(** How the derivative is used, 15-48: with a vector, transposed with one column per field,
    or as a matrix. Fields are given by their columns; several directions at once and the
    corresponding three-dimensional arrays are not modelled, nor are shapes that do not fit. *)
Inductive arg := Along (v : vec) | Adj (w : list vec) | AsMatrix.
Inductive out := OZero | OCols (c : list vec) | OVec (v : vec) | OMat (M : mat).
Definition vsums (n : nat) (l : list vec) : vec := fold_right vadd (vzero n) l.
Definition inner_op (n : nat) (M : mat) (u : list vec) (a : arg) : out :=
  match a with
  | Along v => OCols (map (fun c => vmul c (mv M v)) u)
  | Adj w => OVec (mtv n M (vsums (length M) (map (fun cw => vmul (fst cw) (snd cw)) (combine u w))))
  | AsMatrix => OMat (flat_map (fun c => scale_rows c M) u)
  end.
Definition ncols (s : msim) : nat := match s_model s with Some x => length x | None => 0 end.
(** 227-323 MccSigmaDeriv, … (fields or directions that are Zero() give Zero() and are left out) *)
Definition mderiv (s : msim) (sd : side) (k : kind) (u : list vec) (a : arg) : msim * result out :=
  match read_map (s_prop s) sd with
  | None => (s, Ok OZero)
  | Some _ => let '(s1, d) := get_d s sd k in
              (s1, do M <- d; Ok (inner_op (ncols s) M u a))
  end.
(** 325-387 MccSigmaIDeriv, … *)
Definition ideriv (s : msim) (sd : side) (k : kind) (u : list vec) (a : arg) : msim * result out :=
  match read_map (s_prop s) sd with
  | None => (s, Ok OZero)
  | Some _ => let '(s1, r) := get_i s sd k in
              match r with
              | Err e => (s1, Err e)
              | Ok d => mderiv s1 sd k (map (fun c => vmul d (vmul d (vopp c))) u) a
              end
  end.

Inductive mop := MProp (sd : side) (v : option vec) | MDel (sd : side) | MMap (sd : side) (f : option pmap) | MMesh (B : dmesh)
  | MModel (m : option vec) | MRead (sd : side) (k : kind) | MReadI (sd : side) (k : kind)
  | MDeriv (sd : side) (k : kind) (u : list vec) (a : arg) | MIDeriv (sd : side) (k : kind) (u : list vec) (a : arg).
Definition mstep (s : msim) (o : mop) : msim :=
  match o with
  | MProp sd v => set_prop s sd v
  | MDel sd => del_prop s sd
  | MMap sd f => assign_map s sd f
  | MMesh B => assign_mesh s B
  | MModel m => fst (assign_model s m)
  | MRead sd k => fst (get_m s sd k)
  | MReadI sd k => fst (get_i s sd k)
  | MDeriv sd k u a => fst (mderiv s sd k u a)
  | MIDeriv sd k u a => fst (ideriv s sd k u a)
  end.
Definition mrun (s : msim) (l : list mop) : msim := fold_left mstep l s.
