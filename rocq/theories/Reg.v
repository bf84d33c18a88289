(** Model of simpeg/regularization/base.py: smallness and smoothness terms, their weights,
    kernels and derivatives. *)
From Verif Require Import Py Vec SensW Coords.
Local Open Scope R_scope.

(** 467 Smallness, 758 SmoothnessFirstOrder, 1208 SmoothnessSecondOrder *)
Inductive kind := Small | Smooth1 | Smooth2.
(** The operators of a regularization mesh along the orientation of the term
    (regularization_mesh.py 98-519): active cells, faces, averaging of cells to faces
    (n_faces rows), cell gradient (n_faces rows) and cell volumes. *)
Record rops := mkOps { nC : nat; nF : nat; ave : mat; grad : mat; vol : vec }.
(** A regularization term. [mesh_ops] gives the operators for the active cells of the mesh,
    which other terms may share; [mesh_active] are the active cells the mesh now has.
    Weights: the dictionary, in order; the key 0 is "volume". [cW] is [_W] (the diagonal),
    [cG] is [_cell_gradient] (the operators it was taken from). *)
Definition active := option (list bool).
Record reg := mkReg { r_kind : kind; mesh_ops : active -> rops; mesh_active : active;
  weights : list (nat * vec); cW : option vec; cG : option rops;
  ref : option vec; ref_in_smooth : bool; radian : bool }.
Definition ops (s : reg) : rops := mesh_ops s (mesh_active s).
Definition with_weights (s : reg) w c := mkReg (r_kind s) (mesh_ops s) (mesh_active s) w c (cG s) (ref s) (ref_in_smooth s) (radian s).
Definition with_W (s : reg) c := with_weights s (weights s) c.
Definition with_G (s : reg) g := mkReg (r_kind s) (mesh_ops s) (mesh_active s) (weights s) (cW s) g (ref s) (ref_in_smooth s) (radian s).
Definition with_active (s : reg) a := mkReg (r_kind s) (mesh_ops s) a (weights s) (cW s) (cG s) (ref s) (ref_in_smooth s) (radian s).

(** 196-214, 960-972 [_weights_shapes] *)
Definition weight_sizes (s : reg) : list nat := match r_kind s with Small => [nC (ops s)] | _ => [nF (ops s); nC (ops s)] end.
(** A value given for weights: an array of floats with one axis, or something else. *)
Inductive wval := WArr (v : vec) | WBad.
Definition check_weight (s : reg) (w : wval) : result vec :=
  match w with
  | WArr v => if existsb (Nat.eqb (length v)) (weight_sizes s) then Ok v else Err ValueError
  | WBad => Err TypeError
  end.
(** [d[key] = values] *)
Fixpoint dict_set (d : list (nat * vec)) (k : nat) (v : vec) : list (nat * vec) :=
  match d with
  | [] => [(k, v)]
  | (k', v') :: d' => if Nat.eqb k k' then (k, v) :: d' else (k', v') :: dict_set d' k v
  end.
Fixpoint dict_get (d : list (nat * vec)) (k : nat) : option vec :=
  match d with [] => None | (k', v) :: d' => if Nat.eqb k k' then Some v else dict_get d' k end.
Definition dict_pop (d : list (nat * vec)) (k : nat) : list (nat * vec) := filter (fun kv => negb (Nat.eqb k (fst kv))) d.

(** 279-304 [set_weights]: an entry that is refused ends the loop before [_W] is reset. *)
Fixpoint set_loop (s : reg) (kvs : list (nat * wval)) (d : list (nat * vec)) : list (nat * vec) * option exn :=
  match kvs with
  | [] => (d, None)
  | (k, w) :: kvs' => match check_weight s w with
                      | Ok v => set_loop s kvs' (dict_set d k v)
                      | Err e => (d, Some e)
                      end
  end.
Definition set_weights (s : reg) (kvs : list (nat * wval)) : reg * option exn :=
  match set_loop s kvs (weights s) with
  | (d, None) => (with_weights s d None, None)
  | (d, Some e) => (with_weights s d (cW s), Some e)
  end.
(** 313-336 *)
Definition remove_weights (s : reg) (k : nat) : reg * option exn :=
  match dict_get (weights s) k with
  | Some _ => (with_weights s (dict_pop (weights s) k) None, None)
  | None => (s, Some KeyError)
  end.

(** regularization_mesh.py 64-96, setter of active_cells; all values have the mesh's length
    (others are refused, not modelled). *)
Definition eq_active (a b : active) : bool :=
  match a, b with
  | Some x, Some y => if list_eq_dec Bool.bool_dec x y then true else false
  | None, None => true
  | _, _ => false
  end.
Definition mesh_set_active (s : reg) (a : active) : result reg :=
  match mesh_active s with
  | Some _ => if eq_active (mesh_active s) a then Ok s else Err AttributeError
  | None => Ok (with_active s a)
  end.
(** 101-110, setter of active_cells on the term: the weights are replaced by the volumes;
    the cached gradient of 988-992 stays. *)
Definition set_active (s : reg) (a : active) : reg * option exn :=
  match mesh_set_active s a with
  | Err e => (s, Some e)
  | Ok s1 =>
      match a with
      | None => (s1, None)
      | Some _ =>
          let s2 := with_weights s1 [] None in
          if existsb (fun kv => Nat.eqb 0 (fst kv)) (weights s1)
          then set_weights s2 [(O, WArr (vol (ops s2)))]
          else (s2, None)
      end
  end.

(** Products of weights. [Err GenericException] stands for nan (square root of a negative
    product); without weights the product is the number 1.0, which is not an array and of
    which no diagonal matrix can be made. Broadcasting of an array of length one is not
    modelled (all weights of a term have the sizes of [weight_sizes]). *)
Definition all_len (n : nat) (l : list vec) : bool := forallb (fun v => Nat.eqb (length v) n) l.
Definition prod_of (l : list vec) : result vec :=
  match l with
  | [] => Err TypeError
  | w :: l' => if all_len (length w) l' then Ok (fold_left vmul l' w) else Err ValueError
  end.
Definition on_faces (o : rops) (v : vec) : vec := if Nat.eqb (length v) (nC o) then mv (ave o) v else v.
(** 338-354, 1163-1186, 1509-1526 *)
Definition compute_W (s : reg) : result vec :=
  let ws := map snd (weights s) in
  do p <- match r_kind s with
          | Smooth1 => prod_of (map (on_faces (ops s)) ws)
          | _ => prod_of ws
          end;
  if existsb (fun x => if Rlt_dec x 0 then true else false) p then Err GenericException else Ok (map sqrt p).
Definition get_W (s : reg) : result vec * reg :=
  match cW s with
  | Some w => (Ok w, s)
  | None => match compute_W s with Ok w => (Ok w, with_W s (Some w)) | Err e => (Err e, s) end
  end.

(** 988-992 *)
Definition get_G (s : reg) : rops * reg := match cG s with Some g => (g, s) | None => (ops s, with_G s (Some (ops s))) end.
(** The mapping: values and derivative. *)
Record rmap := mkMap { phi : vec -> vec; dphi : vec -> mat }.
Definition sign (x : R) : R := if Rlt_dec 0 x then 1 else if Rlt_dec x 0 then -1 else 0.
(** 675-679, 1080-1084, 1426-1430: difference with the mapped reference *)
Definition diff (s : reg) (M : rmap) (m : vec) : vec :=
  match ref s with
  | Some r => match r_kind s with
              | Small => vsub (phi M m) (phi M r)
              | _ => if ref_in_smooth s then vsub (phi M m) (phi M r) else phi M m
              end
  | None => phi M m
  end.
(** 1086-1090: the difference along the gradient, in (-pi, pi), over the cell distances,
    which are the inverses of the row maxima of the gradient (521-535). *)
Definition rowmax (r : vec) : R := vmax r.
Definition angle_kernel (G : mat) (d : vec) : vec :=
  zipw (fun a r => a * r) (map coterminal (mv (map (map sign) G) d)) (map rowmax G).
(** 619-680, 1017-1092, 1366-1440 [f_m] *)
Definition f_m (s : reg) (M : rmap) (m : vec) : result vec * reg :=
  let d := diff s M m in
  match r_kind s with
  | Small => (Ok d, s)
  | k =>
      let (g, s') := get_G s in
      if Nat.eqb (length d) (nC g) then
        match k, radian s with
        | Smooth2, true => (Err AttributeError, s') (* self.length_scales does not exist *)
        | Smooth2, false => (Ok (mtv (nC g) (grad g) (mv (grad g) d)), s')
        | _, true => (Ok (angle_kernel (grad g) d), s')
        | _, false => (Ok (mv (grad g) d), s')
        end
      else (Err ValueError, s')
  end.
(** 380-395 [__call__] *)
Definition call (s : reg) (M : rmap) (m : vec) : result R * reg :=
  let (w, s1) := get_W s in
  match w with
  | Err e => (Err e, s1)
  | Ok w =>
      let (f, s2) := f_m s1 M m in
      match f with
      | Err e => (Err e, s2)
      | Ok f => if Nat.eqb (length w) (length f) then (Ok (let r := vmul w f in dot r r), s2) else (Err ValueError, s2)
      end
  end.
(** 682-755, 1094-1161, 1442-1507 [f_m_deriv], as the products with it and its transpose;
    [g] are the operators of the gradient used. *)
Definition fd_mv (k : kind) (g : rops) (M : rmap) (m v : vec) : vec :=
  let u := mv (dphi M m) v in
  match k with
  | Small => u
  | Smooth1 => mv (grad g) u
  | Smooth2 => mtv (nC g) (grad g) (mv (grad g) u)
  end.
Definition fd_mtv (k : kind) (g : rops) (M : rmap) (m w : vec) : vec :=
  let n := length m in
  match k with
  | Small => mtv n (dphi M m) w
  | Smooth1 => mtv n (dphi M m) (mtv (nC g) (grad g) w)
  | Smooth2 => mtv n (dphi M m) (mtv (nC g) (grad g) (mv (grad g) w))
  end.
(** 407-429 [deriv] *)
Definition deriv (s : reg) (M : rmap) (m : vec) : result vec * reg :=
  let (w, s1) := get_W s in
  match w with
  | Err e => (Err e, s1)
  | Ok w =>
      let (f, s2) := f_m s1 M m in
      match f with
      | Err e => (Err e, s2)
      | Ok f =>
          if Nat.eqb (length w) (length f) then
            let r := vmul w f in
            let (g, s3) := match r_kind s with Small => (ops s2, s2) | _ => get_G s2 end in
            (Ok (vscale 2 (fd_mtv (r_kind s) g M m (vmul w r))), s3)
          else (Err ValueError, s2)
      end
  end.
(** 431-464 [deriv2] with a vector; without, the matrix whose product with it this is. *)
Definition deriv2 (s : reg) (M : rmap) (m v : vec) : result vec * reg :=
  let (g, s1) := match r_kind s with Small => (ops s, s) | _ => get_G s end in
  let (w, s2) := get_W s1 in
  match w with
  | Err e => (Err e, s2)
  | Ok w => if Nat.eqb (length w) (length (fd_mv (r_kind s) g M m v))
            then (Ok (vscale 2 (fd_mtv (r_kind s) g M m (vmul w (vmul w (fd_mv (r_kind s) g M m v))))), s2)
            else (Err ValueError, s2)
  end.

(** 46-79, 615-617, 937-958: a new term has its volumes as weights. *)
Definition reg_new (k : kind) (mo : active -> rops) (a : active) (r : option vec) (ris rad : bool) : reg * option exn :=
  set_weights (mkReg k mo a [] None None r ris rad) [(O, WArr (vol (mo a)))].

(** Histories *)
Inductive rop :=
| OSet (kvs : list (nat * wval)) | ORemove (k : nat) | OCall (M : rmap) (m : vec) | ODeriv (M : rmap) (m : vec) | ODeriv2 (M : rmap) (m v : vec)
| OActive (a : active)
| OMesh (a : active). (* the active cells of the mesh are set through another term *)
Definition rstep (s : reg) (o : rop) : reg :=
  match o with
  | OSet kvs => fst (set_weights s kvs)
  | ORemove k => fst (remove_weights s k)
  | OCall M m => snd (call s M m)
  | ODeriv M m => snd (deriv s M m)
  | ODeriv2 M m v => snd (deriv2 s M m v)
  | OActive a => fst (set_active s a)
  | OMesh a => match mesh_set_active s a with Ok s' => s' | Err _ => s end
  end.
Definition rrun (s : reg) (l : list rop) : reg := fold_left rstep l s.
