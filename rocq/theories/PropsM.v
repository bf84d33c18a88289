(** Model of simpeg/props.py: physical properties with reciprocals and mappings
    (9-217) and the model setter of [HasModel] (357-485). *)
From Verif Require Import Py Vec.
Local Open Scope R_scope.

(** ** Properties *)
(** A mapping, as far as this file looks at it: value, Jacobian, input size ([None]
    for the wildcard). *)
Record pmap := mkPmap { pm_val : vec -> vec; pm_deriv : vec -> mat; pm_in : option nat }.
Definition vinv (v : vec) : vec := map (fun x => 1 / x) v.
(** [ReciprocalMap() * m]: maps/_property_maps.py 140-141 and 200-203, composed as in
    maps/_base.py (ComboMap). *)
Definition scale_rows (d : vec) (J : mat) : mat := map (fun dr => vscale (fst dr) (snd dr)) (combine d J).
Definition recip_map (m : pmap) : pmap :=
  mkPmap (fun x => vinv (pm_val m x)) (fun x => scale_rows (map (fun y => - / (y * y)) (pm_val m x)) (pm_deriv m x)) (pm_in m).

(** One property and its reciprocal: the four private attributes. *)
Inductive side := P | Q.
Definition other (s : side) : side := match s with P => Q | Q => P end.
Record pst := mkPst { v_p : option vec; v_q : option vec; m_p : option pmap; m_q : option pmap }.
Definition getv (st : pst) (s : side) : option vec := match s with P => v_p st | Q => v_q st end.
Definition getm (st : pst) (s : side) : option pmap := match s with P => m_p st | Q => m_q st end.
Definition putv (st : pst) (s : side) (v : option vec) : pst :=
  match s with P => mkPst v (v_q st) (m_p st) (m_q st) | Q => mkPst (v_p st) v (m_p st) (m_q st) end.
Definition putm (st : pst) (s : side) (m : option pmap) : pst :=
  match s with P => mkPst (v_p st) (v_q st) m (m_q st) | Q => mkPst (v_p st) (v_q st) (m_p st) m end.
Definition pst0 : pst := mkPst None None None None.

(** 163-178 PhysicalProperty.fset / fdel (176-178).  A value that fails validation
    raises before anything is changed ([None] in [ok]). *)
Definition set_value (st : pst) (s : side) (v : option vec) : pst :=
  match v with
  | None => putv st s None
  | Some _ => putv (putm (putm (putv st (other s) None) s None) (other s) None) s v
  end.
(** 55-64 Mapping.fset / fdel, with clear_props (32-35). *)
Definition set_map (st : pst) (s : side) (m : option pmap) : pst :=
  match m with
  | None => putm st s None
  | Some _ => putm (putm (putv (putv st s None) (other s) None) (other s) None) s m
  end.

Inductive pop := SetValue (s : side) (v : vec) | SetMap (s : side) (m : pmap)
  | ClearValue (s : side) | ClearMap (s : side) | Rejected.
Definition pstep (st : pst) (o : pop) : pst :=
  match o with
  | SetValue s v => set_value st s (Some v)
  | SetMap s m => set_map st s (Some m)
  | ClearValue s => set_value st s None
  | ClearMap s => set_map st s None
  | Rejected => st
  end.

(** 45-53 Mapping.fget *)
Definition read_map (st : pst) (s : side) : option pmap :=
  match getm st s with
  | Some m => Some m
  | None => option_map recip_map (getm st (other s))
  end.
(** 125-161 PhysicalProperty.fget for a property with a mapping and a reciprocal. *)
Definition read_value (optional : bool) (model : option vec) (st : pst) (s : side) : result (option vec) :=
  match getv st s with
  | Some v => Ok (Some v)
  | None =>
      match getv st (other s) with
      | Some v => Ok (Some (vinv v))
      | None =>
          match read_map st s with
          | None => if optional then Ok None else Err AttributeError
          | Some m => match model with
                      | None => Err AttributeError
                      | Some x => Ok (Some (pm_val m x))
                      end
          end
      end
  end.
(** 203-217 Derivative.fget; [None] is Zero(). *)
Definition read_deriv (model : option vec) (st : pst) (s : side) : option mat :=
  match read_map st s, model with Some m, Some x => Some (pm_deriv m x) | _, _ => None end.

(** ** np.allclose(a, b) with the defaults rtol = 1e-5, atol = 1e-8, for 1-D arrays;
    raises when the shapes do not broadcast. *)
Definition close (a b : R) : bool := if Rle_dec (Rabs (a - b)) (/ 100000000 + / 100000 * Rabs b) then true else false.
Definition allclose (a b : vec) : result bool :=
  if Nat.eqb (length a) (length b) then Ok (forallb (fun ab => close (fst ab) (snd ab)) (combine a b))
  else match a, b with
       | [x], _ => Ok (forallb (fun y => close x y) b)
       | _, [y] => Ok (forallb (fun x => close x y) a)
       | _, _ => Err ValueError
       end.

(** ** The model setter with one cached quantity (455-485), array objects on a heap:
    assigning keeps a reference to the caller's array (validate_ndarray_with_shape,
    utils/code_utils.py 1062, copies nothing when the dtype already fits). *)
Section Cache.
  Context {V : Type} (f : vec -> V).
  Record cst := mkCst { heap : list vec; cur : option nat; cached : option V }.
  Definition deref (s : cst) (i : nat) : vec := nth i (heap s) [].
  Inductive cop := New (v : vec) | Mutate (i : nat) (v : vec) | Assign (i : nat) | Read.
  Fixpoint upd (l : list vec) (i : nat) (v : vec) : list vec :=
    match l, i with [], _ => [] | _ :: l', O => v :: l' | x :: l', S i' => x :: upd l' i' v end.
  (** Result of a step: new state, exception if any, value read if any. *)
  Definition cstep (s : cst) (o : cop) : cst * option exn * option V :=
    match o with
    | New v => (mkCst (heap s ++ [v]) (cur s) (cached s), None, None)
    | Mutate i v => (mkCst (upd (heap s) i v) (cur s) (cached s), None, None)
    | Assign i =>
        match cur s with
        | None => (mkCst (heap s) (Some i) None, None, None)
        | Some j =>
            if Nat.eqb i j then (s, None, None)
            else match allclose (deref s j) (deref s i) with
                 | Err e => (s, Some e, None)
                 | Ok true => (mkCst (heap s) (Some i) (cached s), None, None)
                 | Ok false => (mkCst (heap s) (Some i) None, None, None)
                 end
        end
    | Read =>
        match cached s with
        | Some c => (s, None, Some c)
        | None => match cur s with
                  | None => (s, Some AttributeError, None)
                  | Some j => let c := f (deref s j) in (mkCst (heap s) (cur s) (Some c), None, Some c)
                  end
        end
    end.
  Definition crun (ops : list cop) (s : cst) : cst := fold_left (fun s o => fst (fst (cstep s o))) ops s.
  Definition cst0 : cst := mkCst [] None None.
End Cache.
Arguments cst0 {V}.

(** ** Nested modelers (442-453) *)
Inductive mval := MNone | MArr (v : vec) | MTuple.
(** [needs]: input sizes of the active mappings; [nest]: nested modelers in the order
    in which the set is traversed; [cache]: whether cached quantities are stored. *)
Inductive hm := HM (needs : list (option nat)) (model : mval) (cache : bool) (nest : list hm).
Definition hm_needs (h : hm) := let 'HM n _ _ _ := h in n.
Definition hm_model (h : hm) := let 'HM _ m _ _ := h in m.
Definition hm_nest (h : hm) := let 'HM _ _ _ l := h in l.
(** 384-387 *)
Definition needs_model (h : hm) : bool := negb (Nat.eqb (length (hm_needs h)) 0).
Definition fits (n : nat) (d : option nat) : bool := match d with None => true | Some k => Nat.eqb k n end.

(** The loops 444-447 and 450-453: assign to every nested modeler that needs a model,
    stop at the first exception. *)
Definition assign_nested (setm : hm -> hm * option exn) : list hm -> list hm * option exn :=
  fix go (l : list hm) : list hm * option exn :=
    match l with
    | [] => ([], None)
    | h :: l' =>
        if needs_model h then
          match setm h with
          | (h', Some e) => (h' :: l', Some e)
          | (h', None) => let '(l'', e) := go l' in (h' :: l'', e)
          end
        else let '(l'', e) := go l' in (h :: l'', e)
    end.

(** 418-477 model.setter; [fuel] bounds the nesting depth. *)
Fixpoint set_model (fuel : nat) (h : hm) (value : mval) : hm * option exn :=
  match fuel with
  | O => (h, None)
  | S fuel' =>
      let 'HM needs model cache nest := h in
      match value with
      | MNone =>
          (* 459-470: None is not an array, so the cache goes unless it already is None *)
          (HM needs MNone (match model with MNone => cache | _ => false end) nest, None)
      | MTuple => if Nat.eqb (length needs) 0 && Nat.eqb (length nest) 0 then (h, Some ValueError) else (h, Some TypeError)
      | MArr v =>
          if Nat.eqb (length needs) 0 && Nat.eqb (length nest) 0 then (h, Some ValueError)
          else if negb (forallb (fits (length v)) needs) then (h, Some ValueError)
          else
            match assign_nested (fun x => set_model fuel' x value) nest with
            | (nest', Some e) =>
                match assign_nested (fun x => set_model fuel' x model) nest' with
                | (nest'', Some e') => (HM needs model cache nest'', Some e')
                | (nest'', None) => (HM needs model cache nest'', Some e)
                end
            | (nest', None) =>
                match model with
                | MArr u =>
                    match allclose u v with
                    | Err e => (HM needs model cache nest', Some e)
                    | Ok true => (HM needs value cache nest', None)
                    | Ok false => (HM needs value false nest', None)
                    end
                | _ => (HM needs value false nest', None)
                end
            end
      end
  end.
(** 479-485 model.deleter *)
Definition del_model (h : hm) : hm := let 'HM needs _ _ nest := h in HM needs MTuple false nest.
