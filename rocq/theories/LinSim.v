(** Model of simpeg/simulation.py: LinearSimulation (617-754), ExponentialSinusoidSimulation
    (757-973) and the times of BaseTimeSimulation (436-587). *)
From Verif Require Import Py Vec PropsM.
Local Open Scope R_scope.

(** ** LinearSimulation *)
(** The operator, the property linear_model with its mapping (the reciprocal side of
    [pst] is never used), the model and the number of data of the survey. *)
Record lin := mkLin { l_G : option mat; l_prop : pst; l_model : option vec; l_nD : nat }.
(** 655-668 __init__ with a survey without sources (or none): the number of data is taken
    from G, if there is one. *)
Definition lin_init (f : option pmap) (G : option mat) : lin :=
  mkLin G (set_map (set_value pst0 P None) P f) None (match G with Some M => length M | None => 0 end).
(** 687-691 *)
Definition set_G (s : lin) (G : mat) : lin := mkLin (Some G) (l_prop s) (l_model s) (l_nD s).
(** props.py 408-441, without nested modelers. *)
Definition set_model (s : lin) (m : option vec) : lin * option exn :=
  match m with
  | None => (mkLin (l_G s) (l_prop s) None (l_nD s), None)
  | Some v => match m_p (l_prop s) with
              | None => (s, Some ValueError)
              | Some f => if fits (length v) (pm_in f) then (mkLin (l_G s) (l_prop s) (Some v) (l_nD s), None) else (s, Some ValueError)
              end
  end.
(** [M.dot(v)]: raises when the shapes disagree. *)
Definition mdot (M : mat) (v : vec) : result vec :=
  if forallb (fun r => Nat.eqb (length r) (length v)) M then Ok (mv M v) else Err ValueError.
(** 693-696; [self.G.dot] is looked up before linear_model. *)
Definition lfields (s : lin) (m : option vec) : lin * result vec :=
  match set_model s m with
  | (s1, Some e) => (s1, Err e)
  | (s1, None) =>
      (s1, match l_G s1 with
           | None => Err AttributeError
           | Some G => do u <- read_value false (l_model s1) (l_prop s1) P;
                       match u with Some u => mdot G u | None => Err AttributeError end
           end)
  end.
(** 698-704 *)
Definition ldpred (s : lin) (m f : option vec) : lin * result vec :=
  let '(s1, e) := match m with None => (s, None) | Some _ => set_model s m end in
  match e with
  | Some e => (s1, Err e)
  | None => match f with Some f => (s1, Ok f) | None => lfields s1 (l_model s1) end
  end.
(** 746-749, for a model array; the derivative is then a matrix. *)
Definition jvec (s : lin) (m v : vec) : lin * result vec :=
  match set_model s (Some m) with
  | (s1, Some e) => (s1, Err e)
  | (s1, None) =>
      (s1, match l_G s1, read_deriv (l_model s1) (l_prop s1) P with
           | Some G, Some D => do w <- mdot D v; mdot G w
           | _, _ => Err AttributeError
           end)
  end.
(** [M.T.dot(w)]; [k] is the number of columns of M. *)
Definition mtdot (k : nat) (M : mat) (w : vec) : result vec :=
  if Nat.eqb (length M) (length w) then Ok (mtv k M w) else Err ValueError.
(** 751-754 *)
Definition jtvec (s : lin) (m w : vec) : lin * result vec :=
  match set_model s (Some m) with
  | (s1, Some e) => (s1, Err e)
  | (s1, None) =>
      (s1, match l_G s1, read_deriv (l_model s1) (l_prop s1) P with
           | Some G, Some D => do u <- mtdot (length D) G w; mtdot (length m) D u
           | _, _ => Err AttributeError
           end)
  end.
(** 706-744: D' G' transposed, row by row. *)
Definition getJ (s : lin) (m : vec) : lin * result mat :=
  match set_model s (Some m) with
  | (s1, Some e) => (s1, Err e)
  | (s1, None) =>
      (s1, match l_G s1, read_deriv (l_model s1) (l_prop s1) P with
           | Some G, Some D => mapM (mtdot (length m) D) G
           | _, _ => Err AttributeError
           end)
  end.
(** Histories. *)
Inductive lop := LSetG (G : mat) | LSetMap (f : option pmap) | LSetValue (v : option vec) | LSetModel (m : option vec)
  | LDpred (m : option vec) | LJvec (m v : vec) | LJtvec (m w : vec) | LGetJ (m : vec).
Definition set_prop (s : lin) (p : pst) : lin := mkLin (l_G s) p (l_model s) (l_nD s).
Definition lstep (s : lin) (o : lop) : lin :=
  match o with
  | LSetG G => set_G s G
  | LSetMap f => set_prop s (set_map (l_prop s) P f)
  | LSetValue v => set_prop s (set_value (l_prop s) P v)
  | LSetModel m => fst (set_model s m)
  | LDpred m => fst (ldpred s m None)
  | LJvec m v => fst (jvec s m v)
  | LJtvec m w => fst (jtvec s m w)
  | LGetJ m => fst (getJ s m)
  end.
Definition lrun (s : lin) (l : list lop) : lin := fold_left lstep l s.

(** ** ExponentialSinusoidSimulation *)
(** 813-920: the parameters; the mesh is given by its origin and cell widths. *)
Record ecfg := mkEcfg { e_p : R; e_q : R; e_j0 : R; e_jn : R; e_n : nat; e_x0 : R; e_h : vec }.
(** With the cached attributes _jk and _G. *)
Record est := mkEst { e_cfg : ecfg; e_jk : option vec; e_G : option mat }.
(** [np.linspace(a, b, n)] *)
Definition linspace (a b : R) (n : nat) : vec := map (fun i => a + INR i * ((b - a) / INR (n - 1))) (seq 0 n).
(** 922-933 *)
Definition read_jk (s : est) : est * vec :=
  match e_jk s with
  | Some j => (s, j)
  | None => let j := linspace (e_j0 (e_cfg s)) (e_jn (e_cfg s)) (e_n (e_cfg s)) in (mkEst (e_cfg s) (Some j) (e_G s), j)
  end.
(** mesh.nodes_x *)
Fixpoint nodes (x0 : R) (h : vec) : vec := match h with [] => [x0] | d :: h' => x0 :: nodes (x0 + d) h' end.
(** 935-953, at one node *)
Definition kernel (c : ecfg) (j x : R) : R := exp (e_p c * j * x) * cos (PI * e_q c * j * x).
(** 970-972: a row of (average_node_to_cell @ G_nodes).T @ diag(cell_volumes) *)
Fixpoint averages (g : vec) (h : vec) : vec :=
  match g, h with
  | a :: ((b :: _) as g'), d :: h' => (/ 2 * a + / 2 * b) * d :: averages g' h'
  | _, _ => []
  end.
Definition krow (c : ecfg) (j : R) : vec := averages (map (kernel c j) (nodes (e_x0 c) (e_h c))) (e_h c).
(** 955-973 *)
Definition read_G (s : est) : est * result mat :=
  match e_G s with
  | Some G => (s, Ok G)
  | None =>
      let '(s1, jk) := read_jk s in
      match mapM (fun i => match nth_error jk i with Some j => Ok (krow (e_cfg s) j) | None => Err IndexError end) (seq 0 (e_n (e_cfg s))) with
      | Ok G => (mkEst (e_cfg s1) (e_jk s1) (Some G), Ok G)
      | Err e => (s1, Err e)
      end
  end.
(** Assignments of parameters (with the check of n_kernels, 860), and reads. *)
Inductive eop := EP (x : R) | EQ (x : R) | EJ0 (x : R) | EJn (x : R) | EN (n : nat) | EMesh (x0 : R) (h : vec) | EReadG | EReadJk.
Definition put_cfg (s : est) (c : ecfg) : est := mkEst c (e_jk s) (e_G s).
Definition econf (c : ecfg) (o : eop) : ecfg :=
  match o with
  | EP x => mkEcfg x (e_q c) (e_j0 c) (e_jn c) (e_n c) (e_x0 c) (e_h c)
  | EQ x => mkEcfg (e_p c) x (e_j0 c) (e_jn c) (e_n c) (e_x0 c) (e_h c)
  | EJ0 x => mkEcfg (e_p c) (e_q c) x (e_jn c) (e_n c) (e_x0 c) (e_h c)
  | EJn x => mkEcfg (e_p c) (e_q c) (e_j0 c) x (e_n c) (e_x0 c) (e_h c)
  | EN n => if Nat.ltb n 1 then c else mkEcfg (e_p c) (e_q c) (e_j0 c) (e_jn c) n (e_x0 c) (e_h c)
  | EMesh x0 h => mkEcfg (e_p c) (e_q c) (e_j0 c) (e_jn c) (e_n c) x0 h
  | _ => c
  end.
Definition estep (s : est) (o : eop) : est :=
  match o with
  | EReadG => fst (read_G s)
  | EReadJk => fst (read_jk s)
  | _ => put_cfg s (econf (e_cfg s) o)
  end.
Definition erun (s : est) (l : list eop) : est := fold_left estep l s.

(** ** BaseTimeSimulation *)
(** discretize.utils.unpack_widths (not part of the repository; its documented meaning):
    numbers, (width, number) and (width, number, factor). *)
Inductive width := W1 (x : R) | W2 (x : R) (n : nat) | W3 (x : R) (n : nat) (factor : R) | WBad.
Definition unpack1 (w : width) : result vec :=
  match w with
  | W1 x => Ok [x]
  | W2 x n => Ok (repeat x n)
  | W3 x n f => let pad := map (fun i => Rabs f ^ (i + 1) * x) (seq 0 n) in Ok (if Rlt_dec f 0 then rev pad else pad)
  | WBad => Err GenericException
  end.
Definition unpack_widths (l : list width) : result vec := do p <- mapM unpack1 l; Ok (concat p).
(** What can be assigned to time_steps (509-516): nothing, a list in compact form, an
    array, or something that is neither. *)
Inductive tval := TNone | TList (l : list width) | TArr (v : vec) | TBad.
(** _t0, _time_steps and, when cached, what _time_mesh was built from. *)
Record tst := mkTst { t_t0 : R; t_steps : option vec; t_mesh : option (R * vec) }.
(** 509-516 *)
Definition set_steps (s : tst) (v : tval) : tst * option exn :=
  match v with
  | TNone => (mkTst (t_t0 s) None None, None)
  | TArr a => (mkTst (t_t0 s) (Some a) None, None)
  | TBad => (s, Some TypeError)
  | TList l => match unpack_widths l with Ok a => (mkTst (t_t0 s) (Some a) None, None) | Err e => (s, Some e) end
  end.
(** 529-532; [None] is something that is no number. *)
Definition set_t0 (s : tst) (t : option R) : tst * option exn :=
  match t with Some t => (mkTst t (t_steps s) None, None) | None => (s, Some TypeError) end.
(** 534-556; a mesh of no steps at all cannot be built. *)
Definition time_mesh (s : tst) : tst * result (R * vec) :=
  match t_mesh s with
  | Some m => (s, Ok m)
  | None => match t_steps s with
            | None => (s, Err TypeError)
            | Some h => (mkTst (t_t0 s) (t_steps s) (Some (t_t0 s, h)), Ok (t_t0 s, h))
            end
  end.
(** 563-587: n_cells and nodes_x of the mesh. *)
Definition nT (s : tst) : tst * result nat := let '(s1, r) := time_mesh s in (s1, do m <- r; Ok (length (snd m))).
Definition times (s : tst) : tst * result vec := let '(s1, r) := time_mesh s in (s1, do m <- r; Ok (nodes (fst m) (snd m))).
Inductive top := TSteps (v : tval) | TT0 (t : option R) | TTimes | TNT | TDelMesh.
Definition tstep (s : tst) (o : top) : tst :=
  match o with
  | TSteps v => fst (set_steps s v)
  | TT0 t => fst (set_t0 s t)
  | TTimes => fst (times s)
  | TNT => fst (nT s)
  | TDelMesh => mkTst (t_t0 s) (t_steps s) None
  end.
Definition trun (s : tst) (l : list top) : tst := fold_left tstep l s.
(** 474-477 *)
Definition time_init (t0 : R) (v : tval) : tst := fst (set_steps (mkTst t0 None None) v).
