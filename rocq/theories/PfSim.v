(** Integral gravity and magnetic simulations as objects with caches:
    simpeg/potential_fields/base.py, gravity/simulation.py 114-443 and
    magnetics/simulation.py 117-565, 822-827, with the model setter of props.py
    409-475 and LinearSimulation.dpred of simulation.py 698-704.

    Simplifications, common to all definitions: exact reals ([sensitivity_dtype]
    casts are left out); a [LinearOperator] is represented by the matrix it stands
    for, which the theorems of C68 show to be the same; the physical property has
    one mapping [e_phys] with matrix [e_physJ]; array objects are pairs of an
    identity and their present contents, so that an array changed in place is one
    with the same identity and other contents; [hashlib.sha256] of the weights is
    represented by the weights. *)
From Verif Require Export Pf SpecPf PropsM.
Local Open Scope R_scope.

Inductive engine := Geoana | Choclo.
Inductive store := Ram | Disk | ForwardOnly.
Notation mobj := (nat * vec)%type.

Section Sim.
Context {Cmp : Type}.
Notation survey := (list (list Cmp * list pt)).

(** The parts computed by the kernels of [Pf.v]: one row per component and location,
    given the engine and the magnetization in use; number of columns; the mapping to
    the physical property and its derivative; number of model parameters. *)
Record env := mkenv { e_rows : engine -> nat -> Cmp -> pt -> vec; e_nC : nat;
  e_phys : vec -> vec; e_physJ : vec -> mat; e_nP : nat }.

(** What the attribute [_G] holds: an array in memory, an array mapped to the file, or
    an operator that evaluates the survey at hand (magnetics 260-279, gravity 421-443,
    585-608, 673-688). *)
Inductive gval := GRam (G : mat) | GFile | GOp.
Record sim := mkst { s_engine : engine; s_store : store; s_amp : bool; s_survey : survey; s_M : nat;
  s_model : option mobj; s_G : option gval; s_gtg : option vec; s_w : option vec; s_ampD : option (list (R * R * R)); s_file : option mat }.
Definition with_model st m := mkst (s_engine st) (s_store st) (s_amp st) (s_survey st) (s_M st) m (s_G st) (s_gtg st) (s_w st) (s_ampD st) (s_file st).
Definition with_G st g f := mkst (s_engine st) (s_store st) (s_amp st) (s_survey st) (s_M st) (s_model st) g (s_gtg st) (s_w st) (s_ampD st) f.
Definition with_gtg st d w := mkst (s_engine st) (s_store st) (s_amp st) (s_survey st) (s_M st) (s_model st) (s_G st) d w (s_ampD st) (s_file st).
Definition with_ampD st d := mkst (s_engine st) (s_store st) (s_amp st) (s_survey st) (s_M st) (s_model st) (s_G st) (s_gtg st) (s_w st) d (s_file st).

Variable e : env.

(** The matrix of the survey and magnetization at hand (base.py 299-353 and gravity
    585-625, by the theorems of C68). *)
Definition fresh st : mat := by_location (e_rows e (s_engine st) (s_M st)) (s_survey st).
(** The numbers behind [_G].  A mapped array reads the file; there is a file then. *)
Definition gmat st (g : gval) : mat :=
  match g with GRam G => G | GFile => match s_file st with Some F => F | None => [] end | GOp => fresh st end.
(** The property [G] (magnetics 260-279, gravity 421-443): computed when first read.
    For geoana on disk a file of the expected shape is taken as it is (base.py
    310-318), else it is written (349-352); choclo always writes the file. *)
Definition shape_ok (F : mat) (nD nC : nat) : bool := (length F =? nD)%nat && forallb (fun r => (length r =? nC)%nat) F.
Definition get_G st : sim * result mat :=
  match s_G st with
  | Some g => (st, Ok (gmat st g))
  | None =>
    match s_engine st, s_store st with
    | Choclo, ForwardOnly => let st' := with_G st (Some GOp) (s_file st) in (st', Ok (gmat st' GOp))
    | Choclo, Disk => let st' := with_G st (Some GFile) (Some (fresh st)) in (st', Ok (gmat st' GFile))
    | Choclo, Ram => (with_G st (Some (GRam (fresh st))) (s_file st), Ok (fresh st))
    | Geoana, ForwardOnly => (st, Err NotImplementedError)
    | Geoana, Ram => (with_G st (Some (GRam (fresh st))) (s_file st), Ok (fresh st))
    | Geoana, Disk =>
      match s_file st with
      | Some F => if shape_ok F (survey_nD (s_survey st)) (e_nC e) then (with_G st (Some GFile) (Some F), Ok F)
                  else (with_G st (Some (GRam (fresh st))) (Some (fresh st)), Ok (fresh st))
      | None => (with_G st (Some (GRam (fresh st))) (Some (fresh st)), Ok (fresh st))
      end
    end
  end.

(** Assigning the model (props.py 409-475; magnetics 822-827): the two cached results
    of amplitude data are deleted unless the array is the same object or
    [np.allclose] to the one before. *)
Definition deleted st : sim := if s_amp st then with_ampD (with_gtg st None (s_w st)) None else st.
Definition set_model st (m : mobj) : sim * result unit :=
  if (length (snd m) =? e_nP e)%nat then
    match s_model st with
    | None => (with_model (deleted st) (Some m), Ok tt)
    | Some old =>
      if (fst old =? fst m)%nat then (with_model st (Some m), Ok tt)
      else match allclose (snd old) (snd m) with
           | Ok true => (with_model st (Some m), Ok tt)
           | Ok false => (with_model (deleted st) (Some m), Ok tt)
           | Err x => (st, Err x)
           end
    end
  else (st, Err ValueError).

(** [reshape((3, -1), order="F")]: columns of three (magnetics 555, 563, 493). *)
Fixpoint group3 {A} (v : list A) : result (list (A * A * A)) :=
  match v with
  | [] => Ok []
  | a :: b :: c :: v' => do t <- group3 v'; Ok ((a, b, c) :: t)
  | _ => Err ValueError
  end.
Definition norm3 (t : R * R * R) : R := let '(a, b, c) := t in sqrt (a * a + b * b + c * c).
(** magnetics 557-565, 546-555. *)
Definition compute_amplitude (v : vec) : result vec := do t <- group3 v; Ok (map norm3 t).
Definition over3 (t : R * R * R) : R * R * R := let '(a, b, c) := t in let n := norm3 t in (a / n, b / n, c / n).
Definition normalized_fields (v : vec) : result (list (R * R * R)) := do t <- group3 v; Ok (map over3 t).
(** Products with arrays of fitting shapes. *)
Definition matvec (n : nat) (M : mat) (v : vec) : result vec := if (length v =? n)%nat then Ok (mv M v) else Err ValueError.
Definition tmatvec (n : nat) (M : mat) (v : vec) : result vec := if (length v =? length M)%nat then Ok (mtv n M v) else Err ValueError.
Definition chi st : vec := match s_model st with Some m => e_phys e (snd m) | None => [] end.
Definition chiJ st : mat := match s_model st with Some m => e_physJ e (snd m) | None => [] end.

(** [fields] (magnetics 242-258, gravity 196-221). *)
Definition lift {A B} (r : sim * result A) (k : sim -> A -> sim * result B) : sim * result B :=
  match snd r with Ok a => k (fst r) a | Err x => (fst r, Err x) end.
Definition pure {A} st (r : result A) : sim * result A := (st, r).
Definition fields st m : sim * result vec :=
  lift (set_model st m) (fun st _ =>
  lift (match s_store st with
        | ForwardOnly => pure st (matvec (e_nC e) (fresh st) (chi st))
        | _ => lift (get_G st) (fun st G => pure st (matvec (e_nC e) G (chi st)))
        end) (fun st f =>
  pure st (if s_amp st then compute_amplitude f else Ok f))).
(** [ampDeriv] (magnetics 536-544). *)
Definition ampDeriv st : sim * result (list (R * R * R)) :=
  match s_ampD st with
  | Some d => (st, Ok d)
  | None => lift (get_G st) (fun st G =>
            lift (pure st (matvec (e_nC e) G (chi st))) (fun st f =>
            lift (pure st (normalized_fields f)) (fun st d => (with_ampD st (Some d), Ok d))))
  end.
Definition dot3 (s t : R * R * R) : R := let '(a, b, c) := s in let '(x, y, z) := t in a * x + b * y + c * z.
(** Broadcasting of a length one axis is left out: the shapes must be equal. *)
Fixpoint along3 (d t : list (R * R * R)) : result vec :=
  match d, t with
  | [], [] => Ok []
  | x :: d', y :: t' => do r <- along3 d' t'; Ok (dot3 x y :: r)
  | _, _ => Err ValueError
  end.
Fixpoint spread3 (d : list (R * R * R)) (v : vec) : result vec :=
  match d, v with
  | [], [] => Ok []
  | (a, b, c) :: d', x :: v' => do r <- spread3 d' v'; Ok (a * x :: b * x :: c * x :: r)
  | _, _ => Err ValueError
  end.
(** [Jvec] (magnetics 459-497, gravity 357-387) and [Jtvec] (499-534, 389-419). *)
Definition jvec st m v : sim * result vec :=
  lift (set_model st m) (fun st _ =>
  lift (pure st (matvec (e_nP e) (chiJ st) v)) (fun st dv =>
  lift (get_G st) (fun st G =>
  lift (pure st (matvec (e_nC e) G dv)) (fun st j =>
  if s_amp st then
    lift (pure st (group3 j)) (fun st t =>
    lift (ampDeriv st) (fun st d => pure st (along3 d t)))
  else pure st (Ok j))))).
Definition jtvec st m v : sim * result vec :=
  lift (set_model st m) (fun st _ =>
  lift (if s_amp st then lift (ampDeriv st) (fun st d => pure st (spread3 d v)) else pure st (Ok v)) (fun st v =>
  lift (get_G st) (fun st G =>
  lift (pure st (tmatvec (e_nC e) G v)) (fun st g => pure st (tmatvec (e_nP e) (chiJ st) g))))).
(** [getJ] (magnetics 300-344, gravity 318-355). *)
Definition matmul (n : nat) (A B : mat) : mat := map (mtv n B) A.
Definition getJ st m : sim * result mat :=
  if s_amp st then (st, Err NotImplementedError)
  else lift (set_model st m) (fun st _ => lift (get_G st) (fun st G => pure st (Ok (matmul (e_nP e) G (chiJ st))))).
(** [_get_gtg_diagonal] (magnetics 408-457, gravity 285-316). *)
Fixpoint amp_gtg (n : nat) (w : vec) (d : list (R * R * R)) (T : list (vec * vec * vec)) (acc : vec) : result vec :=
  match w with
  | [] => Ok acc
  | a :: w' =>
    match d, T with
    | (x, y, z) :: d', (gx, gy, gz) :: T' =>
        let row := vadd (vadd (vscale x gx) (vscale y gy)) (vscale z gz) in
        amp_gtg n w' d' T' (vadd acc (vscale a (vmul row row)))
    | _, _ => Err IndexError
    end
  end.
Fixpoint einsum (n : nat) (w : vec) (G : mat) : vec :=
  match w, G with
  | a :: w', r :: G' => vadd (map (fun g => a * g * g) r) (einsum n w' G')
  | _, _ => vzero n
  end.
Definition gtg_diagonal st (w : vec) : sim * result vec :=
  match s_engine st, s_store st, s_amp st with
  | Geoana, ForwardOnly, _ => (st, Err NotImplementedError)
  | Choclo, ForwardOnly, true => (st, Err NotImplementedError)
  | Choclo, ForwardOnly, false => (st, Ok (choclo_gtg (e_rows e Choclo (s_M st)) w (s_survey st) (vzero (e_nC e))))
  | _, _, false => lift (get_G st) (fun st G => pure st (if (length w =? length G)%nat then Ok (einsum (e_nC e) w G) else Err ValueError))
  | _, _, true => lift (ampDeriv st) (fun st d => lift (get_G st) (fun st G =>
                  pure st (do T <- group3 G; amp_gtg (e_nC e) w d T (vzero (e_nC e)))))
  end.
(** [(sdiag(sqrt(gtg)) @ chiDeriv).power(2).sum(axis=0)] (magnetics 403-405). *)
Fixpoint sqrt_colsum (n : nat) (g : vec) (J : mat) : vec :=
  match g, J with
  | a :: g', r :: J' => vadd (map (fun x => (sqrt a * x) * (sqrt a * x)) r) (sqrt_colsum n g' J')
  | _, _ => vzero n
  end.
(** [getJtJdiag] (magnetics 346-406, gravity 223-283); [W] is given by its diagonal. *)
Definition sq (x : R) : R := x * x.
Definition same_weights (a b : vec) : bool := if list_eq_dec Req_EM_T a b then true else false.
Definition jtjdiag st m (W : option vec) : sim * result vec :=
  lift (set_model st m) (fun st _ =>
  let w := match W with Some d => map sq d | None => vconst (survey_nD (s_survey st)) 1 end in
  let cached := match s_gtg st, s_w st with Some g, Some w' => if same_weights w' w then Some g else None | _, _ => None end in
  lift (match cached with
        | Some g => pure st (Ok g)
        | None => lift (gtg_diagonal st w) (fun st g => (with_gtg st (Some g) (Some w), Ok g))
        end) (fun st g => pure st (Ok (sqrt_colsum (e_nP e) g (chiJ st))))).

(** A history: queries, and assignments of the attributes; [OFile] is another
    simulation writing the same file. *)
Inductive op := OFields (m : mobj) | OJvec (m : mobj) (v : vec) | OJtvec (m : mobj) (v : vec) | OGetJ (m : mobj) | ODiag (m : mobj) (W : option vec)
  | OSurvey (s : survey) | OMag (k : nat) | OAmp (b : bool) | OFile (F : mat).
Inductive out := OutV (v : vec) | OutM (M : mat) | OutNone.
Definition outv (r : sim * result vec) : sim * result out := (fst r, do v <- snd r; Ok (OutV v)).
Definition outm (r : sim * result mat) : sim * result out := (fst r, do v <- snd r; Ok (OutM v)).
Definition step st (o : op) : sim * result out :=
  match o with
  | OFields m => outv (fields st m)
  | OJvec m v => outv (jvec st m v)
  | OJtvec m v => outv (jtvec st m v)
  | OGetJ m => outm (getJ st m)
  | ODiag m W => outv (jtjdiag st m W)
  | OSurvey s => (mkst (s_engine st) (s_store st) (s_amp st) s (s_M st) (s_model st) (s_G st) (s_gtg st) (s_w st) (s_ampD st) (s_file st), Ok OutNone)
  | OMag k => (mkst (s_engine st) (s_store st) (s_amp st) (s_survey st) k (s_model st) (s_G st) (s_gtg st) (s_w st) (s_ampD st) (s_file st), Ok OutNone)
  | OAmp b => (mkst (s_engine st) (s_store st) b (s_survey st) (s_M st) (s_model st) (s_G st) (s_gtg st) (s_w st) (s_ampD st) (s_file st), Ok OutNone)
  | OFile F => (with_G st (s_G st) (Some F), Ok OutNone)
  end.
Fixpoint run st (ops : list op) : list (result out) :=
  match ops with
  | [] => []
  | o :: ops' => snd (step st o) :: run (fst (step st o)) ops'
  end.
(** A new simulation (base.py 80-118, magnetics 162-180). *)
Definition new (eng : engine) (sto : store) (amp : bool) (s : survey) (k : nat) (file : option mat) : sim :=
  mkst eng sto amp s k None None None None None file.
End Sim.
Arguments env Cmp : clear implicits.
Arguments sim Cmp : clear implicits.
Arguments op Cmp : clear implicits.
