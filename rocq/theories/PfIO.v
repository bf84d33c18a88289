(** UBC files of gravity and magnetic data: simpeg/utils/io_utils/io_utils_pf.py, with the
    parts of data.py they use.  A file is a list of lines.  Numbers may be nan.  Printing
    rounds: [p_fix2] is what "%6.2f" and [p_exp] what "%e" leaves of a number; text is
    otherwise kept as tokens, except for the first line of a gradient file. *)
From Verif Require Export Py Vec.
From Coq Require Export String Ascii.
Local Open Scope R_scope.

Definition num := option R.
Record printer := { p_fix2 : R -> R; p_exp : R -> R }.
Inductive tok := TNum (v : num) | TInt (n : nat) | TWord (s : string).
Inductive line := Toks (l : list tok) | Text (s : string).
Definition file := list line.
(** A call returns, raises, or runs for ever. *)
Inductive outcome (A : Type) := Returns (a : A) | Raises (e : exn) | Hangs.
Arguments Returns {A} a. Arguments Raises {A} e. Arguments Hangs {A}.
Definition obind {A B} (r : outcome A) (f : A -> outcome B) : outcome B :=
  match r with Returns a => f a | Raises e => Raises e | Hangs => Hangs end.
Definition lift {A} (r : result A) : outcome A := match r with Ok a => Returns a | Err e => Raises e end.
Notation "'run' x <- r ; k" := (obind r (fun x => k)) (at level 200, x pattern, r at level 100, k at level 200, right associativity).

(** [line.split()] and [np.array(.., dtype=float)]; past the end [readline] gives "". *)
Definition tokens (l : line) : list tok := match l with Toks l => l | Text s => [TWord s] end.
Definition float_of (t : tok) : result num := match t with TNum v => Ok v | TInt n => Ok (Some (INR n)) | TWord _ => Err ValueError end.
Definition floats (l : list tok) : result (list num) := mapM float_of l.
Definition int_of (l : list tok) : result nat := match l with [] => Err IndexError | TInt n :: _ => Ok n | _ :: _ => Err ValueError end.
Definition next (f : file) : list tok * file := match f with [] => ([], []) | l :: f' => (tokens l, f') end.

(** Numbers with nan. *)
Definition zero (x : num) : bool := match x with Some r => if Req_EM_T r 0 then true else false | None => false end.
Definition negative (x : num) : bool := match x with Some r => if Rlt_dec r 0 then true else false | None => false end.
Definition nmap (f : R -> R) (x : num) : num := option_map f x.
Definition nmap2 (f : R -> R -> R) (x y : num) : num := match x, y with Some a, Some b => Some (f a b) | _, _ => None end.
Fixpoint zip2 {A B C} (f : A -> B -> C) (a : list A) (b : list B) : list C :=
  match a, b with x :: a', y :: b' => f x y :: zip2 f a' b' | _, _ => [] end.

(** Receivers (locations, components), the inducing field (amplitude, inclination,
    declination; [None] for gravity), and the data object (data.py 55-90, 204-298). *)
Record receiver := { r_locs : list (list num); r_comps : list string }.
Record pdata := { d_field : option (num * num * num); d_rxs : list receiver; d_obs : list num; d_rel : option (list num); d_floor : option (list num) }.
Definition r_nD (r : receiver) : nat := (List.length (r_locs r) * List.length (r_comps r))%nat.
Definition nD (rxs : list receiver) : nat := fold_right (fun r n => (r_nD r + n)%nat) 0%nat rxs.
(** [standard_deviation] (283-290) *)
Definition stdev (d : pdata) : result (list num) :=
  match d_rel d, d_floor d with
  | None, None => Err TypeError
  | rel, fl =>
    let u0 := map (fun _ => Some 0) (d_obs d) in
    let u1 := match rel with Some r => zip2 (nmap2 Rplus) u0 (zip2 (fun e x => nmap2 (fun a b => (a * Rabs b) * (a * Rabs b)) e x) r (d_obs d)) | None => u0 end in
    let u2 := match fl with Some r => zip2 (nmap2 Rplus) u1 (map (nmap (fun x => x * x)) r) | None => u1 end in
    Ok (map (nmap sqrt) u2)
  end.
(** [Data(survey, dobs=d, standard_deviation=wd)] *)
Definition make_data (fld : option (num * num * num)) (rxs : list receiver) (d wd : option (list num)) : result pdata :=
  let n := nD rxs in
  let obs := match d with Some x => x | None => repeat None n end in
  let fl := match wd with Some x => x | None => repeat (Some 0) n end in
  if negb (List.length obs =? n)%nat then Err ValueError
  else if negb (List.length fl =? n)%nat then Err ValueError
  else if existsb negative fl then Err ValueError
  else Ok {| d_field := fld; d_rxs := rxs; d_obs := obs; d_rel := Some (repeat (Some 0) n); d_floor := Some fl |}.

(** [np.c_]: columns added to a table with as many rows. *)
Definition app1 (r : list num) (x : num) : list num := r ++ [x].
Definition add_column (t : list (list num)) (c : list num) : result (list (list num)) :=
  if (List.length t =? List.length c)%nat then Ok (zip2 app1 t c) else Err ValueError.
Definition add_columns (t c : list (list num)) : result (list (list num)) :=
  if (List.length t =? List.length c)%nat then Ok (zip2 (@app num) t c) else Err ValueError.
(** [np.savetxt(.., fmt="%e")]: the rows, the header and its end of line. *)
Definition row_line (P : printer) (r : list num) : line := Toks (map (fun x => TNum (nmap (p_exp P) x)) r).
Definition one_receiver (rxs : list receiver) : result receiver :=
  match rxs with [r] => Ok r | [] => Err IndexError | _ => Err NotImplementedError end.

(** [write_mag3d_ubc] (81-122): the header ends with an end of line, [savetxt] adds one. *)
Definition fix2 (P : printer) (x : num) : tok := TNum (nmap (p_fix2 P) x).
Definition write_mag (P : printer) (d : pdata) : result file :=
  do rx <- one_receiver (d_rxs d);
  match d_field d with
  | None => Err AttributeError
  | Some (amp, inc, dec) =>
    do t <- add_column (r_locs rx) (d_obs d);
    do s <- stdev d;
    do t <- add_column t s;
    Ok ([Toks [fix2 P inc; fix2 P dec; fix2 P amp]; Toks [fix2 P inc; fix2 P dec; fix2 P (Some 1)]; Toks [TInt (nD (d_rxs d))]; Toks []]
        ++ map (row_line P) t)
  end.
(** [write_grav3d_ubc] (193-230) *)
Definition write_grav (P : printer) (d : pdata) : result file :=
  do rx <- one_receiver (d_rxs d);
  do t <- add_column (r_locs rx) (map (nmap Ropp) (d_obs d));
  do s <- stdev d;
  do t <- add_column t s;
  Ok ([Toks [TInt (nD (d_rxs d))]; Toks []] ++ map (row_line P) t).

(** The loop over the rows (50-62, 161-173): blank lines are skipped and past the end of
    the file every line is blank. *)
Definition row3 (t : list num) : result (list num) :=
  match firstn 3 t with [x; y; z] => Ok [x; y; z] | [x] => Ok [x; x; x] | _ => Err ValueError end.
Definition entry (t : list num) : result (list num * num * num) :=
  do loc <- row3 t;
  Ok (loc, if (3 <? List.length t)%nat then nth 3 t None else Some 0, if (List.length t =? 5)%nat then nth 4 t None else Some 0).
Fixpoint read_rows (rest : file) (n : nat) (cur : list tok) : outcome (list (list num * num * num)) :=
  match n with
  | O => Returns []
  | S n' =>
    match lift (floats cur) with
    | Raises e => Raises e
    | Hangs => Hangs
    | Returns [] => match rest with [] => Hangs | l :: rest' => read_rows rest' n (tokens l) end
    | Returns t =>
      run e <- lift (entry t);
      match rest with
      | [] => match n' with O => Returns [e] | S _ => Hangs end
      | l :: rest' => run es <- read_rows rest' n' (tokens l); Returns (e :: es)
      end
    end
  end.
Definition unless_zero (l : list num) : option (list num) := if forallb zero l then None else Some l.
Definition locs_of (es : list (list num * num * num)) := map (fun e => fst (fst e)) es.
Definition obs_of (es : list (list num * num * num)) := map (fun e => snd (fst e)) es.
Definition std_of (es : list (list num * num * num)) := map snd es.
(** [inclination] between -90 and 90 (magnetics/sources.py 83-87) *)
Definition check_inclination (x : num) : result num :=
  match x with Some r => if Rlt_dec r (-90) then Err ValueError else if Rlt_dec 90 r then Err ValueError else Ok x | None => Ok x end.
(** [read_mag3d_ubc] (5-78) *)
Definition read_mag (f : file) : outcome pdata :=
  let (l1, f) := next f in
  run B <- lift (floats (firstn 3 l1));
  let (_, f) := next f in
  let (l3, f) := next f in
  run n <- lift (int_of l3);
  let (cur, f) := next f in
  run _ <- lift (floats cur);
  run es <- read_rows f n cur;
  match B with
  | [inc; dec; amp] =>
    run inc <- lift (check_inclination inc);
    lift (make_data (Some (amp, inc, dec)) [{| r_locs := locs_of es; r_comps := ["tmi"%string] |}] (unless_zero (obs_of es)) (unless_zero (std_of es)))
  | _ => Raises IndexError
  end.
(** [read_grav3d_ubc] (125-190) *)
Definition read_grav (f : file) : outcome pdata :=
  let (l1, f) := next f in
  run n <- lift (int_of l1);
  let (cur, f) := next f in
  run es <- read_rows f n cur;
  lift (make_data None [{| r_locs := locs_of es; r_comps := ["gz"%string] |}]
          (option_map (map (nmap Ropp)) (unless_zero (obs_of es))) (unless_zero (std_of es))).

(** Gradient files.  [str.split(c)], [",".join]; the tables of 266-268 and 347-349. *)
Fixpoint split_on (c : ascii) (s : string) : list string :=
  match s with
  | EmptyString => [EmptyString]
  | String a s' =>
    if Ascii.eqb a c then EmptyString :: split_on c s'
    else match split_on c s' with h :: t => String a h :: t | [] => [] end
  end.
Fixpoint comma_to_space (s : string) : string :=
  match s with EmptyString => EmptyString | String a s' => String (if Ascii.eqb a "," then " "%char else a) (comma_to_space s') end.
Definition ubc_types : list string := ["xx"; "xy"; "xz"; "yy"; "yz"; "zz"; "uv"]%string.
Definition simpeg_types : list string := ["gyy"; "gxy"; "gyz"; "gxx"; "gxz"; "gzz"; "guv"]%string.
Definition factor_list : list R := [1; 1; -1; 1; -1; 1; 1].
Fixpoint index_of (s : string) (l : list string) : result nat :=
  match l with [] => Err ValueError | x :: l' => if String.eqb x s then Ok 0%nat else do k <- index_of s l'; Ok (S k) end.
Definition from_ubc (s : string) : result (string * R) := do k <- index_of s ubc_types; Ok (nth k simpeg_types ""%string, nth k factor_list 0).
Definition to_ubc (s : string) : result (string * R) := do k <- index_of s simpeg_types; Ok (nth k ubc_types ""%string, nth k factor_list 0).
(** The loop of 350-353 writes the UBC names into the receiver's own list: the names left
    there, and the factors or the exception. *)
Fixpoint convert (comps : list string) : list string * result (list R) :=
  match comps with
  | [] => ([], Ok [])
  | c :: cs =>
    match to_ubc c with
    | Ok (u, k) => let (us, ks) := convert cs in (u :: us, do ks <- ks; Ok (k :: ks))
    | Err e => (comps, Err e)
    end
  end.
Fixpoint rows_of (n k : nat) (v : list num) : list (list num) := match n with O => [] | S n' => firstn k v :: rows_of n' k (skipn k v) end.
Definition reshape_rows (n k : nat) (v : list num) : result (list (list num)) := if (List.length v =? n * k)%nat then Ok (rows_of n k v) else Err ValueError.
Definition scale_row (fs : list R) (r : list num) : list num := zip2 (fun f x => nmap (fun y => f * y) x) fs r.
(** [write_gg3d_ubc] (320-380): the file or the exception, and the data object afterwards. *)
Definition write_gg (P : printer) (d : pdata) : pdata * result file :=
  match d_rxs d with
  | [rx] =>
    let (us, ks) := convert (r_comps rx) in
    let d' := {| d_field := d_field d; d_rxs := [{| r_locs := r_locs rx; r_comps := us |}]; d_obs := d_obs d; d_rel := d_rel d; d_floor := d_floor d |} in
    (d', do ks <- ks;
         let n := List.length (r_locs rx) in let k := List.length us in
         do t <- (if existsb (fun x => negb (zero x)) (d_obs d)
                  then do rows <- reshape_rows n k (d_obs d); add_columns (r_locs rx) (map (scale_row ks) rows) else Ok (r_locs rx));
         do s <- stdev d;
         do t <- (if existsb (fun x => negb (zero x)) s then do rows <- reshape_rows n k s; add_columns t rows else Ok t);
         Ok ([Text (String.append "datacomp=" (String.concat "," us)); Toks [TInt n]] ++ map (row_line P) t))
  | [] => (d, Err IndexError)
  | _ => (d, Err NotImplementedError)
  end.
(** [read_gg3d_ubc] (233-317); the end of the file is an IOError. *)
Definition header_comps (l : line) : result (list string) :=
  match l with
  | Toks _ => Err IndexError
  | Text s =>
    match split_on "=" s with
    | _ :: x :: _ => Ok (filter (fun s => negb (String.eqb s "")) (split_on " " (comma_to_space (hd ""%string (split_on "!" x)))))
    | _ => Err IndexError
    end
  end.
Definition gg_entry (k : nat) (fs : list R) (t : list num) : result (list num * option (list num) * option (list num)) :=
  do loc <- row3 t;
  Ok (if (List.length t =? 3 + k)%nat then (loc, Some (scale_row fs (skipn 3 t)), None)
      else if (List.length t =? 3 + k * 2)%nat then (loc, Some (scale_row fs (firstn k (skipn 3 t))), Some (skipn (3 + k) t))
      else (loc, None, None)).
Fixpoint gg_rows (k : nat) (fs : list R) (n : nat) (f : file) : result (list (list num * option (list num) * option (list num))) :=
  match n with
  | O => Ok []
  | S n' => match f with
            | [] => Err GenericException
            | l :: f' => do t <- floats (tokens l); do e <- gg_entry k fs t; do es <- gg_rows k fs n' f'; Ok (e :: es)
            end
  end.
Definition present {A} (l : list (option (list A))) : option (list A) :=
  match flat_map (fun x => match x with Some r => [r] | None => [] end) l with [] => None | rows => Some (List.concat rows) end.
Definition read_gg (f : file) : result pdata :=
  do comps <- match f with [] => Err IndexError | l :: _ => header_comps l end;
  do cf <- mapM from_ubc comps;
  let (l2, f) := next (tl f) in
  do n <- int_of l2;
  do es <- gg_rows (List.length comps) (map snd cf) n f;
  make_data None [{| r_locs := map (fun e => fst (fst e)) es; r_comps := map fst cf |}]
    (present (map (fun e => snd (fst e)) es)) (present (map snd es)).
