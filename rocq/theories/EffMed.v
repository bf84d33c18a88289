(** Model of simpeg/maps/_property_maps.py: SelfConsistentEffectiveMedium (1018-1526) with
    random=True (spheroids without preferred orientation). *)
From Verif Require Import Py Vec SensW Scaling.
Local Open Scope R_scope.

(** 1104-1257: conductivities and aspect ratios of the two phases, relative tolerance and
    number of iterations. Conductivities and aspect ratios of zero, which the setters also
    accept, lead to divisions by zero; they are outside this model. *)
Record emt := mkEmt { sig0 : R; sig1 : R; alpha0 : R; alpha1 : R; rel_tol : R; max_iter : nat }.
(** 1282-1292: (lower, upper) *)
Definition wiener_bounds (c : emt) (phi1 : R) : R * R :=
  let phi0 := 1 - phi1 in
  (1 / (phi0 / sig0 c + phi1 / sig1 c), phi0 * sig0 c + phi1 * sig1 c).
(** 1294-1317: (lower, upper) *)
Definition hashin_shtrikman_bounds (c : emt) (phi1 : R) : R * R :=
  let phi0 := 1 - phi1 in
  let wu := snd (wiener_bounds c phi1) in
  let tilde := phi0 * sig1 c + phi1 * sig0 c in
  let smin := Rmin (sig0 c) (sig1 c) in
  let smax := Rmax (sig0 c) (sig1 c) in
  (wu - phi0 * phi1 * (sig0 c - sig1 c) ^ 2 / (tilde + 2 * smax), wu - phi0 * phi1 * (sig0 c - sig1 c) ^ 2 / (tilde + 2 * smin)).
(** 1356-1376 *)
Definition getQ (alpha : R) : R :=
  if Rlt_dec alpha 1 then let chi := sqrt (1 / alpha ^ 2 - 1) in 1 / 2 * (1 + 1 / (alpha ^ 2 - 1) * (1 - atan chi / chi))
  else if Rlt_dec 1 alpha then let chi := sqrt (1 - 1 / alpha ^ 2) in 1 / 2 * (1 + 1 / (alpha ^ 2 - 1) * (1 - 1 / (2 * chi) * ln ((1 + chi) / (1 - chi))))
  else 1 / 3.
(** 1385-1395 *)
Definition getR (sj se alpha : R) : R :=
  if Req_EM_T alpha 1 then 3 * se / (2 * se + sj)
  else let Q := getQ alpha in se / 3 * (2 / (se + Q * (sj - se)) + 1 / (sj - 2 * Q * (sj - se))).
(** 1404-1425 *)
Definition getdR (sj se alpha : R) : R :=
  if Req_EM_T alpha 1 then 3 / (2 * se + sj) - 6 * se / (2 * se + sj) ^ 2
  else let Q := getQ alpha in
       1 / 3 * (2 / (se + Q * (sj - se)) + 1 / (sj - 2 * Q * (sj - se)) +
                se * (- (2) * (1 - Q) / (se + Q * (sj - se)) ^ 2 - 2 * Q / (sj - 2 * Q * (sj - se)) ^ 2)).
(** 1453-1460, in one cell *)
Definition sc_step (c : emt) (phi1 s : R) : R :=
  let phi0 := 1 - phi1 in
  let R0 := getR (sig0 c) s (alpha0 c) in
  let R1 := getR (sig1 c) s (alpha1 c) in
  (phi0 * sig0 c * R0 + phi1 * sig1 c * R1) / (phi0 * R0 + phi1 * R1).
(** 1452-1477 *)
Fixpoint sc_loop (k : nat) (c : emt) (tol : R) (phi s : vec) : vec * bool :=
  match k with
  | O => (s, false)
  | S k' =>
      let s2 := zipw (sc_step c) phi s in
      if forallb (fun d => if Rle_dec (Rabs d) tol then true else false) (vsub s2 s) then (s2, true) else sc_loop k' c tol phi s2
  end.
(** The object: with the cached tolerance (_tol, 1259-1267) and starting point (_sigstart). *)
Record emst := mkEmst { em_c : emt; em_tol : option R; em_start : option vec }.
Definition in_unit (x : R) : bool := if Rle_dec 0 x then if Rle_dec x 1 then true else false else false.
(** Broadcasting of two one-dimensional arrays. *)
Definition bcast2 (a b : vec) : result (vec * vec) :=
  if Nat.eqb (length a) (length b) then Ok (a, b)
  else match a, b with
       | [x], _ => Ok (vconst (length b) x, b)
       | _, [y] => Ok (a, vconst (length a) y)
       | _, _ => Err ValueError
       end.
(** 1431-1477. Scalars are arrays of one number. A fraction outside [0, 1] makes all
    fractions the median of the fractions, as many zeros and as many ones. Without any
    iteration the result is not bound. *)
Definition sc_transform (st : emst) (phi : vec) : emst * result vec :=
  let c := em_c st in
  let phi' := if forallb in_unit phi then phi else [median (vscale 0 phi ++ phi ++ map (fun x => 0 * x + 1) phi)] in
  let start := match em_start st with
               | Some s => s
               | None => [(vsum (map (fun p => fst (wiener_bounds c p)) phi') + vsum (map (fun p => snd (wiener_bounds c p)) phi')) / (2 * INR (length phi'))]
               end in
  match max_iter c with
  | O => (st, Err GenericException)
  | S _ =>
      match bcast2 phi' start with
      | Err e => (st, Err e)
      | Ok (p, s) =>
          let tol := match em_tol st with Some t => t | None => rel_tol c * Rmin (sig0 c) (sig1 c) end in
          let '(r, conv) := sc_loop (max_iter c) c tol p s in
          (mkEmst c (Some tol) (match em_start st with Some s => Some s | None => if conv then Some r else None end), Ok r)
      end
  end.
(** 1479-1486 *)
Definition sc_inverse (c : emt) (s : R) : R :=
  let R0 := getR (sig0 c) s (alpha0 c) in
  let R1 := getR (sig1 c) s (alpha1 c) in
  (- (sig0 c - s) * R0) / ((sig1 c - s) * R1 - (sig0 c - s) * R0).
(** 1488-1502: an entry of the diagonal *)
Definition sc_deriv (c : emt) (s phi1 : R) : R :=
  let phi0 := 1 - phi1 in
  let R0 := getR (sig0 c) s (alpha0 c) in
  let R1 := getR (sig1 c) s (alpha1 c) in
  let dR0 := getdR (sig0 c) s (alpha0 c) in
  let dR1 := getdR (sig1 c) s (alpha1 c) in
  ((s - sig0 c) * R0 - (s - sig1 c) * R1) / (phi0 * (R0 + (s - sig0 c) * dR0) + phi1 * (R1 + (s - sig1 c) * dR1)).
(** Histories: transforms and assignments (of accepted values). *)
Inductive emop := EmT (phi : vec) | EmSig0 (x : R) | EmSig1 (x : R) | EmTol (x : R) | EmStart (x : option R).
Definition em_conf (c : emt) (o : emop) : emt :=
  match o with
  | EmSig0 x => mkEmt x (sig1 c) (alpha0 c) (alpha1 c) (rel_tol c) (max_iter c)
  | EmSig1 x => mkEmt (sig0 c) x (alpha0 c) (alpha1 c) (rel_tol c) (max_iter c)
  | EmTol x => mkEmt (sig0 c) (sig1 c) (alpha0 c) (alpha1 c) x (max_iter c)
  | _ => c
  end.
Definition em_step (st : emst) (o : emop) : emst :=
  match o with
  | EmT phi => fst (sc_transform st phi)
  | EmStart x => mkEmst (em_c st) (em_tol st) (option_map (fun x => [x]) x)
  | _ => mkEmst (em_conf (em_c st) o) (em_tol st) (em_start st)
  end.
Definition em_run (st : emst) (l : list emop) : emst := fold_left em_step l st.
Definition em_new (c : emt) : emst := mkEmst c None None.
