(** Survey and data files of the UBC DC/IP codes (simpeg/utils/io_utils/io_utils_electromagnetics.py).
    Numbers of a file are reals, or nothing for nan.  Printing ("%e") is a rounding [P] of reals.
    A file is a list of lines: comments, words, numbers.  The "simple" format of 2D files and the
    type of the receivers' data are left out; so are Multipole sources. *)
From Verif Require Import Py Vec.
From Coq Require Import String.
Local Open Scope R_scope.
Local Open Scope list_scope.

Definition num := option R.
Definition loc := list num.
Inductive tok := TNum (v : num) | TInt (n : nat).
Inductive line := Comment | Word (s : string) | Nums (l : list tok).
Definition file := list line.

(** Receivers and sources of a DC survey (receivers.py 269-377, 445-459; sources.py 135-270). *)
Inductive rx := PoleRx (m : list loc) | DipoleRx (m n : list loc).
Inductive src := PoleSrc (a : loc) (rxs : list rx) | DipoleSrc (a b : loc) (rxs : list rx).
Definition rx_nD (r : rx) : nat := match r with PoleRx m => List.length m | DipoleRx m _ => List.length m end.
Definition receivers (s : src) : list rx := match s with PoleSrc _ l => l | DipoleSrc _ _ l => l end.
Definition src_nD (s : src) : nat := list_sum (map rx_nD (receivers s)).
Definition nD (ss : list src) : nat := list_sum (map src_nD ss).
(** Data objects: only standard_deviation of the uncertainties (data.py 222-263). *)
Record data := mkData { d_srcs : list src; d_obs : list num; d_std : option (list num) }.
(** Data(survey), then [dobs] and [standard_deviation] if there are values (data.py 64-263). *)
Definition negative (x : num) : bool := match x with Some r => if Rlt_dec r 0 then true else false | None => false end.
Definition make_data (ss : list src) (d wd : list num) : result data :=
  do obs <- (if (List.length d =? 0)%nat then Ok (repeat None (nD ss)) else if (List.length d =? nD ss)%nat then Ok d else Err ValueError);
  do std <- (if (List.length wd =? 0)%nat then Ok None else if (List.length wd =? nD ss)%nat then (if existsb negative wd then Err ValueError else Ok (Some wd)) else Err ValueError);
  Ok (mkData ss obs std).

(** ** Writing *)
Fixpoint zip2 {A B C} (f : A -> B -> C) (a : list A) (b : list B) : list C := match a, b with x :: a, y :: b => f x y :: zip2 f a b | _, _ => [] end.
Inductive kind := Survey | Dpred | Dobs.
Definition pr (P : R -> R) (x : num) : tok := TNum (option_map P x).
(** 754-758, 911-915 *)
Definition rx_rows (e : nat) (r : rx) : list (list num) :=
  match r with
  | PoleRx m => map (fun x => firstn e x ++ firstn e x) m
  | DipoleRx m n => zip2 (fun x y => firstn e x ++ firstn e y) m n
  end.
(** 742-749, 899-906 *)
Definition tx_line (P : R -> R) (e : nat) (s : src) : line :=
  Nums (match s with
        | PoleSrc a _ => map (pr P) (firstn e a ++ firstn e a)
        | DipoleSrc a b _ => map (pr P) (firstn e a ++ firstn e b)
        end ++ [TInt (src_nD s)]).
Definition snoc_each (t : list (list num)) (c : list num) : list (list num) := zip2 (fun r x => r ++ [x]) t c.
(** 753-784, 910-939 for one receiver: the lines, then an empty one *)
Definition rx_lines (P : R -> R) (e : nat) (obs std : option (list num)) (count : nat) (r : rx) : list line :=
  let t := rx_rows e r in
  let t := match obs with Some d => snoc_each t (firstn (rx_nD r) (skipn count d)) | None => t end in
  let t := match std with Some d => snoc_each t (firstn (rx_nD r) (skipn count d)) | None => t end in
  map (fun l => Nums (map (pr P) l)) t ++ [Nums []].
Fixpoint rxs_lines (P : R -> R) (e : nat) (obs std : option (list num)) (count : nat) (rs : list rx) : list line :=
  match rs with [] => [] | r :: rs => rx_lines P e obs std count r ++ rxs_lines P e obs std (count + rx_nD r) rs end.
(** 736-784, 893-939 *)
Fixpoint src_lines (P : R -> R) (e : nat) (obs std : option (list num)) (count : nat) (ss : list src) : list line :=
  match ss with [] => [] | s :: ss => tx_line P e s :: rxs_lines P e obs std count (receivers s) ++ src_lines P e obs std (count + src_nD s) ss end.
Definition columns (k : kind) (d : data) : result (option (list num) * option (list num)) :=
  match k with
  | Survey => Ok (None, None)
  | Dpred => Ok (Some (d_obs d), None)
  | Dobs => match d_std d with Some w => Ok (Some (d_obs d), Some w) | None => Err TypeError end
  end.
Inductive dtype := Volt | AppChg | SecPot.
Definition ip_line (t : dtype) : list line := match t with Volt => [] | AppChg => [Word "IPTYPE=1"] | SecPot => [Word "IPTYPE=2"] end.
(** 787-939; [rho] gives the apparent resistivities; the data object is changed by 864-868 *)
Definition write3 (P : R -> R) (rho : data -> list num) (t : dtype) (k : kind) (surface : bool) (comments : nat) (d : data) : data * result file :=
  let go (d : data) (k : kind) := (d, do c <- columns k d; Ok (repeat Comment (S comments) ++ ip_line t ++ src_lines P (if surface then 2 else 3) (fst c) (snd c) 0 (d_srcs d))) in
  match k, t with
  | Dpred, Volt =>
    let w := rho d in
    if ((List.length w =? nD (d_srcs d))%nat && negb (existsb negative w)) then go (mkData (d_srcs d) (d_obs d) (Some w)) Dobs else (d, Err ValueError)
  | _, _ => go d k
  end.
(** 611-784 for the formats general and surface *)
Definition write2 (P : R -> R) (t : dtype) (k : kind) (surface : bool) (comments : nat) (d : data) : result file :=
  do c <- columns k d;
  Ok (Word "COMMON_CURRENT" :: repeat Comment (S comments) ++ Nums [TInt (List.length (d_srcs d))] :: ip_line t ++ src_lines P (if surface then 1 else 2) (fst c) (snd c) 0 (d_srcs d)).

(** ** Reading *)
(** numpy.allclose with its default tolerances; other lengths than equal ones: an error. *)
Definition close (x y : num) : bool :=
  match x, y with Some a, Some b => if Rle_dec (Rabs (a - b)) (/ 100000000 + / 100000 * Rabs b) then true else false | _, _ => false end.
Definition allclose (x y : list num) : result bool := if (List.length x =? List.length y)%nat then Ok (forallb (fun p => close (fst p) (snd p)) (combine x y)) else Err ValueError.
Definition value (t : tok) : num := match t with TNum v => v | TInt n => Some (INR n) end.
Record rstate := mkR { r_count : nat; r_surface : bool; r_ptx : bool; r_prx : bool; r_tx : list num; r_rx : list (list num); r_d : list num; r_wd : list num; r_srcs : list src }.
Definition r_start : rstate := mkR 0 false false false [] [] [] [] [].
Definition sky : num := Some 9999.
(** 331-354, 491-514; the count must be an integer ([dim] is 2 or 3) *)
Definition read_tx (dim : nat) (l : list tok) (s : rstate) : result rstate :=
  match last l (TNum None) with
  | TNum _ => Err ValueError
  | TInt n =>
    let v := map value l in
    let e := (dim - 1)%nat in
    if (List.length l =? 2 * e + 1)%nat then
      do p <- allclose (firstn e v) (firstn e (skipn e v));
      Ok (mkR n true (r_ptx s || p) (r_prx s) (if p then firstn e v ++ [sky] else firstn e v ++ [sky] ++ firstn e (skipn e v) ++ [sky]) [] (r_d s) (r_wd s) (r_srcs s))
    else
      do p <- allclose (firstn dim v) (firstn dim (skipn dim v));
      Ok (mkR n (r_surface s) (r_ptx s || p) (r_prx s) (if p then firstn dim v else removelast v) [] (r_d s) (r_wd s) (r_srcs s))
  end.
(** 356-377, 516-537; in 2D a pole at the surface gets the elevation (365), in 3D not (525) *)
Definition rx_row (dim : nat) (surface : bool) (v : list num) : result (bool * list num) :=
  let e := (dim - 1)%nat in
  if surface then
    do p <- allclose (firstn e v) (firstn e (skipn e v));
    Ok (p, if p then (if (dim =? 2)%nat then firstn e v ++ [sky] else firstn e v) else firstn e v ++ [sky] ++ firstn e (skipn e v) ++ [sky])
  else
    do p <- allclose (firstn dim v) (firstn dim (skipn dim v));
    Ok (p, if p then firstn dim v else firstn (2 * dim) v).
(** 391-400, 551-560: rows of different lengths are no array; both ends need the same shape *)
Definition finish (dim : nat) (s : rstate) : result rstate :=
  let rows := r_rx s in
  let w := match rows with r :: _ => List.length r | [] => 0%nat end in
  if negb (forallb (fun r => (List.length r =? w)%nat) rows) then Err ValueError else
  do rc <- (if r_prx s then Ok (PoleRx (map (firstn dim) rows))
           else if (w =? 2 * dim)%nat then Ok (DipoleRx (map (firstn dim) rows) (map (skipn dim) rows)) else Err ValueError);
  do sc <- (if r_ptx s then Ok (PoleSrc (firstn dim (r_tx s)) [rc])
           else if (List.length (r_tx s) =? 2 * dim)%nat then Ok (DipoleSrc (firstn dim (r_tx s)) (skipn dim (r_tx s)) [rc]) else Err ValueError);
  Ok (mkR 0 (r_surface s) (r_ptx s) (r_prx s) (r_tx s) (r_rx s) (r_d s) (r_wd s) (r_srcs s ++ [sc])).
(** 356-400, 516-560 *)
Definition read_rx (dim : nat) (l : list tok) (s : rstate) : result rstate :=
  let v := map value l in
  let c := (if r_surface s then 2 * (dim - 1) else 2 * dim)%nat in
  do pr <- rx_row dim (r_surface s) v;
  let n := List.length v in
  let d := if ((n =? c + 1) || (n =? c + 2))%nat then r_d s ++ [nth c v None] else r_d s in
  let wd := if (n =? c + 2)%nat then r_wd s ++ [nth (c + 1) v None] else r_wd s in
  let s := mkR (r_count s - 1) (r_surface s) (r_ptx s) (r_prx s || fst pr) (r_tx s) (r_rx s ++ [snd pr]) d wd (r_srcs s) in
  if (r_count s =? 0)%nat then finish dim s else Ok s.
Definition read_line (dim : nat) (l : line) (s : rstate) : result rstate :=
  match l with
  | Nums l => if (r_count s =? 0)%nat then read_tx dim l s else read_rx dim l s
  | _ => Err IndexError
  end.
Fixpoint read_lines (dim : nat) (f : file) (s : rstate) : result rstate := match f with [] => Ok s | l :: f => do s <- read_line dim l s; read_lines dim f s end.
(** genfromtxt: comments and empty lines are gone *)
Definition kept (l : line) : bool := match l with Comment | Nums [] => false | _ => true end.
Definition read_body (dim : nat) (f : file) : result data := do s <- read_lines dim f r_start; make_data (r_srcs s) (r_d s) (r_wd s).
(** 422-579 *)
Definition read3 (f : file) : result data :=
  match filter kept f with
  | [] => Err IndexError
  | Word w :: f' => if prefix "IPTYPE" w then read_body 3 f' else read_body 3 (Word w :: f')
  | f' => read_body 3 f'
  end.
(** 192-419 for the formats general and surface *)
Definition read2 (t : dtype) (f : file) : result data :=
  match filter kept f with
  | [] => Err IndexError
  | l :: f' =>
    let n := match l with Word w => if (w =? "COMMON_CURRENT")%string then 2%nat else 0%nat | _ => 0%nat end in
    let n := match t with Volt => n | _ => S n end in
    read_body 2 (skipn n (l :: f'))
  end.
