(** Model of the validation helpers of simpeg/utils/code_utils.py. *)
From Coq Require Import ZArith String.
From Verif Require Import Py Vec.
Local Open Scope R_scope.

(** Floats: exact reals plus the special values. *)
Inductive xr := Fin (r : R) | PInf | NInf | NaN.
(** Python's [<] and [<=] on floats: false as soon as one side is NaN. *)
Definition xltb (a b : xr) : bool :=
  match a, b with
  | NaN, _ | _, NaN => false
  | Fin x, Fin y => if Rlt_dec x y then true else false
  | Fin _, PInf | NInf, Fin _ | NInf, PInf => true
  | _, _ => false
  end.
Definition xleb (a b : xr) : bool :=
  match a, b with
  | NaN, _ | _, NaN => false
  | Fin x, Fin y => if Rle_dec x y then true else false
  | NInf, _ | _, PInf => true
  | _, _ => false
  end.

(** What a caller may pass: a Python int, a float, or something [float()]/[int()]
    rejects with TypeError or ValueError.  (Numeric strings, and ints too large for a
    float, are not modelled.) *)
Inductive pyval := VInt (z : Z) | VFloat (x : xr) | VOther.

(** 879-936 *)
Definition validate_float (v : pyval) (lo hi : xr) (inc_lo inc_hi : bool) : result xr :=
  do x <- match v with VInt z => Ok (Fin (IZR z)) | VFloat x => Ok x | VOther => Err TypeError end;
  if (inc_lo && xltb x lo) || (negb inc_lo && xleb x lo) || (inc_hi && xltb hi x) || (negb inc_hi && xleb hi x)
  then Err ValueError else Ok x.

(** [int(x)] of a float: truncation towards zero. *)
Definition ztrunc (r : R) : Z := if Rle_dec 0 r then Int_part r else (- Int_part (- r))%Z.
(** 842-876; [int(inf)] raises OverflowError, which is not caught. *)
Definition validate_integer (v : pyval) (lo hi : xr) : result Z :=
  do z <- match v with
          | VInt z => Ok z
          | VFloat (Fin r) => Ok (ztrunc r)
          | VFloat NaN => Err TypeError
          | VFloat _ => Err OverflowError
          | VOther => Err TypeError
          end;
  if xltb (Fin (IZR z)) lo || xltb hi (Fin (IZR z)) then Err ValueError else Ok z.

(** 793-839.  [fold] is [str.casefold] (the identity when case_sensitive); an item of
    the list is a string or a list of aliases (nested lists are not modelled). *)
Inductive sitem := One (s : string) | Group (l : list string).
Section Strings.
  Variable fold : string -> string.
  Fixpoint vstring_go (v : string) (items : list sitem) : result string :=
    match items with
    | [] => Err ValueError
    | One s :: items' => if String.eqb (fold v) (fold s) then Ok s else vstring_go v items'
    | Group l :: items' =>
        if existsb (String.eqb (fold v)) (map fold l)
        then match l with s :: _ => Ok s | [] => Err IndexError end
        else vstring_go v items'
    end.
  (** [None]: not a string; [string_list=None] *)
  Definition validate_string (v : option string) (items : option (list sitem)) : result string :=
    match v with
    | None => Err TypeError
    | Some s => match items with None => Ok s | Some l => vstring_go s l end
    end.
End Strings.

(** 1032-1114, shapes only: [castable] is whether the conversion to the dtype
    succeeds; [None] in a shape stands for '*'.  Shapes of length 0 are not modelled. *)
Definition atleast (k : nat) (s : list nat) : list nat :=
  match k, s with
  | 1%nat, [] => [1%nat]
  | 2%nat, [] => [1%nat; 1%nat] | 2%nat, [n] => [1%nat; n]
  | 3%nat, [] => [1%nat; 1%nat; 1%nat] | 3%nat, [n] => [1%nat; n; 1%nat] | 3%nat, [m; n] => [m; n; 1%nat]
  | _, s => s
  end.
Definition dim_ok (p : option nat) (n : nat) : bool := match p with None => true | Some k => Nat.eqb k n end.
Fixpoint dims_ok (shp : list (option nat)) (s : list nat) : bool :=
  match shp, s with
  | [], [] => true
  | p :: shp', n :: s' => dim_ok p n && dims_ok shp' s'
  | _, _ => false
  end.
Fixpoint vshape_go (shapes : list (list (option nat))) (s : list nat) : result (list nat) :=
  match shapes with
  | [] => Err ValueError
  | shp :: shapes' =>
      if Nat.ltb 3 (length shp) then Err NotImplementedError
      else if Nat.ltb (length shp) (length s) then vshape_go shapes' s
      else if dims_ok shp (atleast (length shp) s) then Ok (atleast (length shp) s)
      else vshape_go shapes' s
  end.
Definition validate_shape (castable : bool) (s : list nat) (shapes : option (list (list (option nat)))) : result (list nat) :=
  if castable then match shapes with None => Ok s | Some l => vshape_go l s end else Err TypeError.

(** 1233-1283; the array after [squeeze] and [atleast_1d]. *)
Inductive index_arr := Bools (b : list bool) | Ints (l : list Z) | OtherDtype | HigherDim.
Fixpoint setb (i : nat) (l : list bool) : list bool :=
  match l, i with [], _ => [] | _ :: l', O => true :: l' | y :: l', S i' => y :: setb i' l' end.
(** numpy's index normalisation *)
Definition norm_index (n : nat) (z : Z) : result nat :=
  if (Z.leb (- Z.of_nat n) z && Z.ltb z (Z.of_nat n))%Z
  then Ok (Z.to_nat (if Z.ltb z 0 then z + Z.of_nat n else z)%Z) else Err IndexError.
Fixpoint ntrue (b : list bool) : nat := match b with [] => O | true :: b' => S (ntrue b') | false :: b' => ntrue b' end.
Definition zmax (l : list Z) : option Z := match l with [] => None | x :: l' => Some (fold_left Z.max l' x) end.
Definition validate_active (a : index_arr) (n : nat) : result (list bool) :=
  do m <- match a with
          | HigherDim => Err ValueError
          | OtherDtype => Err TypeError
          | Bools b => Ok b
          | Ints l =>
              match zmax l with
              | None => Err ValueError
              | Some mx =>
                  if Z.leb (Z.of_nat n) mx then Err IndexError
                  else do idx <- mapM (norm_index n) l;
                       let tmp := fold_left (fun b i => setb i b) idx (repeat false n) in
                       if Nat.eqb (ntrue tmp) (length l) then Ok tmp else Err ValueError
              end
          end;
  if Nat.eqb (length m) n then Ok m else Err ValueError.
