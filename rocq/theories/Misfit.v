(** Model of simpeg/data_misfit.py: [BaseDataMisfit] and [L2DataMisfit]. *)
From Verif Require Import Py Vec Survey DataM.
Local Open Scope R_scope.

(** A floating-point number as far as the residual's guard is concerned
    (data_misfit.py 229): a finite real, an infinity, or nan. *)
Inductive xfloat := Fin (x : R) | Infinite | NaN.

(** data_misfit.py 229: [np.isnan(dpred).any() or np.isinf(dpred).any()]. *)
Fixpoint finite_part (l : list xfloat) : option (list R) :=
  match l with
  | [] => Some []
  | Fin x :: l' => match finite_part l' with Some v => Some (x :: v) | None => None end
  | _ :: _ => None
  end.

(** utils/mat_utils.py [sdiag]: square diagonal matrix. *)
Fixpoint unit_row (n i : nat) (x : R) : vec :=
  match n with
  | O => []
  | S n' => match i with O => x :: vzero n' | S i' => 0 :: unit_row n' i' x end
  end.
Fixpoint sdiag_from (n i : nat) (w : vec) : mat :=
  match w with [] => [] | x :: w' => unit_row n i x :: sdiag_from n (S i) w' end.
Definition sdiag (w : vec) : mat := sdiag_from (length w) 0 w.

Section L2DataMisfit.
  (** The simulation (simpeg/simulation.py [dpred], [Jvec], [Jtvec]) is an
      arbitrary triple of functions; fields are recomputed from the model, so the
      optional argument [f] is not represented here.  [Jvec_approx]/[Jtvec_approx]
      default to [Jvec]/[Jtvec] (simulation.py 267-334). *)
  Context (dpred : vec -> list xfloat) (Jvec Jtvec : vec -> vec -> vec).
  Context (dobs : vec) (W : mat).

  (** data_misfit.py 205-235 [residual]. *)
  Definition residual (m : vec) : result vec :=
    match finite_part (dpred m) with
    | None => Err ValueError
    | Some d => Ok (vsub d dobs)
    end.

  (** data_misfit.py 270-277 [__call__]. *)
  Definition misfit (m : vec) : result R :=
    do r <- residual m; let R_ := mv W r in Ok (dot R_ R_).

  (** data_misfit.py 280-306 [deriv]. *)
  Definition misfit_deriv (m : vec) : result vec :=
    do r <- residual m; Ok (vscale 2 (Jtvec m (mtv (length dobs) W (mv W r)))).

  (** data_misfit.py 309-343 [deriv2]: note [W * (W * ...)], without transpose. *)
  Definition misfit_deriv2 (m v : vec) : vec := vscale 2 (Jtvec m (mv W (mv W (Jvec m v)))).
End L2DataMisfit.

(** ** The weighting cache *)

(** A misfit object: the data object it refers to and its [_W] attribute. *)
Record mfobj := mkMf { mf_data : ddata R; mf_W : option mat }.

(** data_misfit.py 149-189: the [W] getter. *)
Definition W_getter (o : mfobj) : result mat * mfobj :=
  match mf_W o with
  | Some W => (Ok W, o)
  | None =>
      match std_getter Rabs (mf_data o) with
      | Err e => (Err e, o)
      | Ok std =>
          if existsb (fun s => negb (Rltb 0 s)) std then (Err GenericException, o)
          else let W := sdiag (map (fun s => 1 / s) std) in (Ok W, mkMf (mf_data o) (Some W))
      end
  end.

(** data_misfit.py 191-203: the [W] setter for a 1-D array. *)
Definition W_setter (o : mfobj) (w : vec) : mfobj * option exn :=
  if Nat.eqb (length w) (length (d_dobs (mf_data o)))
  then (mkMf (mf_data o) (Some (sdiag w)), None)
  else (o, Some AssertionError).

(** What a user can do: assign something on the data object, replace the data
    object (data_misfit.py 56-58: the setter leaves [_W] alone), set W, or
    evaluate (which reads W). *)
Inductive mf_op :=
| MData (o : data_op R) | MReplace (d : ddata R) | MSetW (w : vec) | MRead.
Definition mf_step (l : list src) (o : mfobj) (p : mf_op) : mfobj :=
  match p with
  | MData q => mkMf (data_step l (mf_data o) q) (mf_W o)
  | MReplace d => mkMf d (mf_W o)
  | MSetW w => fst (W_setter o w)
  | MRead => snd (W_getter o)
  end.
Definition mf_run (l : list src) (o : mfobj) (ps : list mf_op) : mfobj := fold_left (mf_step l) ps o.
