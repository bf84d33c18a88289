(** Specification vocabulary for the data misfit. *)
From Verif Require Import Py Vec Misfit.
Local Open Scope R_scope.

(** Weighted sum of squares of the residuals. *)
Fixpoint chi_squared (d dobs std : vec) : R :=
  match d, dobs, std with
  | x :: d', y :: dobs', s :: std' => ((x - y) / s) ^ 2 + chi_squared d' dobs' std'
  | _, _, _ => 0
  end.

(** The misfit value as a plain function of the model, for a simulation whose
    predictions [d] are finite. *)
Definition phi (d : vec -> vec) (dobs : vec) (W : mat) (m : vec) : R :=
  match misfit (fun m => map Fin (d m)) dobs W m with Ok x => x | Err _ => 0 end.
