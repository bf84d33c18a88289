(** Model of simpeg/electromagnetics/utils/waveform_utils.py [convolve_with_waveform] (75-124).
    [quad] is scipy.integrate.quad (the first entry of its answer); [wd] is
    waveform.eval_deriv at one time; fargs and fkwargs are part of [func]. *)
From Verif Require Import Py Vec.
Local Open Scope R_scope.

(** 112-114 *)
Definition integrand (wd func : R -> R) (t q : R) : R := wd (t - q) * func q.
(** 116-123: consecutive nodes, with [acc] the entry of [out] *)
Fixpoint conv_loop (quad : (R -> R) -> R -> R -> R) (wd func : R -> R) (nodes : vec) (t acc : R) : R :=
  match nodes with
  | n0 :: ((n1 :: _) as rest) =>
      let b := Rmax (t - n0) 0 in
      let a := Rmax (t - n1) 0 in
      conv_loop quad wd func rest t (acc - quad (integrand wd func t) a b)
  | _ => acc
  end.
(** 98-124; [None]: a waveform without time_nodes *)
Definition convolve (quad : (R -> R) -> R -> R -> R) (func wd : R -> R) (nodes : option vec) (times : vec) : result vec :=
  match nodes with
  | None => Err TypeError
  | Some ns => Ok (map (fun t => conv_loop quad wd func ns t 0) times)
  end.
