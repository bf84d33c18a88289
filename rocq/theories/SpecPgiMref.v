(** What the smoothness terms use. *)
From Verif Require Import Py Vec PgiMref.
Local Open Scope R_scope.

(** base.py 1008-1011: the reference a smoothness term subtracts *)
Definition used (t : term) : option vec := if smooth t && flag t then ref t else None.
(** The PGI of a regularization *)
Fixpoint pgi_in (l : list part) : option pgi :=
  match l with [] => None | PPgi p :: _ => Some p | PWls _ :: l' => pgi_in l' end.
Definition the_pgi (t : top) : option pgi := match t with TPgi p => Some p | TSum l => pgi_in l end.
(** Terms of the other regularizations of a sum *)
Definition others (t : top) : list wls :=
  match t with TPgi _ => [] | TSum l => concat (map (fun p => match p with PWls w => [w] | PPgi _ => [] end) l) end.
(** Some iteration was ready, the membership before being [prev] *)
Fixpoint ever (o : options) (tg : vec) (prev : list nat) (l : list op) : bool :=
  match l with
  | [] => false
  | OUpdate _ :: l' => ever o tg prev l'
  | OEnd i :: l' => ready o tg prev i || ever o tg (i_member i) l'
  end.
(** The last learned reference *)
Fixpoint learned (r : option vec) (l : list op) : option vec :=
  match l with [] => r | OUpdate v :: l' => learned (Some v) l' | OEnd _ :: l' => learned r l' end.
(** The last reference of a ready iteration *)
Fixpoint given (o : options) (tg : vec) (prev : list nat) (r : option vec) (l : list op) : option vec :=
  match l with
  | [] => r
  | OUpdate _ :: l' => given o tg prev r l'
  | OEnd i :: l' => given o tg (i_member i) (if ready o tg prev i then Some (i_mref i) else r) l'
  end.
Definition is_end (x : op) : bool := match x with OEnd _ => true | _ => false end.
