(** Complex vectors and matrices as pairs of their real and imaginary parts. *)
From Verif Require Import Py Vec Joint.
From Coq Require Import Reals.
Local Open Scope R_scope.

Definition cvec := (vec * vec)%type.
(** A real operator on a complex vector *)
Definition cmap (f : vec -> vec) (z : cvec) : cvec := (f (fst z), f (snd z)).
Definition cadd (a b : cvec) : cvec := (vadd (fst a) (fst b), vadd (snd a) (snd b)).
Definition csub (a b : cvec) : cvec := (vsub (fst a) (fst b), vsub (snd a) (snd b)).
Definition copp (a : cvec) : cvec := cmap vopp a.
(** Entry by entry product *)
Definition cmul (a b : cvec) : cvec := (vsub (vmul (fst a) (fst b)) (vmul (snd a) (snd b)), vadd (vmul (fst a) (snd b)) (vmul (snd a) (fst b))).
(** 1j * w * z and z / (1j * w) *)
Definition cI (w : R) (z : cvec) : cvec := (vscale (- w) (snd z), vscale w (fst z)).
Definition cdivI (w : R) (z : cvec) : cvec := (vscale (/ w) (snd z), vscale (- / w) (fst z)).
Definition creal (v : vec) : cvec := (v, vzero (length v)).
Definition czero (n : nat) : cvec := (vzero n, vzero n).
Definition clen (n : nat) (z : cvec) : Prop := length (fst z) = n /\ length (snd z) = n.
(** The matrix re + 1j * im *)
Record cmx := mkCmx { re_mx : mx; im_mx : mx }.
Definition cact (A : cmx) (z : cvec) : cvec :=
  (vsub (act false (re_mx A) (fst z)) (act false (im_mx A) (snd z)), vadd (act false (re_mx A) (snd z)) (act false (im_mx A) (fst z))).
(** Real part of the bilinear product (no conjugation) *)
Definition rdot (a b : cvec) : R := dot (fst a) (fst b) - dot (snd a) (snd b).
