(** Specification for natural source receivers (C85). *)
From Coq Require Import Reals.
From Verif Require Import Py Vec VecDeriv Joint Cplx Mt1d Cx NsemRx.
Local Open Scope R_scope.

(** The value a projection with rows of weights sees at location [i]. *)
Definition seen (P : mat) (u : cvec) (i : nat) : cx := (dot (nth i P []) (fst u), dot (nth i P []) (snd u)).
Definition seenE (P : mat) (F : flds) (i : nat) : pol := (seen P (e0 F) i, seen P (e1 F) i).
Definition seenH (P : mat) (F : flds) (i : nat) : pol := (seen P (h0 F) i, seen P (h1 F) i).
(** The horizontal components [x] and [y] of the two polarisations are independent. *)
Definition independent (x y : pol) : Prop := fst x *x snd y <> snd x *x fst y.
(** [a] and [b] are the transfer function from [x] and [y] to [o]: o = a x + b y for both polarisations. *)
Definition transfer (o x y : pol) (a b : cx) : Prop :=
  fst o = a *x fst x +x b *x fst y /\ snd o = a *x snd x +x b *x snd y.
Definition elec (o : ax) : grid := match o with AX => GEx | AY => GEy end.

(** Fields of the sizes of the environment. *)
Definition sized (E : env) (F : flds) : Prop :=
  clen (ne E) (e0 F) /\ clen (ne E) (e1 F) /\ clen (nh E) (h0 F) /\ clen (nh E) (h1 F).
(** The projections a receiver uses: of the electric and of the magnetic field. *)
Definition uses (E : env) (r : rx) : list mat * list mat :=
  match r with
  | RImp o1 _ _ =>
    match e_dim E with
    | D3 => ([getP E (elec o1) false], [getP E GFx true; getP E GFy true])
    | D1 => ([getP E G1e false], [getP E G1h false])
    | D2 => match o1 with
            | AX => ([getP E GEx false], [getP E GCC true])
            | AY => ([getP E GCC false], [getP E GEx true])
            end
    end
  | RTip o1 _ _ =>
    match e_dim E with
    | D2 => ([], [getP E GEy false; getP E GEx true])
    | _ => ([], [getP E (face o1) false; getP E GFx true; getP E GFy true])
    end
  | RAdm o1 o2 _ =>
    match e_dim E with
    | D3 => ([getP E GEx false; getP E GEy false], [getP E (face o1) true])
    | _ => match o1 with
           | BY => ([getP E GEx false], [getP E GCC true])
           | _ => ([getP E GCC false], [getP E GEx true])
           end
    end
  | RApp => ([getP E GEx false; getP E GEy false], [getP E GFx true; getP E GFy true; getP E GFz true])
  end.
Definition fits (E : env) (r : rx) : Prop :=
  Forall (is_mat (nD E) (ne E)) (fst (uses E r)) /\ Forall (is_mat (nD E) (nh E)) (snd (uses E r)).
(** The denominators at location [i] are not zero. *)
Definition regular (E : env) (r : rx) (F : flds) (i : nat) : Prop :=
  match r with
  | RImp o1 _ _ =>
    match e_dim E with
    | D3 => independent (seenH (getP E GFx true) F i) (seenH (getP E GFy true) F i)
    | D1 => seen (getP E G1h false) (h0 F) i <> x0
    | D2 => seen (getP E (match o1 with AX => GCC | AY => GEx end) true) (h0 F) i <> x0
    end
  | RTip _ _ _ =>
    match e_dim E with
    | D2 => seen (getP E GEx true) (h0 F) i <> x0
    | _ => independent (seenH (getP E GFx true) F i) (seenH (getP E GFy true) F i)
    end
  | RAdm o1 _ _ =>
    match e_dim E with
    | D3 => independent (seenE (getP E GEx false) F i) (seenE (getP E GEy false) F i)
    | _ => seen (getP E (match o1 with BY => GEx | _ => GCC end) false) (e0 F) i <> x0
    end
  | RApp => exists z, In z [seen (getP E GEx false) (e0 F) i; seen (getP E GEx false) (e1 F) i;
                            seen (getP E GEy false) (e0 F) i; seen (getP E GEy false) (e1 F) i] /\ z <> x0
  end.
(** Off the cut of the phase: the complex datum is not a real number <= 0. *)
Definition off_cut (z : cx) : Prop := 0 < Re z \/ Im z <> 0.
Definition with_complex (r : rx) : rx :=
  match r with RImp a b _ => RImp a b CComplex | RTip a b _ => RTip a b TComplex | RAdm a b _ => RAdm a b TComplex | RApp => RApp end.
Definition is_phase (r : rx) : bool := match r with RImp _ _ CPhi => true | _ => false end.
Definition smooth_at (E : env) (r : rx) (F : flds) (i : nat) : Prop :=
  regular E r F i /\
  (is_phase r = true -> forall z, eval E (with_complex r) F = Ok (CplxData z) -> off_cut (nth i z x0)).

(** A curve of fields with velocity [dF] at [t]. *)
Definition moves (E : env) (F : R -> flds) (t : R) (dF : flds) : Prop :=
  forall (get : flds -> vec) k,
    In (get, k) [(fun f => fst (e0 f), ne E); (fun f => snd (e0 f), ne E); (fun f => fst (e1 f), ne E); (fun f => snd (e1 f), ne E);
                 (fun f => fst (h0 f), nh E); (fun f => snd (h0 f), nh E); (fun f => fst (h1 f), nh E); (fun f => snd (h1 f), nh E)] ->
    vderiv k (fun s => get (F s)) t (get dF).
(** The pairing of adjoint fields with fields: the real part of the sum of products. *)
Definition pairing (G F : flds) : R := rdot (e0 G) (e0 F) + rdot (e1 G) (e1 F) + rdot (h0 G) (h0 F) + rdot (h1 G) (h1 F).

(** A 1D or 2D impedance of a diagonal element. *)
Definition degenerate (E : env) (r : rx) : bool :=
  match r with RImp o1 o2 _ => negb (is3 E) && ax_eqb o1 o2 | _ => false end.

(** ** Examples *)
(** Two locations on a mesh of two electric and three magnetic values. *)
Definition P0 (g : grid) (b : bool) : mat :=
  match g with
  | GEx => [[1; 0]; [1; 1]] | GEy => [[0; 1]; [1; -1]]
  | GFx => [[1; 0; 0]; [1; 0; 1]] | GFy => [[0; 1; 0]; [0; 1; 1]] | GFz => [[0; 0; 1]; [0; 0; 2]]
  | _ => [[1; 0]; [1; 1]]
  end.
Definition env3 : env := mkEnv D3 2 2 3 P0 1 1 true.
Definition F3 : flds :=
  mkF ([1; 0], [0; 0]) ([0; 2], [0; 1]) ([1; 0; 0], [0; 0; 0]) ([0; 1; 0], [0; 0; 0]).
Definition env2 : env := mkEnv D2 2 2 2 P0 1 1 true.
Definition F2 : flds := mkF ([1; 0], [0; 0]) ([0; 0], [0; 0]) ([1; 0], [0; 1]) ([0; 0], [0; 0]).
(** One location on a 1D mesh of two nodes: the first locations see node 0, the second node 1. *)
Definition env1 : env := mkEnv D1 1 2 2 (fun _ b => if b then [[0; 1]] else [[1; 0]]) 1 1 true.
Definition F1d : flds := mkF ([1; 0], [0; 0]) ([0; 0], [0; 0]) ([1; 2], [0; 0]) ([0; 0], [0; 0]).
(** A direction in which the fields move. *)
Definition dF3 : flds := mkF ([0; 1], [1; 0]) ([1; 0], [0; 0]) ([0; 1; 1], [1; 0; 0]) ([1; 0; 2], [0; 0; 1]).
Definition Fline (t : R) : flds :=
  let l := fun (a b : cvec) => (vadd (fst a) (vscale t (fst b)), vadd (snd a) (vscale t (snd b))) in
  mkF (l (e0 F3) (e0 dF3)) (l (e1 F3) (e1 dF3)) (l (h0 F3) (h0 dF3)) (l (h1 F3) (h1 dF3)).
