(** Model of simpeg/flow/richards/empirical.py (1-820): the Haverkamp and van Genuchten
    relations of water content and hydraulic conductivity to the pressure head, and their
    derivatives. Numpy's elementwise arithmetic is written out cell by cell; arrays of
    lengths that do not fit are not modelled. numpy's x ** y is only used below at x > 0
    (the entries computed for u >= 0 are overwritten or projected away), where it is Rpower. *)
From Verif Require Import Py Vec PropsM.
Local Open Scope R_scope.

(** The pressure head: an array of floats or of integers. *)
Record field := mkField { u_val : vec; u_int : bool }.
(** A parameter (props.Invertible): a number, an array, or a mapping of the model. *)
Inductive par := Scal (c : R) | Arr (v : vec) | Mapped (f : pmap).
(** Its value for [k] cells with model [x], and its derivative (props.py 205-216). *)
Definition pv (k : nat) (p : par) (x : vec) : vec :=
  match p with Scal c => vconst k c | Arr v => v | Mapped f => pm_val f x end.
Definition pd (p : par) (x : vec) : option mat := match p with Mapped f => Some (pm_deriv f x) | _ => None end.
Definition tab (k : nat) (g : nat -> R) : vec := map g (seq 0 k).
Definition at_ (v : vec) (i : nat) : R := nth i v 0.
(** [f[u >= 0] = s] *)
Definition over (u s f : R) : R := if Rle_dec 0 u then s else f.
(** 9-17: entries of [P_p @ f] and [P_n @ f] *)
Definition proj_p (u f : R) : R := over u f 0.
Definition proj_n (u f : R) : R := over u 0 f.
(** np.sign *)
Definition sgn (x : R) : R := if Rlt_dec x 0 then -1 else if Rlt_dec 0 x then 1 else 0.
(** np.full_like(u, fill_value=c): cast to the type of u, towards zero for integers. *)
Definition trunc (x : R) : R := if Rle_dec 0 x then IZR (Int_part x) else - IZR (Int_part (- x)).
Definition full_like (u : field) (c : R) : R := if u_int u then trunc c else c.
(** Sums with utils.Zero (None). *)
Definition madd (A B : mat) : mat := map (fun ab => vadd (fst ab) (snd ab)) (combine A B).
Definition zadd (a b : option mat) : option mat :=
  match a, b with Some A, Some B => Some (madd A B) | Some A, None => Some A | None, b => b end.
(** [if self.xMap is None: return Zero()] and [sdiag(ddm) * self.xDeriv] *)
Definition part (p : par) (x ddm : vec) : option mat := option_map (scale_rows ddm) (pd p x).
(** [P_p * D + P_n * sdiag(g) * D] *)
Definition part_pn (p : par) (x u g : vec) : option mat :=
  option_map (fun D => madd (scale_rows (map (fun v => proj_p v 1) u) D)
                            (scale_rows (map (fun v => proj_n v 1) u) (scale_rows g D))) (pd p x).
Notation "a ^^ b" := (Rpower a b) (at level 29, left associativity).

(** ** Haverkamp_theta, 88-217 *)
Record par_ht := mkHt { ht_r : par; ht_s : par; ht_a : par; ht_b : par }.
(** 127-136 (a scalar theta_s is broadcast, an array indexed by u >= 0: the same entries) *)
Definition ht_cell (r s a b u : R) : R := over u s (a * (s - r) / (a + Rabs u ^^ b) + r).
(** 163-217 *)
Definition ht_dr (r s a b u : R) : R := over u 0 (- a / (a + Rabs u ^^ b) + 1).
Definition ht_ds (r s a b u : R) : R := a / (a + Rabs u ^^ b).
Definition ht_da (r s a b u : R) : R :=
  over u 0 (- a * (- r + s) / (a + Rabs u ^^ b) ^ 2 + (- r + s) / (a + Rabs u ^^ b)).
Definition ht_db (r s a b u : R) : R :=
  over u 0 (- a * (- r + s) * ln (Rabs u) * Rabs u ^^ b / (a + Rabs u ^^ b) ^ 2).
Definition ht_du (r s a b u : R) : R :=
  over u 0 (a * ((s - r) / (a + Rabs u ^^ b) ^ 2) * (- b * Rabs u ^^ (b - 1) * sgn u)).
(** A function of four parameters and the head, in every cell. *)
Definition cells4 (f : R -> R -> R -> R -> R -> R) (p1 p2 p3 p4 : par) (x u : vec) : vec :=
  let k := length u in
  tab k (fun i => f (at_ (pv k p1 x) i) (at_ (pv k p2 x) i) (at_ (pv k p3 x) i) (at_ (pv k p4 x) i) (at_ u i)).
Definition ht_call (P : par_ht) (x : vec) (u : field) : vec := cells4 ht_cell (ht_r P) (ht_s P) (ht_a P) (ht_b P) x (u_val u).
Definition ht_derivU (P : par_ht) (x : vec) (u : field) : vec := cells4 ht_du (ht_r P) (ht_s P) (ht_a P) (ht_b P) x (u_val u).
(** 138-161 *)
Definition ht_derivM (P : par_ht) (x : vec) (u : field) : option mat :=
  let c f := cells4 f (ht_r P) (ht_s P) (ht_a P) (ht_b P) x (u_val u) in
  zadd (zadd (zadd (part (ht_r P) x (c ht_dr)) (part_pn (ht_s P) x (u_val u) (c ht_ds))) (part (ht_a P) x (c ht_da))) (part (ht_b P) x (c ht_db)).

(** ** Haverkamp_k, 220-294 *)
Record par_hk := mkHk { hk_k : par; hk_a : par; hk_g : par }.
(** 249-254 *)
Definition hk_cell (u0 : field) (k a g u : R) : R := proj_p u (full_like u0 k) + proj_n u (k * a / (a + Rabs u ^^ g)).
(** 256-294 *)
Definition hk_du (k a g u : R) : R := over u 0 (- (k * a * g * Rabs u ^^ (g - 1) * sgn u) / (a + Rabs u ^^ g) ^ 2).
Definition hk_dk (k a g u : R) : R := a / (a + Rabs u ^^ g).
Definition hk_da (k a g u : R) : R := over u 0 (k / (a + Rabs u ^^ g) - k * a / (a + Rabs u ^^ g) ^ 2).
Definition hk_dg (k a g u : R) : R := over u 0 (- (a * k * ln (Rabs u) * Rabs u ^^ g) / (a + Rabs u ^^ g) ^ 2).
Definition cells3 (f : R -> R -> R -> R -> R) (p1 p2 p3 : par) (x u : vec) : vec :=
  let k := length u in
  tab k (fun i => f (at_ (pv k p1 x) i) (at_ (pv k p2 x) i) (at_ (pv k p3 x) i) (at_ u i)).
Definition hk_call (P : par_hk) (x : vec) (u : field) : vec := cells3 (hk_cell u) (hk_k P) (hk_a P) (hk_g P) x (u_val u).
Definition hk_derivU (P : par_hk) (x : vec) (u : field) : vec := cells3 hk_du (hk_k P) (hk_a P) (hk_g P) x (u_val u).
Definition hk_derivM (P : par_hk) (x : vec) (u : field) : option mat :=
  let c f := cells3 f (hk_k P) (hk_a P) (hk_g P) x (u_val u) in
  zadd (zadd (part_pn (hk_k P) x (u_val u) (c hk_dk)) (part (hk_a P) x (c hk_da))) (part (hk_g P) x (c hk_dg)).

(** ** Vangenuchten_theta, 330-486 *)
Record par_vt := mkVt { vt_r : par; vt_s : par; vt_a : par; vt_n : par }.
(** 371-381 *)
Definition vt_cell (r s a n u : R) : R := over u s ((s - r) / ((1 + Rabs (a * u) ^^ n) ^^ (1 - 1 / n)) + r).
(** 414-486 *)
Definition vt_dr (r s a n u : R) : R := over u 0 (- ((Rabs (a * u) ^^ n + 1) ^^ (-1 + 1 / n)) + 1).
Definition vt_ds (r s a n u : R) : R := (Rabs (a * u) ^^ n + 1) ^^ (-1 + 1 / n).
Definition vt_dn (r s a n u : R) : R :=
  over u 0 ((- r + s)
    * ((-1 + 1 / n) * ln (Rabs (a * u)) * Rabs (a * u) ^^ n / (Rabs (a * u) ^^ n + 1)
       - 1 * ln (Rabs (a * u) ^^ n + 1) / n ^ 2)
    * (Rabs (a * u) ^^ n + 1) ^^ (-1 + 1 / n)).
Definition vt_da (r s a n u : R) : R :=
  over u 0 (n * u * (-1 + 1 / n) * (- r + s) * (Rabs (a * u) ^^ n + 1) ^^ (-1 + 1 / n) * Rabs (a * u) ^^ n * sgn (a * u)
            / ((Rabs (a * u) ^^ n + 1) * Rabs (a * u))).
Definition vt_du (r s a n u : R) : R :=
  over u 0 (- a * n * Rabs (a * u) ^^ (n - 1) * sgn (a * u) * (1 / n - 1) * (r - s) * (Rabs (a * u) ^^ n + 1) ^^ (1 / n - 2)).
Definition vt_call (P : par_vt) (x : vec) (u : field) : vec := cells4 vt_cell (vt_r P) (vt_s P) (vt_a P) (vt_n P) x (u_val u).
Definition vt_derivU (P : par_vt) (x : vec) (u : field) : vec := cells4 vt_du (vt_r P) (vt_s P) (vt_a P) (vt_n P) x (u_val u).
(** 383-412 *)
Definition vt_derivM (P : par_vt) (x : vec) (u : field) : option mat :=
  let c f := cells4 f (vt_r P) (vt_s P) (vt_a P) (vt_n P) x (u_val u) in
  zadd (zadd (zadd (part (vt_r P) x (c vt_dr)) (part_pn (vt_s P) x (u_val u) (c vt_ds))) (part (vt_n P) x (c vt_dn))) (part (vt_a P) x (c vt_da)).

(** ** Vangenuchten_k, 489-809 *)
Record par_vk := mkVk { vk_k : par; vk_a : par; vk_i : par; vk_n : par }.
(** 523-529 and 534 *)
Definition vk_m (n : R) : R := 1 - 1 / n.
Definition theta_e (a n u : R) : R := 1 / ((1 + Rabs (a * u) ^^ n) ^^ vk_m n).
(** 531-538 *)
Definition vk_cell (u0 : field) (k a i n u : R) : R :=
  proj_p u (full_like u0 k)
  + proj_n u (k * theta_e a n u ^^ i * (1 - (1 - theta_e a n u ^^ (1 / vk_m n)) ^^ vk_m n) ^ 2).
(** 572-585 *)
Definition vk_dk (k a i n u : R) : R := theta_e a n u ^^ i * (1 - (1 - theta_e a n u ^^ (1 / vk_m n)) ^^ vk_m n) ^ 2.
(** 587-636 and 762-809 are the same expression, once with the factor [u] and once with [alpha]. *)
Definition vk_slope (c k a i n u : R) : R :=
  i * c * n * k * Rabs (a * u) ^^ (n - 1) * sgn (a * u) * (1 / n - 1) * ((Rabs (a * u) ^^ n + 1) ^^ (1 / n - 1)) ^^ (i - 1)
  * ((1 - 1 / ((Rabs (a * u) ^^ n + 1) ^^ (1 / n - 1)) ^^ (1 / (1 / n - 1))) ^^ (1 - 1 / n) - 1) ^ 2
  * (Rabs (a * u) ^^ n + 1) ^^ (1 / n - 2)
  - (2 * c * n * k * Rabs (a * u) ^^ (n - 1) * sgn (a * u) * (1 / n - 1) * ((Rabs (a * u) ^^ n + 1) ^^ (1 / n - 1)) ^^ i
     * ((1 - 1 / ((Rabs (a * u) ^^ n + 1) ^^ (1 / n - 1)) ^^ (1 / (1 / n - 1))) ^^ (1 - 1 / n) - 1)
     * (Rabs (a * u) ^^ n + 1) ^^ (1 / n - 2))
    / (((Rabs (a * u) ^^ n + 1) ^^ (1 / n - 1)) ^^ (1 / (1 / n - 1) + 1)
       * (1 - 1 / ((Rabs (a * u) ^^ n + 1) ^^ (1 / n - 1)) ^^ (1 / (1 / n - 1))) ^^ (1 / n)).
Definition vk_da (k a i n u : R) : R := over u 0 (vk_slope u k a i n u).
Definition vk_du (k a i n u : R) : R := over u 0 (vk_slope a k a i n u).
(** 638-733, with names for the expressions that occur several times: [T] for
    [1.0 * (abs(alpha*u)**n + 1.0) ** (-1.0 + 1.0/n)], [Q] for [-(T ** (1.0/(1.0 - 1.0/n))) + 1.0],
    [D] for the parenthesis of lines 644-649. *)
Definition vk_dn (k a i n u : R) : R :=
  let w := Rabs (a * u) ^^ n in
  let T := 1 * (w + 1) ^^ (-1 + 1 / n) in
  let Q := - (T ^^ (1 / (1 - 1 / n))) + 1 in
  let D := (-1 + 1 / n) * ln (Rabs (a * u)) * w / (w + 1) - 1 * ln (w + 1) / n ^ 2 in
  over u 0
   (1 * i * k * T ^^ i * D * (- (Q ^^ (1 - 1 / n)) + 1) ^ 2 * (w + 1) ^^ (-1 + 1 / n) * (w + 1) ^^ (1 - 1 / n)
    - 2 * k * T ^^ i * Q ^^ (1 - 1 / n)
      * (- (T ^^ (1 / (1 - 1 / n))) * (1 - 1 / n)
           * (1 * D * (w + 1) ^^ (-1 + 1 / n) * (w + 1) ^^ (1 - 1 / n) / (1 - 1 / n) - 1 * ln T / (n ^ 2 * (1 - 1 / n) ^ 2))
           / Q
         + 1 * ln Q / n ^ 2)
      * (- (Q ^^ (1 - 1 / n)) + 1)).
(** 735-760 *)
Definition vk_di (k a i n u : R) : R :=
  let T := 1 * (Rabs (a * u) ^^ n + 1) ^^ (-1 + 1 / n) in
  over u 0 (k * T ^^ i * (- ((- (T ^^ (1 / (1 - 1 / n))) + 1) ^^ (1 - 1 / n)) + 1) ^ 2 * ln T).
Definition vk_call (P : par_vk) (x : vec) (u : field) : vec := cells4 (vk_cell u) (vk_k P) (vk_a P) (vk_i P) (vk_n P) x (u_val u).
Definition vk_derivU (P : par_vk) (x : vec) (u : field) : vec := cells4 vk_du (vk_k P) (vk_a P) (vk_i P) (vk_n P) x (u_val u).
(** 540-570 *)
Definition vk_derivM (P : par_vk) (x : vec) (u : field) : option mat :=
  let c f := cells4 f (vk_k P) (vk_a P) (vk_i P) (vk_n P) x (u_val u) in
  zadd (zadd (zadd (part_pn (vk_k P) x (u_val u) (c vk_dk)) (part (vk_i P) x (c vk_di))) (part (vk_n P) x (c vk_dn))) (part (vk_a P) x (c vk_da)).

(** ** Both at once: _partition_args, 20-32, haverkamp 297-305, van_genuchten 812-820 *)
Inductive pname := NKs | NA | Ngamma | Nalpha | Nbeta | Ntheta_r | Ntheta_s | Nn | NI | Nother (i : nat).
Definition pname_eqb (a b : pname) : bool :=
  match a, b with
  | NKs, NKs | NA, NA | Ngamma, Ngamma | Nalpha, Nalpha | Nbeta, Nbeta | Ntheta_r, Ntheta_r | Ntheta_s, Ntheta_s | Nn, Nn | NI, NI => true
  | Nother i, Nother j => Nat.eqb i j
  | _, _ => false
  end.
Definition kwargs := list (pname * R).
Definition names_in (l : list pname) (kw : kwargs) : kwargs := filter (fun e => existsb (pname_eqb (fst e)) l) kw.
Definition partition_args (hc th : list pname) (kw : kwargs) : result (kwargs * kwargs) :=
  match filter (fun e => negb (existsb (pname_eqb (fst e)) (hc ++ th))) kw with
  | _ :: _ => Err GenericException
  | [] => Ok (names_in hc kw, names_in th kw)
  end.
(** A keyword argument with its default. *)
Definition kwarg (kw : kwargs) (nm : pname) (default : R) : par :=
  match dict_get pname_eqb nm kw with Some v => Scal v | None => Scal default end.
(** The defaults of lines 101-113, 227-236, 345-357 and 500-512. *)
Definition new_hk (kw : kwargs) : par_hk := mkHk (kwarg kw NKs 0.00944) (kwarg kw NA 1175000) (kwarg kw Ngamma 4.74).
Definition new_ht (kw : kwargs) : par_ht := mkHt (kwarg kw Ntheta_r 0.075) (kwarg kw Ntheta_s 0.287) (kwarg kw Nalpha 1611000) (kwarg kw Nbeta 3.96).
Definition new_vt (kw : kwargs) : par_vt := mkVt (kwarg kw Ntheta_r 0.078) (kwarg kw Ntheta_s 0.430) (kwarg kw Nalpha 0.036) (kwarg kw Nn 1.56).
Definition new_vk (kw : kwargs) : par_vk := mkVk (kwarg kw NKs 24.96) (kwarg kw Nalpha 0.036) (kwarg kw NI 0.5) (kwarg kw Nn 1.56).
Definition haverkamp (kw : kwargs) : result (par_hk * par_ht) :=
  do ab <- partition_args [NKs; NA; Ngamma] [Nalpha; Nbeta; Ntheta_r; Ntheta_s] kw; Ok (new_hk (fst ab), new_ht (snd ab)).
Definition van_genuchten (kw : kwargs) : result (par_vk * par_vt) :=
  do ab <- partition_args [Nalpha; Nn; NKs; NI] [Nalpha; Nn; Ntheta_r; Ntheta_s] kw; Ok (new_vk (fst ab), new_vt (snd ab)).
