(** Specification vocabulary for surveys: totals and membership. *)
From Verif Require Import Py Survey.

(** Total number of data of a list of receivers / of sources. *)
Definition total_rx (rs : list rx) : nat := list_sum (map rx_nD rs).
Definition total_data (l : list src) : nat := list_sum (map (fun s => total_rx (src_rxs s)) l).

(** The pair with identities (i, j) occurs in the survey. *)
Definition pair_of_survey (l : list src) (k : nat * nat) : Prop :=
  exists s r, In s l /\ In r (src_rxs s) /\ k = (src_id s, rx_id r).

(** The (source, receiver) identities in survey order. *)
Definition pair_keys (l : list src) : list (nat * nat) :=
  concat (map (fun s => map (fun r => (src_id s, rx_id r)) (src_rxs s)) l).
