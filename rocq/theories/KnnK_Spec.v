(** Vocabulary for the places in which the bound [top_k] applies. *)
From Verif Require Import Base Knn_Model Knn_Spec.
From Coq Require Import QArith.
Local Open Scope nat_scope.

(** Column [j] of a matrix: the stored entries as (row, value) pairs, by
    increasing row. *)
Definition column {V} (W : smat V) (j : nat) : srow V :=
  flat_map (fun i => map (fun v => (i, v)) (stored W i j)) (seq 0 (length (m_rows W))).

(** The entries of a row or column that are not zero. *)
Definition nonzeros (r : srow Q) : srow Q := filter (fun e => negb (Qeq_bool (snd e) 0)) r.

(** User [u] has a stored interaction with item [i]. *)
Definition interacted {V} (X : smat V) (u i : nat) : Prop := stored X u i <> [].

(** The items [i] and [j] have the same users. *)
Definition same_users {V} (X : smat V) (i j : nat) : Prop :=
  forall u, interacted X u i <-> interacted X u j.
