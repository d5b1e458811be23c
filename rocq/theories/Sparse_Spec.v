(** Vocabulary for the sparse product and weighting properties. *)
From Verif Require Import Base Knn_Model Knn_Spec.
From Coq Require Import QArith Reals.
Local Open Scope nat_scope.

(** Value of a sparse matrix at a position. *)
Definition entry (X : smat Q) (i j : nat) : Q := Qsum (stored X i j).

(** Entry (i, j) of the product of [A] (by rows) with [B] (by columns). *)
Definition product_entry (A B : smat Q) (i j : nat) : Q :=
  Qsum (map (fun k => entry A i k * entry B j k)%Q (seq 0 (m_cols A))).

(** Same stored positions. *)
Definition same_pattern {V} (X Y : smat V) : Prop :=
  m_cols X = m_cols Y /\ map (map fst) (m_rows X) = map (map fst) (m_rows Y).

(** Every stored value is positive. *)
Definition positive_reals (X : smat R) : Prop :=
  forall r e, In r (m_rows X) -> In e r -> (0 < snd e)%R.

(** Number of rows that store column [j]. *)
Definition rows_with {V} (X : smat V) (j : nat) : nat :=
  length (filter (fun r => existsb (fun e => fst e =? j) r) (m_rows X)).

(** The matrix [pre], (row [a], (j, v), [b]), [post]: used to change one
    stored value. *)
Definition with_value (cols : nat) (pre post : list (srow R)) (a b : srow R) (j : nat) (v : R) : smat R :=
  {| m_cols := cols; m_rows := pre ++ (a ++ (j, v) :: b) :: post |}.
