(** Vocabulary for normalize_weight in floating point. *)
From Verif Require Import Base Knn_Model Knn_Spec RndScore_Spec.
From Coq Require Import QArith Reals Qreals.

(** The weight of [j] as a share of the weights of the items that are kept for
    [i]. *)
Definition kept_share (weight : nat -> nat -> R) (W : smat Q) (i j : nat) : R :=
  (weight i j / Rsum (map (weight i) (support (nth i (m_rows W) []))))%R.
