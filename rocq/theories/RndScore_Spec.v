(** Vocabulary for the scores of the neighbourhood recommenders in floating point. *)
From Verif Require Import Base Knn_Model Knn_Spec KnnRnd_Model KnnRnd_Spec.
From Coq Require Import QArith Reals Qreals.
Local Open Scope nat_scope.

(** The interactions of item [j], by user. *)
Definition column (X : smat Q) (j : nat) : srow Q :=
  flat_map (fun u => map (fun v => (u, v)) (stored X u j)) (seq 0 (length (m_rows X))).

(** The documented similarity of two rows of interactions, as a real number. *)
Definition documented (kd : rkind) (a b : srow Q) : R :=
  match kd with
  | RCosine s true => cosine_index s a b
  | RCosine _ false => Q2R (dot a b)
  | RJaccard s => Q2R (jaccard_index s (support a) (support b))
  | RTversky s al be => Q2R (tversky_index s al be (support a) (support b))
  | RAsymmetric _ _ | RP3 _ => 0%R
  end.
(** The similarities without powers, with parameters of moderate size. *)
Definition parameters_ok (B : positive) (kd : rkind) : Prop :=
  match kd with
  | RCosine s _ => moderate B s
  | RJaccard s => moderate B s
  | RTversky s al be => moderate B s /\ moderate B al /\ moderate B be
  | RAsymmetric _ _ | RP3 _ => False
  end.
(** How many times a value is rounded on its way into a similarity of rows with
    [n] features. *)
Definition roundings (kd : rkind) (n : nat) : nat :=
  match kd with
  | RCosine _ true => 2 * n + 9
  | RCosine _ false => n
  | RJaccard _ => 3
  | RTversky _ _ _ => 6
  | RAsymmetric _ _ | RP3 _ => 0
  end.

(** [i] is one of the neighbours kept for [j]. *)
Definition neighbour (W : smat Q) (j i : nat) : bool := existsb (Nat.eqb i) (support (nth j (m_rows W) [])).

(** The documented score of item [i] for the profile [x]: the similarities of [i]
    to the other items of the profile that have [i] as a neighbour, weighted by
    the interactions. *)
Definition item_score (similar : nat -> nat -> R) (W : smat Q) (x : srow Q) (i : nat) : R :=
  Rsum (map (fun e => if fst e =? i then 0 else if neighbour W (fst e) i then Q2R (snd e) * similar (fst e) i else 0)%R x).
(** The same over all items of the profile. *)
Definition full_item_score (similar : nat -> nat -> R) (x : srow Q) (i : nat) : R :=
  Rsum (map (fun e => if fst e =? i then 0 else Q2R (snd e) * similar (fst e) i)%R x).
(** The documented score of item [i] for user [u]: the interactions of the kept
    neighbours of [u] with [i], weighted by the similarities. *)
Definition user_score (similar : nat -> nat -> R) (U X : smat Q) (u i : nat) : R :=
  Rsum (map (fun v => if v =? u then 0 else similar u v * Q2R (value (nth v (m_rows X) []) i))%R (support (nth u (m_rows U) []))).

(** [b] is [a] up to a relative error of [e]; neither is negative, and they are
    zero together. *)
Definition relatively (e a b : R) : Prop :=
  (0 <= a /\ 0 <= b /\ a * (1 - e) <= b /\ b * (1 - e) <= a)%R /\ (a = 0 <-> b = 0)%R.
