(** Vocabulary for C74: what it means that the coordinate descent of a column
    stopped by its tolerance, and the numbers in which the consequences are
    stated. *)
From Verif Require Import Base Knn_Model Knn_Spec Slim_Model Slim_Spec.
From Coq Require Import QArith Qabs.
Local Open Scope nat_scope.

(** The sum of |X^T X| along the row of feature [f]. *)
Definition gram_row (n : nat) (X : list (srow Q)) (f : nat) : Q :=
  Qsum (map (fun g => Qabs (Qsum (map (fun r => xval X r f * xval X r g) (seq 0 n)))) (seq 0 (length X)))%Q.

(** tol^2 times the sum of the squares of those sums. *)
Definition slack (n : nat) (X : list (srow Q)) (tol : Q) : Q :=
  Qsum (map (fun f => (tol * gram_row n X f) * (tol * gram_row n X f)) (seq 0 (length X)))%Q.

(** The squared distance of two columns of weights. *)
Definition distance2 (X : list (srow Q)) (w w' : list Q) : Q :=
  Qsum (map (fun f => (nth f w 0 - nth f w' 0) * (nth f w 0 - nth f w' 0)) (seq 0 (length X)))%Q.

Definition same_weights (X : list (srow Q)) (w w' : list Q) : Prop :=
  forall f, f < length X -> (nth f w 0 == nth f w' 0)%Q.

(** [w] is column [j] of a block after a sweep over all features in which no
    weight moved by [tol] or more. *)
Definition settled_column is_zero positive_only block_size n X l2 l1 (tol : Q) (j : nat) (w : list Q) : Prop :=
  exists before inds l,
    let step := cd_step 0%Q Qplus Qminus Qmult Qdiv Qopp Qabs qltb is_zero positive_only X l2 l1 in
    let start := fst (fold_left step before (block_lanes 0%Q Qopp block_size n X (j / block_size), 0%Q)) in
    let last := fold_left step inds (start, 0%Q) in
    (forall f, In f before -> f < length X) /\ Permutation inds (seq 0 (length X)) /\ (snd last < tol)%Q /\
    In l (fst last) /\ ln_item l = j /\ same_weights X w (ln_coef l).

(** In each of these sweeps some weight of the block moved by [tol] or more. *)
Fixpoint all_moved (step : list (lane Q) * Q -> nat -> list (lane Q) * Q) (tol : Q) (sweeps : list (list nat))
    (lanes : list (lane Q)) : Prop :=
  match sweeps with
  | [] => True
  | inds :: rest => (tol <= snd (fold_left step inds (lanes, 0)))%Q /\ all_moved step tol rest (fst (fold_left step inds (lanes, 0%Q)))
  end.
(** [w] is column [j] of a block after [n_iter] sweeps, in none of which the
    weights stood still up to [tol]. *)
Definition unsettled_column is_zero positive_only block_size n X l2 l1 (tol : Q) (n_iter : nat) (j : nat) (w : list Q) : Prop :=
  exists sweeps l,
    let step := cd_step 0%Q Qplus Qminus Qmult Qdiv Qopp Qabs qltb is_zero positive_only X l2 l1 in
    let start := block_lanes 0%Q Qopp block_size n X (j / block_size) in
    length sweeps = n_iter /\ (forall inds, In inds sweeps -> Permutation inds (seq 0 (length X))) /\
    all_moved step tol sweeps start /\
    In l (fst (fold_left step (concat sweeps) (start, 0%Q))) /\ ln_item l = j /\ same_weights X w (ln_coef l).
