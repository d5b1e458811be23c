(** Vocabulary for the SLIM properties: the elastic-net problem of one item,
    stated without the model of the solver. *)
From Verif Require Import Base Knn_Model Knn_Spec Slim_Model.
From Coq Require Import QArith Qabs.
Local Open Scope nat_scope.

(** The matrix is given by its columns: distinct rows below [n]. *)
Definition good_columns (n : nat) (X : list (srow Q)) : Prop := forall c, In c X -> good_row n c.

(** The value at row [r] of column [f]. *)
Definition xval (X : list (srow Q)) (r f : nat) : Q :=
  Qsum (map snd (filter (fun e => fst e =? r) (nth f X []))).

(** Prediction error of the weights [w] for item [j] in row [r]. *)
Definition residual (X : list (srow Q)) (j : nat) (w : list Q) (r : nat) : Q :=
  (Qsum (map (fun f => xval X r f * nth f w 0) (seq 0 (length X))) - xval X r j)%Q.

(** 1/2 ||X w - x_j||^2 + l2/2 ||w||^2 + l1 |w|_1. *)
Definition objective (n : nat) (X : list (srow Q)) (l2 l1 : Q) (j : nat) (w : list Q) : Q :=
  ((1 # 2) * Qsum (map (fun r => residual X j w r * residual X j w r) (seq 0 n))
   + l2 * (1 # 2) * Qsum (map (fun f => nth f w 0 * nth f w 0) (seq 0 (length X)))
   + l1 * Qsum (map (fun f => Qabs (nth f w 0)) (seq 0 (length X))))%Q.

(** The loss in the documentation of SLIMRecommender, for item [j] and [users] users:
    1/2 ||x_j - X w||^2 + alpha (1 - l1) U / 2 ||w||^2 + alpha l1 U |w|_1. *)
Definition documented_loss (users : nat) (X : list (srow Q)) (alpha l1_ratio : Q) (j : nat) (w : list Q) : Q :=
  ((1 # 2) * Qsum (map (fun r => residual X j w r * residual X j w r) (seq 0 users))
   + alpha * (1 - l1_ratio) * inject_Z (Z.of_nat users) / 2 * Qsum (map (fun f => nth f w 0 * nth f w 0) (seq 0 (length X)))
   + alpha * l1_ratio * inject_Z (Z.of_nat users) * Qsum (map (fun f => Qabs (nth f w 0)) (seq 0 (length X))))%Q.

(** The constraints: the item is not used for itself; no negative weights. *)
Definition feasible (positive_only : bool) (X : list (srow Q)) (j : nat) (w : list Q) : Prop :=
  (nth j w 0 == 0)%Q /\ (positive_only = true -> forall f, f < length X -> (0 <= nth f w 0)%Q).

(** [w] is a best choice of coordinate [f], the others being fixed. *)
Definition best_coordinate positive_only n X l2 l1 j (f : nat) (w : list Q) : Prop :=
  forall w', feasible positive_only X j w' ->
    (forall g, g < length X -> g <> f -> (nth g w' 0 == nth g w 0)%Q) ->
    (objective n X l2 l1 j w <= objective n X l2 l1 j w')%Q.
(** [w] solves the problem. *)
Definition optimal positive_only n X l2 l1 j (w : list Q) : Prop :=
  feasible positive_only X j w /\
  forall w', feasible positive_only X j w' -> (objective n X l2 l1 j w <= objective n X l2 l1 j w')%Q.

(** Column [j] of a weight matrix. *)
Definition weight_column (W : smat Q) (j : nat) : list Q :=
  map (fun i => Qsum (stored W i j)) (seq 0 (length (m_rows W))).

(** An arithmetic test for "nothing changed" that is exact. *)
Definition exact_test (is_zero : list Q -> bool) : Prop :=
  forall d, is_zero d = true <-> forall x, In x d -> (x == 0)%Q.

(** std::shuffle permutes. *)
Definition shuffle_ok {G} (shuffle : G -> list nat -> list nat * G) : Prop :=
  forall g l, Permutation (fst (shuffle g l)) l.

(** Number of rows with a stored value in column [j]. *)
Definition column_count {V} (W : smat V) (j : nat) : nat :=
  length (filter (fun i => negb (length (stored W i j) =? 0)) (seq 0 (length (m_rows W)))).

(** Number of non-zero weights. *)
Definition nonzeros (X : list (srow Q)) (w : list Q) : nat :=
  length (filter (fun f => negb (Qeq_bool (nth f w 0%Q) 0)) (seq 0 (length X))).

(** [w] is what the coordinate descent of the code, started with zero weights
    and some state of the generator and of the shuffled indices, ends with for
    column [j]. *)
Definition descent_column {G} is_zero (shuffle : G -> list nat -> list nat * G) positive_only block_size n X l2 l1 tol n_iter
    (j : nat) (w : list Q) : Prop :=
  exists g inds g' inds' lanes l, Permutation inds (seq 0 (length X)) /\
    descent 0%Q Qplus Qminus Qmult Qdiv Qopp Qabs qltb is_zero shuffle positive_only X l2 l1 tol n_iter g inds
      (block_lanes 0%Q Qopp block_size n X (j / block_size)) = (g', inds', lanes) /\
    In l lanes /\ ln_item l = j /\ w = ln_coef l.
