(** Model of the scoring calls of the similarity recommenders in floating
    point: src/irspack/recommenders/base.py 422-430 and 449-453.

    The sparse product is scipy's csr_matmat: for every stored entry of the left
    row, in storage order, the products with the entries of the matching right
    row are added to dense accumulators that start from zero ([score_of] of
    Knn_Model, with rounded operations).  [tocsc()] of W (knn.py 79) and of
    X_train_all (base.py 439) changes the layout only; scipy goes back to rows
    before it multiplies.  Same simplifications as KnnRnd_Model. *)
From Verif Require Import Base Knn_Model KnnRnd_Model.
From Coq Require Import QArith.
Local Open Scope nat_scope.

Section Scores.
Variable rnd : Q -> Q.

(** One entry of [X.dot(W)], base.py 423, 426, 429: item [i] for a user (known or
    cold) with profile [x]. *)
Definition ritem_score (W : smat Q) (x : srow Q) (i : nat) : Q := score_of 0%Q (radd rnd) (rmul rnd) W x i.

(** One entry of [U.dot(X)], base.py 450, 453: item [i] for user [u]. *)
Definition ruser_score (U X : smat Q) (u i : nat) : Q :=
  score_of 0%Q (radd rnd) (rmul rnd) X (nth u (m_rows U) []) i.
End Scores.
