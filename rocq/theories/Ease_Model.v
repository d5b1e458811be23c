(** Model of the closed-form linear autoencoders: DenseSLIM (EASE) and EDLAE. *)
From Verif Require Import Base.
From mathcomp Require Import all_ssreflect all_algebra.
Set Implicit Arguments.
Unset Strict Implicit.
Unset Printing Implicit Defensive.
Local Open Scope ring_scope.
Import GRing.Theory.

Section Ease.
(** float32 / float64 arithmetic is taken to be exact arithmetic in an ordered
    field; the sparse matrix is given by its (dense) values. *)
Variable F : realFieldType.
Variables (n_users n_items : nat).
Implicit Types (X : 'M[F]_(n_users, n_items)) (P W : 'M[F]_n_items).

(** [P = X_train_all_f32.T.dot(X_train_all_f32); P_dense = P.todense()]
    (src/irspack/recommenders/dense_slim.py 40-43, edlae.py 50-54). *)
Definition p_dense X : 'M[F]_n_items := X^T *m X.

(** [P_dense[np.arange(n_items), np.arange(n_items)] += lamb]
    (dense_slim.py 44 with a scalar, edlae.py 57 with a vector). *)
Definition add_diagonal (lamb : 'I_n_items -> F) P : 'M[F]_n_items :=
  \matrix_(i, j) (if i == j then P i j + lamb i else P i j).

(** [linalg.inv(P_dense, overwrite_a=True)] (dense_slim.py 46, edlae.py 59):
    scipy raises LinAlgError for a singular matrix.  The LU based inversion is
    an external call, taken to be exact. *)
Definition linalg_inv P : outcome 'M[F]_n_items :=
  if P \in unitmx then Ok (invmx P) else Fail LinAlgError.

(** dense_slim.py 49-53, edlae.py 62-66: [diag_P_inv = 1 / np.diag(P_dense)]
    (numpy gives inf for a zero entry, and the product below then holds
    inf / NaN); [P_dense *= -diag_P_inv[np.newaxis, :]] scales column j by
    entry j; the diagonal is overwritten by 0. *)
Definition scale_columns P : outcome 'M[F]_n_items :=
  if [exists j, P j j == 0] then Fail NotANumber
  else Ok (\matrix_(i, j) (if i == j then 0 else P i j * - (1 / P j j))).

(** [DenseSLIMRecommender._learn] (dense_slim.py 39-53). *)
Definition dense_slim_learn (reg : F) X : outcome 'M[F]_n_items :=
  Base.obind (linalg_inv (add_diagonal (fun _ => reg) (p_dense X))) scale_columns.

(** [EDLAERecommender._learn] (edlae.py 49-66): [q = 1 - self.dropout_p],
    [lamb = self.dropout_p / q * np.diag(P_dense) + self.reg]; Python raises
    ZeroDivisionError for q = 0. *)
Definition edlae_learn (reg dropout_p : F) X : outcome 'M[F]_n_items :=
  let P := p_dense X in
  let q := 1 - dropout_p in
  if q == 0 then Fail ZeroDivision
  else
    let lamb i := dropout_p / q * P i i + reg in
    Base.obind (linalg_inv (add_diagonal lamb P)) scale_columns.

End Ease.
