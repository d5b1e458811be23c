(** Model of the option normalize_weight of P3alpha and RP3beta in floating
    point: src/irspack/recommenders/p3.py 75-76, rp3.py 83-84 and
    src/irspack/utils/__init__.py 20-25.  Same simplifications as KnnRnd_Model. *)
From Verif Require Import Base Knn_Model KnnRnd_Model.
From Coq Require Import QArith.
Local Open Scope nat_scope.

Section Normalised.
Variable rnd : Q -> Q.
(** utils/__init__.py 23: scipy's [sum(axis=1)] of a csc matrix multiplies it
    with a vector of ones; the column-wise product adds the terms of a row in the
    order of the columns, starting from zero. *)
Definition rl1_norm (r : srow Q) : Q := fold_left (radd rnd) (map (fun e => rmul rnd (snd e) 1) r) 0%Q.
(** utils/__init__.py 20-25. *)
Definition rl1_normalize_row (X : smat Q) : smat Q :=
  {| m_cols := m_cols X;
     m_rows := map (fun r => map (fun e => (fst e, rdiv rnd (snd e) (rl1_norm r))) r) (m_rows X) |}.

Variable rsqrt : Q -> Q.
Variable rpow : Q -> Q -> Q.
Variable apow : list Q -> Q -> list Q.
Variable layout : srow Q -> srow Q.
Variable nth_element : (nat -> nat -> bool) -> nat -> list nat -> list nat.
Variable sort_nat : list nat -> list nat.
(** p3.py 67-76 [_learn]. *)
Definition np3_learn (alpha : Q) (top_k : option nat) (normalize_weight : bool) (n_threads max_chunk_size : nat) (X : smat Q)
  : outcome (smat Q) :=
  obind (fp3_learn rnd rsqrt rpow apow layout nth_element sort_nat alpha top_k n_threads max_chunk_size X) (fun W =>
  Ok (if normalize_weight then rl1_normalize_row W else W)).
(** rp3.py 74-84 [_learn]. *)
Definition nrp3_learn (alpha beta : Q) (top_k : option nat) (normalize_weight : bool) (n_threads max_chunk_size : nat) (X : smat Q)
  : outcome (smat Q) :=
  obind (frp3_learn rnd rsqrt rpow apow layout nth_element sort_nat alpha beta top_k n_threads max_chunk_size X) (fun W =>
  Ok (if normalize_weight then rl1_normalize_row W else W)).
End Normalised.
