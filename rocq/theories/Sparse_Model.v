(** Model of sparse_mm_threaded and of the feature weightings
    (cpp_source/util.hpp 41-70, 158-209; bindings cpp_source/util.cpp 16-18,
    26-29).

    Simplifications: exact rationals (product) or exact reals (weightings,
    which need a logarithm) instead of double; sizes are unbounded naturals
    (int / int64_t in the code). *)
From Verif Require Import Base Sched_Model Knn_Model.
From Coq Require Import QArith Reals.
Local Open Scope nat_scope.

(** A dense row-major matrix. *)
Definition dense := list (list Q).

(** util.hpp 41-70.  [right] is stored by columns (CSC), so its [m_rows] are
    its columns and [m_cols] is the number of its rows. *)
Section Product.
Variables left right : smat Q.

(** One row of [left.middleRows(..) * right]; the order of the terms is
    immaterial in exact arithmetic. *)
Definition product_row (i : nat) : list Q :=
  map (fun col => fold_left Qplus (prod_terms Qmult (nth i (m_rows left) []) col) 0%Q)
      (m_rows right).

(** [result.row(i) += ...] (60-62). *)
Definition add_row (i : nat) (result : dense) : dense :=
  update_nth result i
    (map (fun ab => fst ab + snd ab)%Q (combine (nth i result []) (product_row i))).

(** The pool of std::thread workers (49-67), all of them started, chunk 16,
    joined (65-67).  Shapes that do not fit are not checked; Eigen's own
    assertion is compiled out, the product is then undefined. *)
Definition sparse_mm (n_threads : nat) (sched : list nat) : outcome dense :=
  check_arg (0 <? n_threads)
    (if m_cols left =? m_cols right then
       let n_row := length (m_rows left) in
       let p := run_pool n_row 16 (fun _ a => a) add_row sched
                  (init_pool n_threads tt
                     (repeat (repeat 0%Q (length (m_rows right))) n_row)) in
       await (completed p) (Ok (p_shared p))
     else UB).
End Product.

(** util.hpp 167-172, 193-198: number of stored entries of a column. *)
Definition doc_freq {V} (X : smat V) (c : nat) : nat :=
  length (flat_map (at_col c) (m_rows X)).

Section Weights.
Local Open Scope R_scope.

(** util.hpp 170: sum of the stored values of a row. *)
Definition doc_length (r : srow R) : R := fold_left Rplus (map snd r) 0.

(** util.hpp 173. *)
Definition avgdl (X : smat R) : R :=
  fold_left Rplus (map doc_length (m_rows X)) 0 / INR (length (m_rows X)).

(** util.hpp 174-175. *)
Definition bm25_idf (X : smat R) (c : nat) : R :=
  ln (INR (length (m_rows X)) / (INR (doc_freq X c) + 1) + 1).

(** util.hpp 158-186.  Division by zero (no stored entry, or a zero sum)
    would give NaN or infinity; the theorems are about positive entries. *)
Definition okapi_BM_25_weight (X : smat R) (k1 b : R) : smat R :=
  {| m_cols := m_cols X;
     m_rows :=
       map (fun r =>
              let regularizer := k1 * (1 - b + b * doc_length r / avgdl X) in
              map (fun e => (fst e, bm25_idf X (fst e) * (snd e * (k1 + 1))
                                    / (snd e + regularizer))) r)
         (m_rows X) |}.

(** util.hpp 200: N / (count + smooth), logarithm. *)
Definition tf_idf (X : smat R) (smooth : bool) (c : nat) : R :=
  ln (INR (length (m_rows X)) / (INR (doc_freq X c) + (if smooth then 1 else 0))).

(** util.hpp 188-209; [smooth] defaults to true (util.cpp 28-29) and is left
    at that by the recommenders (knn.py 71, user_knn.py 65). *)
Definition tf_idf_weight (X : smat R) (smooth : bool) : smat R :=
  {| m_cols := m_cols X;
     m_rows := map (map (fun e => (fst e, snd e * tf_idf X smooth (fst e)))) (m_rows X) |}.
End Weights.
