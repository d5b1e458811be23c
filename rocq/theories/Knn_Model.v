(** Model of the nearest-neighbour engine: cpp_source/knn/knn.hpp,
    cpp_source/knn/similarities.hpp, remove_diagonal of cpp_source/util.hpp
    211-226 and the [_learn] methods of src/irspack/recommenders/knn.py,
    user_knn.py, p3.py and rp3.py.

    Simplifications.  Sizes are unbounded naturals (size_t / int in the code).
    The engine is written for an arbitrary type [V] of values with its
    addition, multiplication and comparisons; the similarity formulas are
    instantiated with exact rationals (Jaccard, Tversky, P3alpha, RP3beta) or
    exact reals (the cosine family, which needs square roots and powers)
    instead of double.  The tasks started by std::async(std::launch::async)
    share only data they read, and their results are collected with get() in
    the order of the tasks, so the model runs them in that order. *)
From Verif Require Import Base.
From Coq Require Import QArith Reals.
Local Open Scope nat_scope.

(** A stored row of a sparse matrix: (column, value) pairs in storage order.
    A column that is not listed holds zero; a listed zero is an explicit
    zero. *)
Definition srow (V : Type) := list (nat * V).

(** A row-major sparse matrix (Eigen::SparseMatrix<Real, RowMajor>). *)
Record smat (V : Type) := { m_cols : nat; m_rows : list (srow V) }.
Arguments m_cols {V} _.
Arguments m_rows {V} _.

Section Engine.
Context {V : Type}.
Variable v0 : V.
Variables vadd vmul : V -> V -> V.
Variable vneqb : V -> V -> bool. (* operator!= *)
Variable vgtb : V -> V -> bool.  (* operator> *)

(** The order in which Eigen's product stores the entries of a row is not
    specified (they appear in the order in which they are first met). *)
Variable layout : srow V -> srow V.
(** std::nth_element(begin, begin + k, end, comp). *)
Variable nth_element : (nat -> nat -> bool) -> nat -> list nat -> list nat.
(** std::sort(begin, end) on integers. *)
Variable sort_nat : list nat -> list nat.

(** Values stored at column [c] of a row. *)
Definition at_col (c : nat) (r : srow V) : list V :=
  map snd (filter (fun e => fst e =? c) r).

(** Sum of a non-empty list started from its first element. *)
Definition vsum1 (l : list V) : V :=
  match l with
  | [] => v0
  | v :: l' => fold_left vadd l' v
  end.

(** Terms of the product of row [t] of the left matrix with column [j] of
    the right one, the latter given by row [x] of its transpose: one term for
    every pair of stored entries with the same inner index. *)
Definition prod_terms (t x : srow V) : list V :=
  flat_map (fun e => map (fun w => vmul (snd e) w) (at_col (fst e) x)) t.

(** One row of the sparse product [target.middleRows(start, n) * X_t]
    (similarities.hpp 33, 76, 120, 172, 251, 335); [xs] lists the columns of
    X_t, that is the rows of X_arg.  Column [j] is stored when there is at
    least one term, whatever its value. *)
Definition prod_row (xs : list (srow V)) (t : srow V) : srow V :=
  layout
    (flat_map (fun jx => match prod_terms t (snd jx) with
                         | [] => []
                         | terms => [(fst jx, vsum1 terms)]
                         end)
       (combine (seq 0 (length xs)) xs)).

(** knn.hpp 119-125: the order of the positions of a row, best value first,
    ties by smaller column. *)
Definition score_descending (r : srow V) (d : nat * V) (a b : nat) : bool :=
  if vneqb (snd (nth a r d)) (snd (nth b r d))
  then vgtb (snd (nth a r d)) (snd (nth b r d))
  else fst (nth a r d) <? fst (nth b r d).

(** knn.hpp 112-135: the triplets emitted for one row [row] of the block. *)
Definition row_triples (top_k : nat) (row : nat) (r : srow V)
  : list (nat * nat * V) :=
  let nz_size := length r in
  let col_size := min nz_size top_k in
  let buffer := seq 0 nz_size in
  let buffer :=
    if col_size <? nz_size
    then nth_element (score_descending r (0, v0)) col_size buffer
    else buffer in
  let kept := sort_nat (firstn col_size buffer) in
  map (fun i => let e := nth i r (0, v0) in (row, fst e, snd e)) kept.

Section Computer.
(** [compute_sim_block target start end]: the rows of
    [compute_similarity_imple] of the concrete computer. *)
Variable sim_block : smat V -> nat -> nat -> list (srow V).
Variables n_threads max_chunk_size n_features N : nat.

(** knn.hpp 111-136: the loop over the rows of a block. *)
Definition block_triples (top_k cursor : nat) (block : list (srow V))
  : list (nat * nat * V) :=
  flat_map (fun ir => row_triples top_k (fst ir + cursor) (snd ir))
    (combine (seq 0 (length block)) block).

(** knn.hpp 101-137: the loop over the chunks; [fuel] bounds the number of
    iterations and is large enough when max_chunk_size >= 1. *)
Fixpoint chunk_loop (fuel : nat) (target : smat V) (top_k cursor end_ : nat)
  : list (nat * nat * V) :=
  match fuel with
  | 0 => []
  | S fuel' =>
      if cursor <? end_ then
        let end_local := min (cursor + max_chunk_size) end_ in
        block_triples top_k cursor (sim_block target cursor end_local)
        ++ chunk_loop fuel' target top_k (cursor + max_chunk_size) end_
      else []
  end.

(** knn.hpp 85-139. *)
Definition compute_similarity_triple (target : smat V) (start end_ top_k : nat)
  : list (nat * nat * V) :=
  chunk_loop (S (end_ - start)) target top_k start end_.

(** knn.hpp 59-71: the jobs given to the threads, as (job_start, block_size). *)
Fixpoint jobs (k i per remnant start : nat) : list (nat * nat) :=
  match k with
  | 0 => []
  | S k' =>
      let block_size := if i <? remnant then per + 1 else per in
      (start, block_size) :: jobs k' (S i) per remnant (start + block_size)
  end.

(** Eigen's setFromTriplets: the triplets of one position are added up, the
    columns of a row come out in increasing order. *)
Definition from_triplets (rows cols : nat) (ts : list (nat * nat * V)) : smat V :=
  {| m_cols := cols;
     m_rows :=
       map (fun r =>
              flat_map (fun c =>
                match map snd (filter (fun t => (fst (fst t) =? r) && (snd (fst t) =? c)) ts) with
                | [] => []
                | vs => [(c, vsum1 vs)]
                end) (seq 0 cols))
         (seq 0 rows) |}.

(** knn.hpp 43-83. *)
Definition compute_similarity (target : smat V) (top_k : nat) : outcome (smat V) :=
  check_arg (m_cols target =? n_features)
    (let rows := length (m_rows target) in
     if n_threads =? 1 then
       Ok (from_triplets rows N (compute_similarity_triple target 0 rows top_k))
     else
       let per_block_size := rows / n_threads in
       let remnant := rows mod n_threads in
       let results :=
         map (fun j => compute_similarity_triple target (fst j) (fst j + snd j) top_k)
           (jobs n_threads 0 per_block_size remnant 0) in
       Ok (from_triplets rows N (concat results))).
End Computer.

(** [target.middleRows(start, end - start)]. *)
Definition middle_rows (target : smat V) (start end_ : nat) : list (srow V) :=
  firstn (end_ - start) (skipn start (m_rows target)).

(** util.hpp 211-226: stored diagonal entries are overwritten by zero, the
    structure is kept. *)
Definition remove_diagonal (X : smat V) : outcome (smat V) :=
  check_arg (length (m_rows X) =? m_cols X)
    (Ok {| m_cols := m_cols X;
           m_rows :=
             map (fun ir => map (fun e => if fst e =? fst ir then (fst e, v0) else e) (snd ir))
               (combine (seq 0 (length (m_rows X))) (m_rows X)) |}).

(** scipy's transpose of a matrix in CSR form, with the result given by rows
    again. *)
Definition transpose (X : smat V) : smat V :=
  {| m_cols := length (m_rows X);
     m_rows :=
       map (fun c =>
              flat_map (fun ir => map (fun v => (fst ir, v)) (at_col c (snd ir)))
                (combine (seq 0 (length (m_rows X))) (m_rows X)))
         (seq 0 (m_cols X)) |}.

(** A constructed computer: what [compute_similarity] needs. *)
Record computer :=
  { cp_block : smat V -> nat -> nat -> list (srow V);
    cp_threads : nat;
    cp_chunk : nat;
    cp_features : nat;
    cp_N : nat }.

Definition cp_compute (c : computer) (target : smat V) (top_k : nat) : outcome (smat V) :=
  compute_similarity (cp_block c) (cp_threads c) (cp_chunk c) (cp_features c) (cp_N c)
    target top_k.

(** recommenders/knn.py 67-80 [_learn]; [weight] is the feature weighting
    chosen (identity, tf_idf_weight or okapi_BM_25_weight), [create] is
    [_create_computer].  The result is [_W]. *)
Definition item_knn_learn (weight : smat V -> smat V) (create : smat V -> outcome computer)
    (X : smat V) (top_k : nat) : outcome (smat V) :=
  obind (create (transpose (weight X))) (fun c =>
  obind (cp_compute c (transpose X) top_k) remove_diagonal).

(** recommenders/user_knn.py 61-74 [_learn]; the result is [U_]. *)
Definition user_knn_learn (weight : smat V -> smat V) (create : smat V -> outcome computer)
    (X : smat V) (top_k : nat) : outcome (smat V) :=
  obind (create (weight X)) (fun c =>
  obind (cp_compute c X top_k) remove_diagonal).

(** [X.dot(W)] for one user: the dense score of item [i]
    (recommenders/base.py 423-430). *)
Definition score_of (W : smat V) (x : srow V) (i : nat) : V :=
  fold_left vadd
    (flat_map (fun e => map (fun w => vmul (snd e) w) (at_col i (nth (fst e) (m_rows W) []))) x)
    v0.
End Engine.

(** ** The concrete similarities *)

(** 1e-6 added to every denominator, as the exact rational. *)
Definition eps : Q := 1 # 1000000.

(** operator!= and operator> on exact rationals. *)
Definition qneqb (a b : Q) : bool := negb (Qeq_bool a b).
Definition qgtb (a b : Q) : bool := negb (Qle_bool a b).

Section QComputers.
Variable layout : srow Q -> srow Q.
Local Open Scope Q_scope.
Let qprod := prod_row (0:Q) Qplus Qmult layout.

(** The checks of the base constructor, knn.hpp 30-41. *)
Definition base_ctor {A} (shrinkage : Q) (n_threads max_chunk_size : nat) (k : outcome A)
  : outcome A :=
  check_arg (Qle_bool 0 shrinkage)
    (check_arg (1 <=? n_threads)%nat (check_arg (1 <=? max_chunk_size)%nat k)).

(** Every stored value replaced by one (similarities.hpp 99-103, 113-118). *)
Definition binarise (r : srow Q) : srow Q := map (fun e => (fst e, 1:Q)) r.

(** [.sum()] of a sparse vector. *)
Definition row_sum (r : srow Q) : Q := fold_left Qplus (map snd r) 0.

(** similarities.hpp 120-128, for one row of the block. *)
Definition jaccard_row (shrinkage : Q) (xs : list (srow Q)) (t : srow Q) : srow Q :=
  let xb := map binarise xs in
  let tb := binarise t in
  let target_norm := row_sum tb in
  map (fun e =>
         let norm := nth (fst e) (map row_sum xb) 0 in
         (fst e, snd e / (norm + target_norm - snd e + shrinkage + eps)))
    (qprod xb tb).

(** similarities.hpp 89-131. *)
Definition jaccard_ctor (X : smat Q) (shrinkage : Q) (n_threads max_chunk_size : nat)
  : outcome computer :=
  base_ctor shrinkage n_threads max_chunk_size
    (Ok {| cp_block := fun target start end_ =>
             map (jaccard_row shrinkage (m_rows X)) (middle_rows target start end_);
           cp_threads := n_threads; cp_chunk := max_chunk_size;
           cp_features := m_cols X; cp_N := length (m_rows X) |}).

(** similarities.hpp 172-182, for one row of the block. *)
Definition tversky_row (shrinkage alpha beta : Q) (xs : list (srow Q)) (t : srow Q) : srow Q :=
  let xb := map binarise xs in
  let tb := binarise t in
  let target_norm := row_sum tb in
  map (fun e =>
         let norm := nth (fst e) (map row_sum xb) 0 in
         let itv := snd e in
         (fst e, itv / (itv + beta * (norm - itv) + alpha * (target_norm - itv)
                        + shrinkage + eps)))
    (qprod xb tb).

(** similarities.hpp 132-185. *)
Definition tversky_ctor (X : smat Q) (shrinkage alpha beta : Q)
    (n_threads max_chunk_size : nat) : outcome computer :=
  base_ctor shrinkage n_threads max_chunk_size
    (check_arg (Qle_bool 0 alpha) (check_arg (Qle_bool 0 beta)
      (Ok {| cp_block := fun target start end_ =>
               map (tversky_row shrinkage alpha beta (m_rows X))
                 (middle_rows target start end_);
             cp_threads := n_threads; cp_chunk := max_chunk_size;
             cp_features := m_cols X; cp_N := length (m_rows X) |}))).

(** std::pow(value, exponent); left uninterpreted. *)
Variable pow : Q -> Q -> Q.

(** similarities.hpp 210-224: the rows of X_arg (columns of X_t) raised to
    the power alpha and divided by their sum.  A zero sum would give a NaN;
    the theorems about this function assume positive stored values. *)
Definition p3_norm_row (alpha : Q) (r : srow Q) : srow Q :=
  let p := map (fun e => (fst e, pow (snd e) alpha)) r in
  map (fun e => (fst e, snd e / row_sum p)) p.

(** similarities.hpp 198-225 and 247-254. *)
Definition p3_ctor (X : smat Q) (alpha : Q) (n_threads max_chunk_size : nat)
  : outcome computer :=
  base_ctor 0 n_threads max_chunk_size
    (check_arg (Qle_bool 0 alpha)
      (Ok {| cp_block := fun target start end_ =>
               map (qprod (map (p3_norm_row alpha) (m_rows X)))
                 (middle_rows target start end_);
             cp_threads := n_threads; cp_chunk := max_chunk_size;
             cp_features := m_cols X; cp_N := length (m_rows X) |})).

(** similarities.hpp 229-238: the powers and their sums by column. *)
Definition pow_rows (alpha : Q) (arg : smat Q) : list (srow Q) :=
  map (map (fun e => (fst e, pow (snd e) alpha))) (m_rows arg).
Definition col_norm (rows : list (srow Q)) (c : nat) : Q :=
  fold_left Qplus (flat_map (at_col c) rows) 0.

(** similarities.hpp 229-243: the target of P3alpha. *)
Definition p3_target (alpha : Q) (arg : smat Q) : smat Q :=
  let p := pow_rows alpha arg in
  {| m_cols := m_cols arg;
     m_rows := map (map (fun e => (fst e, snd e / col_norm p (fst e)))) p |}.

(** similarities.hpp 301-327: the target of RP3beta. *)
Definition rp3_target (alpha beta : Q) (arg : smat Q) : smat Q :=
  let p := pow_rows alpha arg in
  let popularity := map (fun r => pow (row_sum r) beta) (m_rows arg) in
  {| m_cols := m_cols arg;
     m_rows :=
       map (fun pr => map (fun e => (fst e, snd e / (col_norm p (fst e) * fst pr))) (snd pr))
         (combine popularity p) |}.

Variable nth_element : (nat -> nat -> bool) -> nat -> list nat -> list nat.
Variable sort_nat : list nat -> list nat.
Let qcompute := cp_compute (0:Q) Qplus qneqb qgtb nth_element sort_nat.

(** similarities.hpp 227-245 [compute_W]. *)
Definition p3_compute_W (c : computer) (alpha : Q) (arg : smat Q) (top_k : nat)
  : outcome (smat Q) :=
  omap transpose (qcompute c (p3_target alpha arg) top_k).

(** similarities.hpp 298-329 [compute_W]. *)
Definition rp3_compute_W (c : computer) (alpha beta : Q) (arg : smat Q) (top_k : nat)
  : outcome (smat Q) :=
  omap transpose (qcompute c (rp3_target alpha beta arg) top_k).

(** utils/__init__.py 20-25: rows divided by their (signed) sum; a zero sum
    would give a NaN or an infinity. *)
Definition l1_normalize_row (X : smat Q) : smat Q :=
  {| m_cols := m_cols X;
     m_rows := map (fun r => map (fun e => (fst e, snd e / row_sum r)) r) (m_rows X) |}.

(** recommenders/p3.py 67-76 [_learn]: top_k = None means the number of items. *)
Definition p3_learn (alpha : Q) (top_k : option nat) (normalize_weight : bool)
    (n_threads max_chunk_size : nat) (X : smat Q) : outcome (smat Q) :=
  let Xt := transpose X in
  obind (p3_ctor Xt alpha n_threads max_chunk_size) (fun c =>
  obind (p3_compute_W c alpha Xt
           (match top_k with Some k => k | None => m_cols X end)) (fun W =>
  Ok (if normalize_weight then l1_normalize_row W else W))).

(** recommenders/rp3.py 74-84 [_learn]; the constructor also checks beta
    (similarities.hpp 271-272). *)
Definition rp3_learn (alpha beta : Q) (top_k : option nat) (normalize_weight : bool)
    (n_threads max_chunk_size : nat) (X : smat Q) : outcome (smat Q) :=
  let Xt := transpose X in
  obind (p3_ctor Xt alpha n_threads max_chunk_size) (fun c =>
  check_arg (Qle_bool 0 beta)
    (obind (rp3_compute_W c alpha beta Xt
           (match top_k with Some k => k | None => m_cols X end)) (fun W =>
     Ok (if normalize_weight then l1_normalize_row W else W)))).
End QComputers.

Section RComputers.
Variable layout : srow R -> srow R.
Local Open Scope R_scope.
Let rprod := prod_row (0:R) Rplus Rmult layout.

(** operator!= and operator> on exact reals. *)
Definition rneqb (a b : R) : bool := if Req_EM_T a b then false else true.
Definition rgtb (a b : R) : bool := if Rlt_dec b a then true else false.

(** [.squaredNorm()] and [.norm()] of a sparse vector. *)
Definition sq_norm (r : srow R) : R := fold_left Rplus (map (fun e => snd e * snd e) r) 0.
Definition norm (r : srow R) : R := sqrt (sq_norm r).

Definition eps_R : R := / 1000000.

(** std::pow(x, y) for x >= 0: pow(0, 0) = 1, pow(0, y) = 0 for y > 0. *)
Definition pow_R (x y : R) : R :=
  if Req_EM_T x 0 then (if Req_EM_T y 0 then 1 else 0) else Rpower x y.

(** similarities.hpp 29-46, for one row of the block. *)
Definition cosine_row (normalize : bool) (shrinkage : R) (xs : list (srow R)) (t : srow R)
  : srow R :=
  let result := rprod xs t in
  if normalize then
    let target_norm := norm t in
    map (fun e => (fst e, snd e / (nth (fst e) (map norm xs) 0 * target_norm
                                   + shrinkage + eps_R))) result
  else result.

(** similarities.hpp 73-87, for one row of the block. *)
Definition asym_cosine_row (shrinkage alpha : R) (xs : list (srow R)) (t : srow R)
  : srow R :=
  let target_norm := pow_R (sq_norm t) alpha in
  map (fun e => (fst e, snd e / (nth (fst e) (map (fun x => pow_R (sq_norm x) (1 - alpha)) xs) 0
                                   * target_norm + shrinkage + eps_R)))
    (rprod xs t).

(** The checks of the base constructor, knn.hpp 30-41. *)
Definition base_ctor_R {A} (shrinkage : R) (n_threads max_chunk_size : nat) (k : outcome A)
  : outcome A :=
  check_arg (if Rlt_dec shrinkage 0 then false else true)
    (check_arg (1 <=? n_threads)%nat (check_arg (1 <=? max_chunk_size)%nat k)).

(** similarities.hpp 9-47. *)
Definition cosine_ctor (X : smat R) (shrinkage : R) (normalize : bool)
    (n_threads max_chunk_size : nat) : outcome computer :=
  base_ctor_R shrinkage n_threads max_chunk_size
    (Ok {| cp_block := fun target start end_ =>
             map (cosine_row normalize shrinkage (m_rows X)) (middle_rows target start end_);
           cp_threads := n_threads; cp_chunk := max_chunk_size;
           cp_features := m_cols X; cp_N := length (m_rows X) |}).

(** similarities.hpp 49-88. *)
Definition asym_cosine_ctor (X : smat R) (shrinkage alpha : R)
    (n_threads max_chunk_size : nat) : outcome computer :=
  base_ctor_R shrinkage n_threads max_chunk_size
    (check_arg (if Rlt_dec alpha 0 then false else true)
      (check_arg (if Rlt_dec 1 alpha then false else true)
        (Ok {| cp_block := fun target start end_ =>
                 map (asym_cosine_row shrinkage alpha (m_rows X))
                   (middle_rows target start end_);
               cp_threads := n_threads; cp_chunk := max_chunk_size;
               cp_features := m_cols X; cp_N := length (m_rows X) |}))).
End RComputers.
