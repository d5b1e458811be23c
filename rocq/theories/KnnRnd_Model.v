(** Model of the nearest-neighbour computers of cpp_source/knn/similarities.hpp
    in floating point (knn/wrapper.cpp 8: Real = double), run by the engine of
    Knn_Model.

    The numbers of the format are rationals; every arithmetic operation gives
    [rnd] of its exact result, in the order in which the code performs the
    operations.  Simplifications: no overflow, infinity or NaN; no fused
    multiply-add (CMakeLists.txt asks for no instruction set that has one); the
    row-major sparse product of Eigen adds the terms of an entry in the order of
    the stored entries of the target row, starting from the first term, and
    [.sum()], [.squaredNorm()] and [.norm()] of a row or column block run
    through its entries from zero. *)
From Verif Require Import Base Knn_Model.
From Coq Require Import QArith.
Local Open Scope nat_scope.
Local Open Scope Q_scope.

Section Rounded.
(** Rounding to the format, std::sqrt, std::pow, and the coefficient-wise
    power of an Eigen array (which may use vector instructions, so that it is
    given the whole array). *)
Variable rnd : Q -> Q.
Variable rsqrt : Q -> Q.
Variable rpow : Q -> Q -> Q.
Variable apow : list Q -> Q -> list Q.
Variable layout : srow Q -> srow Q.

Definition radd (a b : Q) : Q := rnd (a + b).
Definition rsub (a b : Q) : Q := rnd (a - b).
Definition rmul (a b : Q) : Q := rnd (a * b).
Definition rdiv (a b : Q) : Q := rnd (a / b).

(** The literal 1e-6. *)
Definition reps : Q := rnd eps.

(** Sparse product of one row, see Knn_Model.prod_row. *)
Definition rprod : list (srow Q) -> srow Q -> srow Q := prod_row (0:Q) radd rmul layout.

(** [.sum()], [.squaredNorm()] and [.norm()] of a sparse vector. *)
Definition rrow_sum (r : srow Q) : Q := fold_left radd (map snd r) 0.
Definition rsq_norm (r : srow Q) : Q := fold_left radd (map (fun e => rmul (snd e) (snd e)) r) 0.
Definition rnorm (r : srow Q) : Q := rsqrt (rsq_norm r).

(** similarities.hpp 29-46, for one row of the block. *)
Definition rcosine_row (normalize : bool) (shrinkage : Q) (xs : list (srow Q)) (t : srow Q) : srow Q :=
  let result := rprod xs t in
  if normalize then
    let target_norm := rnorm t in
    map (fun e => (fst e, rdiv (snd e) (radd (radd (rmul (nth (fst e) (map rnorm xs) 0) target_norm) shrinkage) reps))) result
  else result.

(** similarities.hpp 68-71: the squared norms, then one array power. *)
Definition rasym_norms (alpha : Q) (xs : list (srow Q)) : list Q := apow (map rsq_norm xs) (rsub 1 alpha).
(** similarities.hpp 73-87, for one row of the block. *)
Definition rasym_row (shrinkage alpha : Q) (xs : list (srow Q)) (t : srow Q) : srow Q :=
  let target_norm := rpow (rsq_norm t) alpha in
  map (fun e => (fst e, rdiv (snd e) (radd (radd (rmul (nth (fst e) (rasym_norms alpha xs) 0) target_norm) shrinkage) reps)))
    (rprod xs t).

(** similarities.hpp 109-130, for one row of the block. *)
Definition rjaccard_row (shrinkage : Q) (xs : list (srow Q)) (t : srow Q) : srow Q :=
  let xb := map binarise xs in
  let tb := binarise t in
  let target_norm := rrow_sum tb in
  map (fun e =>
         let norm := nth (fst e) (map rrow_sum xb) 0 in
         (fst e, rdiv (snd e) (radd (radd (rsub (radd norm target_norm) (snd e)) shrinkage) reps)))
    (rprod xb tb).

(** similarities.hpp 161-184, for one row of the block. *)
Definition rtversky_row (shrinkage alpha beta : Q) (xs : list (srow Q)) (t : srow Q) : srow Q :=
  let xb := map binarise xs in
  let tb := binarise t in
  let target_norm := rrow_sum tb in
  map (fun e =>
         let norm := nth (fst e) (map rrow_sum xb) 0 in
         let itv := snd e in
         (fst e, rdiv itv (radd (radd (radd (radd itv (rmul beta (rsub norm itv)))
                                         (rmul alpha (rsub target_norm itv))) shrinkage) reps)))
    (rprod xb tb).

(** similarities.hpp 211-224 and 282-295: column [i] of X_t raised to the
    power alpha and divided by its sum. *)
Definition fp3_norm_row (alpha : Q) (r : srow Q) : srow Q :=
  let p := map (fun e => (fst e, rpow (snd e) alpha)) r in
  map (fun e => (fst e, rdiv (snd e) (rrow_sum p))) p.

(** The similarity chosen and its parameters. *)
Inductive rkind : Type :=
| RCosine (shrinkage : Q) (normalize : bool)
| RAsymmetric (shrinkage alpha : Q)
| RJaccard (shrinkage : Q)
| RTversky (shrinkage alpha beta : Q)
| RP3 (alpha : Q).

(** One row of [compute_similarity_imple]. *)
Definition rrow (k : rkind) (xs : list (srow Q)) : srow Q -> srow Q :=
  match k with
  | RCosine s nz => rcosine_row nz s xs
  | RAsymmetric s a => rasym_row s a xs
  | RJaccard s => rjaccard_row s xs
  | RTversky s a b => rtversky_row s a b xs
  | RP3 a => rprod (map (fp3_norm_row a) xs)
  end.

(** The checks of the constructors: similarities.hpp 66, 148-149, 201, 271
    after those of the base class (knn.hpp 35-38). *)
Definition rchecks {A} (k : rkind) (n_threads max_chunk_size : nat) (r : outcome A) : outcome A :=
  match k with
  | RCosine s _ => base_ctor s n_threads max_chunk_size r
  | RAsymmetric s a =>
      base_ctor s n_threads max_chunk_size (check_arg (Qle_bool 0 a) (check_arg (Qle_bool a 1) r))
  | RJaccard s => base_ctor s n_threads max_chunk_size r
  | RTversky s a b =>
      base_ctor s n_threads max_chunk_size (check_arg (Qle_bool 0 a) (check_arg (Qle_bool 0 b) r))
  | RP3 a => base_ctor 0 n_threads max_chunk_size (check_arg (Qle_bool 0 a) r)
  end.

(** The constructed computer (similarities.hpp 20-28, 61-72, 96-107, 143-159,
    198-225). *)
Definition rcreate (k : rkind) (n_threads max_chunk_size : nat) (X : smat Q) : outcome computer :=
  rchecks k n_threads max_chunk_size
    (Ok {| cp_block := fun target start end_ =>
             map (rrow k (m_rows X)) (middle_rows target start end_);
           cp_threads := n_threads; cp_chunk := max_chunk_size;
           cp_features := m_cols X; cp_N := length (m_rows X) |}).

Variable nth_element : (nat -> nat -> bool) -> nat -> list nat -> list nat.
Variable sort_nat : list nat -> list nat.

(** knn.hpp 43-83 in floating point. *)
Definition rcompute : computer -> smat Q -> nat -> outcome (smat Q) :=
  cp_compute (0:Q) radd qneqb qgtb nth_element sort_nat.

(** A computer is built and asked for the similarities of [target]. *)
Definition rsimilarity (k : rkind) (n_threads max_chunk_size : nat) (X target : smat Q) (top_k : nat)
  : outcome (smat Q) :=
  obind (rcreate k n_threads max_chunk_size X) (fun c => rcompute c target top_k).

(** similarities.hpp 229-238: the powers and their sums by column, added row
    after row. *)
Definition rpow_rows (alpha : Q) (arg : smat Q) : list (srow Q) :=
  map (map (fun e => (fst e, rpow (snd e) alpha))) (m_rows arg).
Definition rcol_norm (rows : list (srow Q)) (c : nat) : Q :=
  fold_left radd (flat_map (at_col c) rows) 0.

(** similarities.hpp 229-243. *)
Definition fp3_target (alpha : Q) (arg : smat Q) : smat Q :=
  let p := rpow_rows alpha arg in
  {| m_cols := m_cols arg;
     m_rows := map (map (fun e => (fst e, rdiv (snd e) (rcol_norm p (fst e))))) p |}.

(** similarities.hpp 301-327. *)
Definition frp3_target (alpha beta : Q) (arg : smat Q) : smat Q :=
  let p := rpow_rows alpha arg in
  let popularity := apow (map rrow_sum (m_rows arg)) beta in
  {| m_cols := m_cols arg;
     m_rows :=
       map (fun pr => map (fun e => (fst e, rdiv (snd e) (rmul (rcol_norm p (fst e)) (fst pr)))) (snd pr))
         (combine popularity p) |}.

(** similarities.hpp 227-245 and 298-329 [compute_W]. *)
Definition rcompute_W (c : computer) (target : smat Q) (top_k : nat) : outcome (smat Q) :=
  omap transpose (rcompute c target top_k).

(** recommenders/p3.py 67-76 [_learn] without normalize_weight; top_k = None
    means the number of items. *)
Definition fp3_learn (alpha : Q) (top_k : option nat) (n_threads max_chunk_size : nat) (X : smat Q)
  : outcome (smat Q) :=
  let Xt := transpose X in
  obind (rcreate (RP3 alpha) n_threads max_chunk_size Xt) (fun c =>
  rcompute_W c (fp3_target alpha Xt) (match top_k with Some k => k | None => m_cols X end)).

(** recommenders/rp3.py 74-84 [_learn] without normalize_weight; the check of
    beta is similarities.hpp 272. *)
Definition frp3_learn (alpha beta : Q) (top_k : option nat) (n_threads max_chunk_size : nat) (X : smat Q)
  : outcome (smat Q) :=
  let Xt := transpose X in
  obind (rcreate (RP3 alpha) n_threads max_chunk_size Xt) (fun c =>
  check_arg (Qle_bool 0 beta)
    (rcompute_W c (frp3_target alpha beta Xt) (match top_k with Some k => k | None => m_cols X end))).

(** recommenders/knn.py 67-80 and user_knn.py 61-74. *)
Definition ritem_learn (k : rkind) (n_threads max_chunk_size : nat) (weight : smat Q -> smat Q) (X : smat Q) (top_k : nat)
  : outcome (smat Q) :=
  item_knn_learn (0:Q) radd qneqb qgtb nth_element sort_nat weight (rcreate k n_threads max_chunk_size) X top_k.
Definition ruser_learn (k : rkind) (n_threads max_chunk_size : nat) (weight : smat Q -> smat Q) (X : smat Q) (top_k : nat)
  : outcome (smat Q) :=
  user_knn_learn (0:Q) radd qneqb qgtb nth_element sort_nat weight (rcreate k n_threads max_chunk_size) X top_k.
End Rounded.
