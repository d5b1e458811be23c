(** Model of SLIM (cpp_source/util.hpp 228-424; bindings cpp_source/util.cpp
    31-41) and of [_learn] of src/irspack/recommenders/slim.py 79-102.

    The algorithm is written for an arbitrary arithmetic: a type [V] with its
    operations and comparisons, among them Eigen's [isZero].  It is
    instantiated with exact rationals below; facts that hold for every
    arithmetic also hold for the float of the code.

    Simplifications.  Sizes are unbounded naturals.  A worker takes
    [block_size] columns at a time, so the cursor counts blocks.  The random
    generator with std::shuffle and std::sort are parameters. *)
From Verif Require Import Base Sched_Model Knn_Model.
From Coq Require Import QArith.
Local Open Scope nat_scope.

(** One row of the matrices [remnants] and [coeffs] (249-250): the state of
    the column [ln_item] of the result. *)
Record lane (V : Type) := mkLane { ln_item : nat; ln_rem : list V; ln_coef : list V }.
Arguments mkLane {V} _ _ _.
Arguments ln_item {V} _.
Arguments ln_rem {V} _.
Arguments ln_coef {V} _.

Section Slim.
Context {V : Type}.
Variables zero : V.
Variables add sub mul div : V -> V -> V.
Variables opp vabs : V -> V.
Variables ltb leb neqb : V -> V -> bool. (* operator<, operator<=, operator!= *)
Variable is_zero : list V -> bool.       (* Eigen's isZero() of a vector *)

(** The state of std::mt19937 and std::shuffle. *)
Context {G : Type}.
Variable gen0 : G.
Variable shuffle : G -> list nat -> list nat * G.
(** std::sort with the comparison [val1.first > val2.first]. *)
Variable sort_desc : list (V * nat) -> list (V * nat).

Variable positive_only : bool.
Variable block_size : nat. (* the SIMD packet size, at least 1 *)
Variable n_rows : nat.
Variable X : list (srow V). (* the columns of X_csc *)
Variables l2_coeff l1_coeff tol : V.
Variable n_iter : nat.
Variable top_k : Z.

Let F := length X.
Definition column (f : nat) : srow V := nth f X [].

(** 272-273 and 276-281: [remnants.setZero(); coeffs.setZero()] and the
    negated column; a position beyond the last column stays zero. *)
Definition init_lane (item : nat) : lane V :=
  mkLane item
    (fold_left (fun rem e => update_nth rem (fst e) (opp (snd e))) (column item)
       (repeat zero n_rows))
    (repeat zero F).

(** 291-297. *)
Definition x2_sum (f : nat) : V :=
  fold_left (fun acc e => add acc (mul (snd e) (snd e))) (column f) zero.
(** 297-299. *)
Definition linear (f : nat) (l : lane V) : V :=
  sub (fold_left (fun acc e => add acc (mul (snd e) (nth (fst e) (ln_rem l) zero)))
         (column f) zero)
      (mul (x2_sum f) (nth f (ln_coef l) zero)).

(** 301-341: the new coefficient. *)
Definition new_coef (f : nat) (l : lane V) : V :=
  let quadratic := add (x2_sum f) l2_coeff in
  let lplus := div (sub (opp (linear f l)) l1_coeff) quadratic in
  let lminus := div (add (opp (linear f l)) l1_coeff) quadratic in
  if ln_item l =? f then zero
  else if positive_only then
    if ltb zero lplus then lplus else zero
  else
    if ltb zero lplus then lplus
    else if ltb lminus zero then lminus else zero.

(** 346-350: [remnants.col(row) += value * coeff_temp]. *)
Definition update_rem (f : nat) (d : V) (rem : list V) : list V :=
  fold_left (fun rem e => update_nth rem (fst e) (add (nth (fst e) rem zero) (mul (snd e) d)))
    (column f) rem.

(** std::max and [cwiseAbs().maxCoeff()] (351). *)
Definition vmax (a b : V) : V := if ltb a b then b else a.
Definition max_abs (d : list V) : V := fold_left (fun m x => vmax m (vabs x)) d zero.

(** 287-353: one feature of a sweep; the state is the block and [delta]. *)
Definition cd_step (st : list (lane V) * V) (f : nat) : list (lane V) * V :=
  let '(lanes, delta) := st in
  let diffs := map (fun l => sub (new_coef f l) (nth f (ln_coef l) zero)) lanes in
  if is_zero diffs then
    (map (fun l => mkLane (ln_item l) (ln_rem l) (update_nth (ln_coef l) f (new_coef f l))) lanes,
     delta)
  else
    (map (fun ld => let l := fst ld in
            mkLane (ln_item l) (update_rem f (snd ld) (ln_rem l))
                   (update_nth (ln_coef l) f (new_coef f l)))
         (combine lanes diffs),
     vmax delta (max_abs diffs)).

(** 283-357: the sweeps of a block; the shuffled indices and the generator
    stay with the worker. *)
Fixpoint descent (n : nat) (g : G) (indices : list nat) (lanes : list (lane V))
  : G * list nat * list (lane V) :=
  match n with
  | 0 => (g, indices, lanes)
  | S n' =>
      let '(indices, g) := shuffle g indices in
      let '(lanes, delta) := fold_left cd_step indices (lanes, zero) in
      if ltb delta tol then (g, indices, lanes) else descent n' g indices lanes
  end.

(** The lanes of block [b] (267-281). *)
Definition block_lanes (b : nat) : list (lane V) :=
  map init_lane (seq (b * block_size) block_size).
(** 269-271: the lanes that stand for columns. *)
Definition valid_size (b : nat) : nat := min (b * block_size + block_size) F - b * block_size.

(** 359-370. *)
Definition emit_all (lanes : list (lane V)) : list (nat * nat * V) :=
  flat_map (fun f =>
    flat_map (fun l => let c := nth f (ln_coef l) zero in
                       if neqb c zero then [(f, ln_item l, c)] else []) lanes)
    (seq 0 F).

(** 373-399 for one lane: the reused buffer and the triplets.  The first
    [nnz] places are overwritten; when there are more than [top_k] of them
    the whole buffer is sorted. *)
Definition emit_top (buffer : list (V * nat)) (l : lane V)
  : list (V * nat) * list (nat * nat * V) :=
  let fresh := flat_map (fun f => let c := nth f (ln_coef l) zero in
                                  if neqb c zero then [(c, f)] else []) (seq 0 F) in
  let nnz := length fresh in
  let buffer := fresh ++ skipn nnz buffer in
  let '(buffer, n_taken) :=
    if (top_k <? Z.of_nat nnz)%Z then (sort_desc buffer, Z.to_nat top_k) else (buffer, nnz) in
  (buffer, map (fun cf => (snd cf, ln_item l, fst cf)) (firstn n_taken buffer)).

Fixpoint emit_tops (buffer : list (V * nat)) (lanes : list (lane V))
  : list (V * nat) * list (nat * nat * V) :=
  match lanes with
  | [] => (buffer, [])
  | l :: lanes' =>
      let '(buffer, ts) := emit_top buffer l in
      let '(buffer, ts') := emit_tops buffer lanes' in
      (buffer, ts ++ ts')
  end.

(** The data of one worker (240-261). *)
Record slim_worker := mkSlimWorker
  { sw_gen : G; sw_indices : list nat; sw_buffer : list (V * nat);
    sw_results : list (nat * nat * V) }.
Definition slim_worker0 : slim_worker :=
  mkSlimWorker gen0 (seq 0 F)
    (if (0 <=? top_k)%Z then repeat (zero, 0) F else []) [].

(** 263-401: one turn of the loop. *)
Definition slim_block (b : nat) (w : slim_worker) : slim_worker :=
  let '(g, indices, lanes) := descent n_iter (sw_gen w) (sw_indices w) (block_lanes b) in
  let valid := firstn (valid_size b) lanes in
  let '(buffer, ts) :=
    if (top_k <? 0)%Z then (sw_buffer w, emit_all valid) else emit_tops (sw_buffer w) valid in
  mkSlimWorker g indices buffer (sw_results w ++ ts).

Definition n_blocks : nat := (F + (block_size - 1)) / block_size.

(** 228-424. *)
Definition slim (n_threads : nat) (sched : list nat) : outcome (smat V) :=
  check_arg (0 <? n_threads) (check_arg (0 <? n_iter)
    (check_arg (leb zero l2_coeff) (check_arg (leb zero l1_coeff)
      (let p := run_pool n_blocks 1 slim_block (fun _ s => s) sched
                  (init_pool n_threads slim_worker0 tt) in
       await (completed p)
         (Ok (from_triplets zero add F F
                (concat (map (fun w => sw_results (w_acc w)) (p_workers p)))))))) ).
End Slim.

(** ** Exact rationals *)
Definition qltb (a b : Q) : bool := negb (Qle_bool b a).
(** Eigen's isZero() of a float vector: every entry at most
    NumTraits<float>::dummy_precision() = 1e-5 in absolute value. *)
Definition eigen_is_zero (d : list Q) : bool := forallb (fun x => Qle_bool (Qabs.Qabs x) (1 # 100000)) d.
(** The test meant: no entry changed. *)
Definition exact_is_zero (d : list Q) : bool := forallb (fun x => Qeq_bool x 0) d.

Section QSlim.
Local Open Scope Q_scope.
Context {G : Type}.
Definition slim_Q is_zero (gen0 : G) shuffle sort_desc positive_only block_size n_rows X l2 l1 tol n_iter top_k n_threads sched :=
  slim 0 Qplus Qminus Qmult Qdiv Qopp Qabs.Qabs qltb Qle_bool qneqb is_zero gen0 shuffle sort_desc
    positive_only block_size n_rows X l2 l1 tol n_iter top_k n_threads sched.

(** recommenders/slim.py 79-102: [top_k] None becomes -1; the number of users
    scales both coefficients. *)
Definition slim_learn is_zero (gen0 : G) shuffle sort_desc block_size
    (alpha l1_ratio : Q) (positive_only : bool) (n_iter : nat) (tol : Q) (top_k : option nat)
    (n_users : nat) (X : list (srow Q)) (n_threads : nat) (sched : list nat) : outcome (smat Q) :=
  let l2_coeff := inject_Z (Z.of_nat n_users) * alpha * (1 - l1_ratio) in
  let l1_coeff := inject_Z (Z.of_nat n_users) * alpha * l1_ratio in
  slim_Q is_zero gen0 shuffle sort_desc positive_only block_size n_users X l2_coeff l1_coeff tol n_iter
    (match top_k with None => (-1)%Z | Some k => Z.of_nat k end) n_threads sched.
End QSlim.
