(** Model of the iALS trainer, cpp_source/als/IALSTrainer.hpp and
    cpp_source/als/IALSLearningConfig.hpp.

    Simplifications that hold throughout the file:
    - [Real] (float, als/definitions.hpp 6) is an arbitrary ordered field [F]
      with exact arithmetic: there is no rounding, overflow or infinity.
      The places where the C++ code would produce a NaN from exact inputs
      (square root of a negative number, division by zero) are explicit.
    - [std::pow] is an uninterpreted function [pow].
    - matrix shapes are part of the types; the shape checks of the C++ code
      that can fail are modelled where a caller can get the shape wrong.
    - integers do not overflow. *)
From Verif Require Import Base Sched_Model.
From mathcomp Require Import all_ssreflect all_algebra.
Import GRing.Theory Num.Theory.
Set Implicit Arguments.
Unset Strict Implicit.
Unset Printing Implicit Defensive.
Local Open Scope ring_scope.
(** mathcomp has functions of the same names on options *)
Notation obind := Base.obind.
Notation omap := Base.omap.

(** als/IALSLearningConfig.hpp 11-12 *)
Inductive loss_type := LossOriginal | LossIalspp.
Inductive solver_type := Cholesky | CG | IALSPP.

(** als/IALSLearningConfig.hpp 15-31; [K] is a type parameter of the model,
    [init_stdev] and [random_seed] only matter for the initial factors, which
    are arbitrary in the model. *)
Record model_config (F : Type) := ModelConfig {
  alpha0 : F;
  reg : F;
  nu : F;
  loss : loss_type;
  lambda_user_feature : F;
  lambda_item_feature : F;
  feature_warmup_epochs : nat }.

(** als/IALSLearningConfig.hpp 97-112 *)
Record solver_config := SolverConfig {
  n_threads : nat;
  solver : solver_type;
  max_cg_steps : nat;
  ialspp_subspace_dimension : nat;
  ialspp_iteration : nat }.

(** Rows [s, e) of an index range, for middleRows / middleCols / block. *)
Definition between (n s e : nat) : seq 'I_n := [seq i : 'I_n <- enum 'I_n | (s <= i < e)%N].
(** The embedding of the [t]-th index of a block into the full range. *)
Definition pick (n : nat) (blk : seq 'I_n) : 'I_(size blk) -> 'I_n := tnth (in_tuple blk).
Arguments pick {n} blk.

Section Ials.
Variable F : realFieldType.
Variable pow : F -> F -> F.

(** Eigen's [row(j).transpose()] and [a.dot(b)] / [squaredNorm()]. *)
Definition fvec n K (V : 'M[F]_(n, K)) (j : 'I_n) : 'cV[F]_K := (row j V)^T.
Definition dot K (u v : 'cV[F]_K) : F := \sum_k u k 0 * v k 0.
Definition sqnorm K (u : 'cV[F]_K) : F := dot u u.

(** A sparse row-major matrix: for every row its stored (column, value)
    entries in storage order. *)
Definition sparse (m n : nat) := 'I_m -> seq ('I_n * F).

(** [X.transpose()] (IALSTrainer.hpp 722): the stored entries of column [j],
    in the order of the rows. *)
Definition transpose m n (X : sparse m n) : sparse n m :=
  fun j => flatten [seq [seq (i, e.2) | e <- X i & e.1 == j] | i <- enum 'I_m].

(** Eigen::LLT and its [solve].  Column by column: fail if the pivot is not
    positive, otherwise eliminate it and continue with the rest (Schur
    complement), then substitute backwards.  Simplification: the square roots
    of the pivots are not taken (L D L^T instead of L L^T), which in exact
    arithmetic gives the same pivots and the same solution. *)
Fixpoint llt_solve (n : nat) : 'M[F]_n -> 'cV[F]_n -> option 'cV[F]_n :=
  match n return 'M[F]_n -> 'cV[F]_n -> option 'cV[F]_n with
  | 0 => fun _ b => Some b
  | n'.+1 => fun A b =>
      let A' : 'M[F]_(1 + n') := A in
      let b' : 'cV[F]_(1 + n') := b in
      let d := A' 0 0 in
      if d <= 0 then None
      else
        let u := ursubmx A' in
        let b1 := b' 0 0 in
        match llt_solve (drsubmx A' - d^-1 *: (u^T *m u)) (dsubmx b' - (b1 / d) *: u^T) with
        | None => None
        | Some x2 => Some (col_mx ((b1 - (u *m x2) 0 0) / d)%:M x2)
        end
  end.

(** [selfadjointView<Upper>] and LLT<…, Upper>: only the upper triangle is read. *)
Definition sym_upper K (T : 'M[F]_K) : 'M[F]_K :=
  \matrix_(a, b) if (a <= b)%N then T a b else T b a.

(** BatchedRankUpdater, IALSTrainer.hpp 37-58.  A buffered row [sqrt(c) * row]
    is kept as the pair [(c, row)]; [c] is assumed non-negative here, the
    callers deal with the NaN of a negative [c].
    [consume]: target.rankUpdate(buffer^T) adds buffer^T * buffer to the upper
    triangle. *)
Definition consume K (T : 'M[F]_K) (buf : seq (F * 'cV[F]_K)) : 'M[F]_K :=
  \matrix_(a, b) if (a <= b)%N
                 then T a b + \sum_(cv <- buf) cv.1 * (cv.2 a 0 * cv.2 b 0)
                 else T a b.
Definition n_batch_max := 64%N.
Definition add_row K (st : 'M[F]_K * seq (F * 'cV[F]_K)) (v : 'cV[F]_K) (c : F) :=
  let buf := rcons st.2 (c, v) in
  if (n_batch_max <= size buf)%N then (consume st.1 buf, [::]) else (st.1, buf).

(** A negative stored value makes sqrt(c) a NaN. *)
Definition has_neg n (rx : seq ('I_n * F)) : bool := has (fun e => e.2 < 0) rx.

Section Config.
Variable cfg : model_config F.

(** compute_reg, IALSTrainer.hpp 117-120 *)
Definition compute_reg (nnz other_size : nat) : F :=
  reg cfg * pow (alpha0 cfg * other_size%:R + nnz%:R) (nu cfg).

(** observation_bias, IALSTrainer.hpp 190-191, 288-289, 350-351, 451-452, 570-571, 852-854 *)
Definition observation_bias : F :=
  match loss cfg with LossIalspp => 0 | LossOriginal => alpha0 cfg end.

(** prepare_p, IALSTrainer.hpp 78-115.  Worker-local work: the block product is
    added when the worker starts with the first index of the block it owns
    (the cursor only takes multiples of mb_size = 16); the other indices of the
    block cause no work of their own. *)
Definition middle_rows n K (V : 'M[F]_(n, K)) (s e : nat) : 'M[F]_(size (between n s e), K) :=
  rowsub (pick (between n s e)) V.

Definition gram_work n K (V : 'M[F]_(n, K)) (i : nat) (acc : outcome 'M[F]_K) : outcome 'M[F]_K :=
  if (i %% 16 == 0)%N then
    obind acc (fun P_local =>
      let block_end := minn (i + 16) n in
      if (block_end <= n)%N then
        let B := middle_rows V i block_end in Ok (P_local + B^T *m B)
      else UB)
  else acc.

Definition prepare_p n K (nt : nat) (sched : seq nat) (V : 'M[F]_(n, K)) : outcome 'M[F]_K :=
  if nt == 0%N then Fail InvalidArgument
  else
    let p := run_pool n 16 (gram_work V) (fun _ s => s) sched (init_pool nt (Ok 0) tt) in
    await (completed p)
      (omap (fun P => alpha0 cfg *: P)
         (ofold (fun P w => omap (fun Q => P + Q) (w_acc w)) (p_workers p) 0)).

(** Loops over the rows of the target, one row at a time taken from an atomic
    cursor (IALSTrainer.hpp 193-196, 291-293, 353-355, 399-401, 455-457,
    574-576).  [f i r] handles row [i], whose own data is [r].
    Simplification: a worker that throws is modelled as the whole loop having
    failed; in the C++ code the other workers go on but the exception is
    rethrown by [w.get()] in any case and the call does not return. *)
Definition row_work (R : Type) m (f : 'I_m -> R -> outcome R) (i : nat)
    (s : outcome {ffun 'I_m -> R}) : outcome {ffun 'I_m -> R} :=
  obind s (fun t =>
    match insub i : option 'I_m with
    | Some i' => omap (fun r => [ffun a => if a == i' then r else t a]) (f i' (t i'))
    | None => UB
    end).
Definition step_table (R : Type) m (f : 'I_m -> R -> outcome R) (nt : nat) (sched : seq nat)
    (t : {ffun 'I_m -> R}) : outcome {ffun 'I_m -> R} :=
  let p := run_pool m 1 (fun _ a => a) (row_work f) sched (init_pool nt tt (Ok t)) in
  await (completed p) (p_shared p).

Definition rows_of m K (T : 'M[F]_(m, K)) : {ffun 'I_m -> 'cV[F]_K} := [ffun i => fvec T i].
Definition of_rows m K (t : {ffun 'I_m -> 'cV[F]_K}) : 'M[F]_(m, K) := \matrix_(i, k) t i k 0.

(** One row of step_cholesky (no prior), IALSTrainer.hpp 295-323, and of
    step_cholesky_with_prior, 357-378.  The updater's buffer is empty at the
    start of a row because the previous row ended with [consume].
    A negative stored value gives a NaN matrix, on which Eigen's LLT reports
    success; the solution is then not finite and the solver throws. *)
Definition chol_row n K (V : 'M[F]_(n, K)) (P : 'M[F]_K) (rx : seq ('I_n * F))
    (prior : option 'cV[F]_K) : outcome 'cV[F]_K :=
  let rg := compute_reg (size rx) n in
  let B0 := match prior with Some q => rg *: q | None => 0 end in
  let '(st, B) :=
    foldl (fun acc e =>
             let v := fvec V e.1 in
             (add_row acc.1 v e.2, acc.2 + (observation_bias + e.2) *: v))
          ((P, [::]), B0) rx in
  let P_local := consume st.1 st.2 + rg%:M in
  if (0 < K)%N && has_neg rx then Fail RuntimeError
  else match llt_solve (sym_upper P_local) B with
       | None => Fail RuntimeError
       | Some x => Ok x
       end.

(** One row of step_cg, IALSTrainer.hpp 198-260. *)
Definition cg_tol : F := (10%:R ^+ 20)^-1.

Definition cg_apply n K (V : 'M[F]_(n, K)) (P : 'M[F]_K) (rx : seq ('I_n * F)) (rg : F)
    (p : 'cV[F]_K) : 'cV[F]_K :=
  foldl (fun Ap e => Ap + (e.2 * dot (fvec V e.1) p) *: fvec V e.1) (P *m p + rg *: p) rx.

Fixpoint cg_loop (tol : F) K (app : 'cV[F]_K -> 'cV[F]_K) (iters : nat) (x r p : 'cV[F]_K)
    : outcome 'cV[F]_K :=
  match iters with
  | 0 => Ok x
  | it.+1 =>
      let r2 := sqnorm r in
      if r2 <= tol then Ok x
      else
        let Ap := app p in
        let denominator := dot p Ap in
        if ~~ (0 < denominator) then Fail RuntimeError
        else
          let alpha := r2 / denominator in
          let x' := x + alpha *: p in
          let r' := r - alpha *: Ap in
          if sqnorm r' <= tol then Ok x'
          else
            let beta := sqnorm r' / r2 in
            cg_loop tol app it x' r' (r' + beta *: p)
  end.

Definition cg_row (tol : F) n K (V : 'M[F]_(n, K)) (P : 'M[F]_K) (steps : nat) (rx : seq ('I_n * F))
    (prior : option 'cV[F]_K) (x : 'cV[F]_K) : outcome 'cV[F]_K :=
  let rg := compute_reg (size rx) n in
  match prior, size rx with
  | None, 0 => Ok 0
  | _, _ =>
      let b0 := match prior with Some q => rg *: q | None => 0 end in
      let b := foldl (fun b e => b + (observation_bias + e.2) *: fvec V e.1) b0 rx in
      let r0 := b - P *m x - rg *: x in
      let r := foldl (fun r e => r - (e.2 * dot (fvec V e.1) x) *: fvec V e.1) r0 rx in
      let cg_max_iter := if steps == 0%N then K else steps in
      cg_loop tol (cg_apply V P rx rg) cg_max_iter x r r
  end.

(** Row [i] of the feature prior, if there is one. *)
Definition prior_row m K (prior : option 'M[F]_(m, K)) (i : 'I_m) : option 'cV[F]_K :=
  match prior with Some Q => Some (fvec Q i) | None => None end.

(** step_cholesky (273-331), step_cholesky_with_prior (333-385), step_cg (170-271). *)
Definition step_cholesky m n K (V : 'M[F]_(n, K)) (P : 'M[F]_K) (X : sparse m n)
    (prior : option 'M[F]_(m, K)) (nt : nat) (sched : seq nat) (T : 'M[F]_(m, K)) : outcome 'M[F]_(m, K) :=
  omap (@of_rows m K)
    (step_table (fun i _ => chol_row V P (X i) (prior_row prior i)) nt sched (rows_of T)).

Definition step_cg m n K (V : 'M[F]_(n, K)) (P : 'M[F]_K) (X : sparse m n)
    (prior : option 'M[F]_(m, K)) (steps nt : nat) (sched : seq nat) (T : 'M[F]_(m, K))
    : outcome 'M[F]_(m, K) :=
  omap (@of_rows m K)
    (step_table (fun i x => cg_row cg_tol V P steps (X i) (prior_row prior i) x) nt sched (rows_of T)).

(** _prediction, IALSTrainer.hpp 387-421.  The flat array [predictions] is kept
    as one slice per row (outerIndexPtr()[row] .. outerIndexPtr()[row + 1]). *)
Definition prediction m n K (X : sparse m n) (T : 'M[F]_(m, K)) (V : 'M[F]_(n, K))
    (nt : nat) (sched : seq nat) : outcome {ffun 'I_m -> seq F} :=
  step_table (fun i _ => Ok [seq dot (fvec T i) (fvec V e.1) | e <- X i]) nt sched
             [ffun i => nseq (size (X i)) 0].

(** One row of _step_dimrange, IALSTrainer.hpp 459-505.  [blk] lists the
    dimensions dim_start .. dim_end - 1, [x] is the row of target_factor (not
    written during the pass), [xs] the row of target_factor_subspaced and [pr]
    the slice of predictions.  The outcome of the decomposition is not
    looked at: on failure, or with a NaN from a negative stored value, the row
    is filled with unspecified numbers, [Fail NotANumber] here. *)
Definition dimrange_row n K (V : 'M[F]_(n, K)) (P : 'M[F]_K) (rx : seq ('I_n * F))
    (blk : seq 'I_K) (x : 'cV[F]_K) (st : 'cV[F]_(size blk) * seq F)
    : outcome ('cV[F]_(size blk) * seq F) :=
  let sub := pick blk in
  let Vs := colsub sub V in
  let rg := compute_reg (size rx) n in
  let B0 := rowsub sub P *m x + rg *: st.1 in
  let '(tb, B) :=
    foldl (fun acc ep =>
             let v := fvec Vs ep.1.1 in
             let residual := ep.1.2 * (ep.2 - 1) - observation_bias in
             (add_row acc.1 v ep.1.2, acc.2 + residual *: v))
          ((mxsub sub sub P, [::]), B0) (zip rx st.2) in
  let P_local := consume tb.1 tb.2 + rg%:M in
  if (0 < size blk)%N && has_neg rx then Fail NotANumber
  else match llt_solve (sym_upper P_local) B with
       | None => Fail NotANumber
       | Some d => Ok (st.1 - d, [seq ep.2 - dot d (fvec Vs ep.1.1) | ep <- zip rx st.2])
       end.

Arguments dimrange_row {n K} V P rx blk x st.

(** [target_factor.middleCols(…) = target_factor_subspaced], 513 *)
Definition write_cols m K (blk : seq 'I_K) (T : 'M[F]_(m, K))
    (S : {ffun 'I_m -> 'cV[F]_(size blk)}) : 'M[F]_(m, K) :=
  \matrix_(i, k) (if insub (index k blk) is Some t then S i t 0 else T i k).

(** _step_dimrange, IALSTrainer.hpp 423-514 *)
Definition step_dimrange m n K (V : 'M[F]_(n, K)) (P : 'M[F]_K) (X : sparse m n) (nt : nat)
    (sched : seq nat) (dim_start dim_end : nat) (st : 'M[F]_(m, K) * {ffun 'I_m -> seq F})
    : outcome ('M[F]_(m, K) * {ffun 'I_m -> seq F}) :=
  if (dim_end <= K)%N then
    let blk := between K dim_start dim_end in
    let T := st.1 in
    omap (fun t : {ffun 'I_m -> 'cV[F]_(size blk) * seq F} =>
            (write_cols T [ffun i => (t i).1], [ffun i => (t i).2]))
      (step_table (fun i => dimrange_row V P (X i) blk (fvec T i)) nt sched
         [ffun i => (rowsub (pick blk) (fvec T i), st.2 i)])
  else UB.

(** One row of _step_icd, IALSTrainer.hpp 578-623: the same in one dimension,
    in scalars.  [B / 0] is an infinity or a NaN. *)
Definition icd_row n K (V : 'M[F]_(n, K)) (P : 'M[F]_K) (rx : seq ('I_n * F)) (k : 'I_K)
    (x : 'cV[F]_K) (st : F * seq F) : outcome (F * seq F) :=
  let rg := compute_reg (size rx) n in
  let B0 := dot (fvec P k) x + rg * st.1 in
  let '(pl, B) :=
    foldl (fun acc ep =>
             let v := V ep.1.1 k in
             let residual := ep.1.2 * (ep.2 - 1) - observation_bias in
             (acc.1 + ep.1.2 * v * v, acc.2 + residual * v))
          (P k k, B0) (zip rx st.2) in
  let P_local := pl + rg in
  if P_local == 0 then Fail NotANumber
  else
    let d := B / P_local in
    Ok (st.1 - d, [seq ep.2 - d * V ep.1.1 k | ep <- zip rx st.2]).

(** _step_icd, IALSTrainer.hpp 553-630 *)
Definition step_icd_dim m n K (V : 'M[F]_(n, K)) (P : 'M[F]_K) (X : sparse m n) (nt : nat)
    (sched : seq nat) (k : 'I_K) (st : 'M[F]_(m, K) * {ffun 'I_m -> seq F})
    : outcome ('M[F]_(m, K) * {ffun 'I_m -> seq F}) :=
  let T := st.1 in
  omap (fun t : {ffun 'I_m -> F * seq F} =>
          (\matrix_(i, k') (if k' == k then (t i).1 else T i k'), [ffun i => (t i).2]))
    (step_table (fun i => icd_row V P (X i) k (fvec T i)) nt sched
       [ffun i => (T i k, st.2 i)]).

(** Schedules of the pools started one after the other by a call, numbered
    by iteration and by range of dimensions. *)
Definition schedules := nat -> nat -> seq nat.

(** The loop [for (cursor = 0; cursor < dim_all; cursor += dimension)],
    IALSTrainer.hpp 526-533; [c] counts the passes. *)
Fixpoint dim_loop m n K (V : 'M[F]_(n, K)) (P : 'M[F]_K) (X : sparse m n) (nt : nat)
    (sch : nat -> seq nat) (dimension : nat) (fuel cursor c : nat)
    (st : 'M[F]_(m, K) * {ffun 'I_m -> seq F}) : outcome ('M[F]_(m, K) * {ffun 'I_m -> seq F}) :=
  if (cursor < K)%N then
    match fuel with
    | 0 => Pending
    | fuel'.+1 =>
        let cursor_end := minn (cursor + dimension) K in
        obind (step_dimrange V P X nt (sch c) cursor cursor_end st)
              (dim_loop V P X nt sch dimension fuel' (cursor + dimension) c.+1)
    end
  else Ok st.

(** One pass of step_ialspp (516-535) / step_icd (537-552) over all dimensions. *)
Definition ialspp_pass m n K (V : 'M[F]_(n, K)) (P : 'M[F]_K) (X : sparse m n) (nt dimension : nat)
    (sch : nat -> seq nat) (T : 'M[F]_(m, K)) : outcome 'M[F]_(m, K) :=
  obind (prediction X T V nt (sch 0%N)) (fun pr =>
    omap fst (dim_loop V P X nt sch dimension K 0 1 (T, pr))).
Definition icd_pass m n K (V : 'M[F]_(n, K)) (P : 'M[F]_K) (X : sparse m n) (nt : nat)
    (sch : nat -> seq nat) (T : 'M[F]_(m, K)) : outcome 'M[F]_(m, K) :=
  obind (prediction X T V nt (sch 0%N)) (fun pr =>
    omap fst (ofold (fun st (k : 'I_K) => step_icd_dim V P X nt (sch k.+1) k st) (enum 'I_K) (T, pr))).

Fixpoint repeat_pass (A : Type) (f : nat -> A -> outcome A) (iter c : nat) (a : A) : outcome A :=
  match iter with
  | 0 => Ok a
  | iter'.+1 => obind (f c a) (repeat_pass f iter' c.+1)
  end.

(** step, IALSTrainer.hpp 664-679 *)
Definition solver_step m n K (sc : solver_config) (sch : schedules) (V : 'M[F]_(n, K)) (P : 'M[F]_K)
    (X : sparse m n) (T : 'M[F]_(m, K)) : outcome 'M[F]_(m, K) :=
  match solver sc with
  | CG => step_cg V P X None (max_cg_steps sc) (n_threads sc) (sch 0%N 0%N) T
  | Cholesky => step_cholesky V P X None (n_threads sc) (sch 0%N 0%N) T
  | IALSPP =>
      if (1 < ialspp_subspace_dimension sc)%N
      then repeat_pass (fun it => ialspp_pass V P X (n_threads sc) (ialspp_subspace_dimension sc) (sch it))
                       (ialspp_iteration sc) 0 T
      else repeat_pass (fun it => icd_pass V P X (n_threads sc) (sch it)) (ialspp_iteration sc) 0 T
  end.

(** step_with_prior, IALSTrainer.hpp 633-663 *)
Definition solver_step_with_prior m n K (sc : solver_config) (sch : schedules) (V : 'M[F]_(n, K))
    (P : 'M[F]_K) (X : sparse m n) (prior : 'M[F]_(m, K)) (T : 'M[F]_(m, K)) : outcome 'M[F]_(m, K) :=
  if (alpha0 cfg == 0) && ~~ (0 < compute_reg 0 n) && [exists i, size (X i) == 0%N]
  then Fail InvalidArgument
  else match solver sc with
       | CG => step_cg V P X (Some prior) (max_cg_steps sc) (n_threads sc) (sch 0%N 0%N) T
       | Cholesky => step_cholesky V P X (Some prior) (n_threads sc) (sch 0%N 0%N) T
       | IALSPP => Fail InvalidArgument
       end.

(** X_to_vector, IALSTrainer.hpp 122-141, with the shape check.
    (X_to_vector_with_prior is in IalsState_Model.) *)
Definition cast_row n' n (e : n' = n) (rx : seq ('I_n' * F)) : seq ('I_n * F) :=
  [seq (cast_ord e it.1, it.2) | it <- rx].
Definition x_to_vector m n' n K (sc : solver_config) (sch : schedules) (V : 'M[F]_(n, K)) (P : 'M[F]_K)
    (X : sparse m n') : outcome 'M[F]_(m, K) :=
  match @eqP _ n' n with
  | ReflectT e => solver_step sc sch V P (fun i => cast_row e (X i)) 0
  | ReflectF _ => Fail InvalidArgument
  end.

(** Feature weights, IALSTrainer.hpp 1040-1210.  Sparse and dense feature
    matrices only differ in skipping zeros; both are [feat] here. *)
Record feature_cache (m f : nat) := FeatureCache {
  row_weights : {ffun 'I_m -> F};
  gram : 'M[F]_f }.

(** initialize_feature_weight_cache, 1082-1135: the rows are scaled by
    sqrt(row_weight), so the Gram matrix weighs row [i] with row_weight [i].
    A negative row weight gives a NaN matrix, which LLT does not report. *)
Definition init_cache m n f (feat : 'M[F]_(m, f)) (lambda : F) (X : sparse m n) (other_size : nat)
    : outcome (feature_cache m f) :=
  let rw := [ffun i => compute_reg (size (X i)) other_size] in
  let g := \matrix_(a, b) (\sum_i rw i * (feat i a * feat i b)) + lambda%:M in
  if [exists i, rw i < 0] || isSome (llt_solve g 0) then Ok (FeatureCache rw g)
  else Fail RuntimeError.

(** solve_feature_weight, 1137-1183: the columns (latent dimensions) are
    handed out in batches. *)
Definition feature_col m f K (feat : 'M[F]_(m, f)) (factor : 'M[F]_(m, K)) (c : feature_cache m f)
    (k : 'I_K) : outcome 'cV[F]_f :=
  let wf := \matrix_(i, k') (factor i k' * row_weights c i) in
  if [exists i, row_weights c i < 0] then Fail RuntimeError
  else match llt_solve (gram c) (feat^T *m col k wf) with
       | None => Fail RuntimeError
       | Some x => Ok x
       end.
Definition feature_work m f K (feat : 'M[F]_(m, f)) (factor : 'M[F]_(m, K)) (c : feature_cache m f)
    (k : nat) (s : outcome 'M[F]_(f, K)) : outcome 'M[F]_(f, K) :=
  obind s (fun W =>
    match insub k : option 'I_K with
    | Some k' => omap (fun x : 'cV[F]_f => \matrix_(a, b) (if b == k' then x a 0 else W a b)) (feature_col feat factor c k')
    | None => UB
    end).
Definition solve_feature_weight m f K (feat : 'M[F]_(m, f)) (factor : 'M[F]_(m, K))
    (c : feature_cache m f) (nt : nat) (sched : seq nat) (W : 'M[F]_(f, K)) : outcome 'M[F]_(f, K) :=
  if nt == 0%N then Fail InvalidArgument
  else if K == 0%N then Ok W
  else
    let worker_count := minn nt K in
    let batch_size := ((K + worker_count - 1) %/ worker_count)%N in
    let p := run_pool K batch_size (fun _ a => a) (feature_work feat factor c) sched
                      (init_pool worker_count tt (Ok W)) in
    await (completed p) (p_shared p).

(** update_feature_weight, 1185-1219 *)
Definition update_feature_weight m n f K (feat : 'M[F]_(m, f)) (factor : 'M[F]_(m, K))
    (lambda : F) (X : sparse m n) (nt : nat) (sched : seq nat)
    (W : 'M[F]_(f, K)) (cache : option (feature_cache m f))
    : outcome ('M[F]_(f, K) * option (feature_cache m f)) :=
  if f == 0%N then Ok (W, cache)
  else
    obind (match cache with Some c => Ok c | None => init_cache feat lambda X n end) (fun c =>
      omap (fun W' => (W', Some c)) (solve_feature_weight feat factor c nt sched W)).

(** IALSTrainer, 710-745 and 986-1002. *)
Record trainer (m n K fu fi : nat) := Trainer {
  t_user : 'M[F]_(m, K);
  t_item : 'M[F]_(n, K);
  t_user_weight : 'M[F]_(fu, K);
  t_item_weight : 'M[F]_(fi, K);
  t_user_cache : option (feature_cache m fu);
  t_item_cache : option (feature_cache n fi);
  t_epoch : nat }.

(** The constant part of a trainer: the interactions (X_t is X.transpose()),
    the features and whether there are any. *)
Record train_data (m n fu fi : nat) := TrainData {
  d_X : sparse m n;
  d_user_features : 'M[F]_(m, fu);
  d_item_features : 'M[F]_(n, fi);
  d_feature_aware : bool }.

(** The constructors, 716-745 with initialize_feature_aware (1004-1016).
    [user0] and [item0] are the factors produced by Solver::initialize (64-76)
    from the random number generator, or whatever the memory contained if
    init_stdev <= 0: they are arbitrary.  The trainer without features has
    empty weight matrices.  The row counts of the features are right by type. *)
Definition new_trainer m n K fu fi (d : train_data m n fu fi) (user0 : 'M[F]_(m, K)) (item0 : 'M[F]_(n, K))
    : outcome (trainer m n K fu fi) :=
  if d_feature_aware d &&
     (((fu != 0)%N && (lambda_user_feature cfg <= 0)) || ((fi != 0)%N && (lambda_item_feature cfg <= 0)))
  then Fail InvalidArgument
  else Ok (Trainer user0 item0 0 0 None None 0).

(** The pools started by one epoch: prepare_p for the users, the user step,
    the user feature weights, and the same for the items. *)
Record epoch_schedules := EpochSchedules {
  s_prepare_user : seq nat; s_step_user : schedules; s_weight_user : seq nat;
  s_prepare_item : seq nat; s_step_item : schedules; s_weight_item : seq nat }.

(** One half of IALSTrainer::step, 758-789: update [T] (the users) given [V]
    (the items). *)
Definition half_step m n K f (sc : solver_config) (with_features : bool)
    (s_prepare : seq nat) (s_step : schedules) (s_weight : seq nat)
    (X : sparse m n) (feat : 'M[F]_(m, f)) (lambda : F)
    (V : 'M[F]_(n, K)) (T : 'M[F]_(m, K)) (W : 'M[F]_(f, K)) (cache : option (feature_cache m f))
    : outcome ('M[F]_(m, K) * ('M[F]_(f, K) * option (feature_cache m f))) :=
  obind (prepare_p (n_threads sc) s_prepare V) (fun P =>
    if with_features && (f != 0)%N then
      let prior := feat *m W in
      obind (solver_step_with_prior sc s_step V P X prior T) (fun T' =>
        omap (fun wc => (T', wc))
             (update_feature_weight feat T' lambda X (n_threads sc) s_weight W cache))
    else omap (fun T' => (T', (W, cache))) (solver_step sc s_step V P X T)).

(** IALSTrainer::step, 758-789 *)
Definition trainer_step m n K fu fi (sc : solver_config) (es : epoch_schedules)
    (d : train_data m n fu fi) (t : trainer m n K fu fi) : outcome (trainer m n K fu fi) :=
  if d_feature_aware d && (if solver sc is IALSPP then true else false) then Fail InvalidArgument
  else
    let with_features := d_feature_aware d && (feature_warmup_epochs cfg <= t_epoch t)%N in
    obind (half_step sc with_features (s_prepare_user es) (s_step_user es) (s_weight_user es)
             (d_X d) (d_user_features d) (lambda_user_feature cfg)
             (t_item t) (t_user t) (t_user_weight t) (t_user_cache t)) (fun ru =>
    obind (half_step sc with_features (s_prepare_item es) (s_step_item es) (s_weight_item es)
             (transpose (d_X d)) (d_item_features d) (lambda_item_feature cfg)
             ru.1 (t_item t) (t_item_weight t) (t_item_cache t)) (fun ri =>
    Ok (Trainer ru.1 ri.1 ru.2.1 ri.2.1 ru.2.2 ri.2.2 (t_epoch t).+1))).

(** transform_user / transform_item, 791-802 *)
Definition transform_user m n n' m' K fu fi (sc : solver_config) (s_prepare : seq nat) (sch : schedules)
    (t : trainer m n K fu fi) (X : sparse m' n') : outcome 'M[F]_(m', K) :=
  obind (prepare_p (n_threads sc) s_prepare (t_item t)) (fun P => x_to_vector sc sch (t_item t) P X).
Definition transform_item m n n' m' K fu fi (sc : solver_config) (s_prepare : seq nat) (sch : schedules)
    (t : trainer m n K fu fi) (X : sparse m' n') : outcome 'M[F]_(n', K) :=
  obind (prepare_p (n_threads sc) s_prepare (t_user t)) (fun P =>
    x_to_vector sc sch (t_user t) P (transpose X)).

(** compute_loss, 836-940.  One row's contribution to the observed part and
    its regularisation (847-881). *)
Definition obs_term (p c : F) : F :=
  c * p * p - 2%:R * (c + observation_bias) * p + c + observation_bias.
Definition user_term m n K (U : 'M[F]_(m, K)) (V : 'M[F]_(n, K)) (X : sparse m n) (skip_reg : bool)
    (i : nat) (acc : outcome F) : outcome F :=
  obind acc (fun acc =>
    match insub i : option 'I_m with
    | Some i' =>
        let s := foldl (fun a e => a + obs_term (dot (fvec U i') (fvec V e.1)) e.2) acc (X i') in
        Ok (if skip_reg then s else s + compute_reg (size (X i')) n * sqnorm (fvec U i'))
    | None => UB
    end).
(** 886-914 *)
Definition item_term m n K (V : 'M[F]_(n, K)) (Xt : sparse n m) (skip_reg : bool)
    (j : nat) (acc : outcome F) : outcome F :=
  obind acc (fun acc =>
    match insub j : option 'I_n with
    | Some j' => Ok (if skip_reg then acc else acc + compute_reg (size (Xt j')) m * sqnorm (fvec V j'))
    | None => UB
    end).
(** The workers' local sums, added in the order of the futures (882-884, 915-917). *)
Definition sum_pool (n nt : nat) (work : nat -> outcome F -> outcome F) (sched : seq nat) (loss0 : F)
    : outcome F :=
  let p := run_pool n 1 work (fun _ s => s) sched (init_pool nt (Ok 0) tt) in
  await (completed p) (ofold (fun l w => omap (fun x => l + x) (w_acc w)) (p_workers p) loss0).
(** Feature part, 919-938 *)
Definition feature_term m n K f (X : sparse m n) (feat : 'M[F]_(m, f)) (T : 'M[F]_(m, K)) (W : 'M[F]_(f, K))
    (lambda : F) (loss0 : F) : F :=
  let residual := T - feat *m W in
  let l := foldl (fun l i => l + compute_reg (size (X i)) n * sqnorm (fvec residual i)) loss0 (enum 'I_m) in
  l + lambda * \sum_a sqnorm (fvec W a).

Definition compute_loss m n K fu fi (nt : nat) (s1 s2 s3 s4 : seq nat) (d : train_data m n fu fi)
    (t : trainer m n K fu fi) : outcome F :=
  let U := t_user t in
  let V := t_item t in
  let wu := d_feature_aware d && (fu != 0)%N in
  let wi := d_feature_aware d && (fi != 0)%N in
  obind (prepare_p nt s1 V) (fun PU =>
  obind (prepare_p nt s2 U) (fun PV =>
  let loss1 := if alpha0 cfg != 0 then (\sum_a \sum_b PU a b * PV a b) / alpha0 cfg else 0 in
  obind (sum_pool m nt (user_term U V (d_X d) wu) s3 loss1) (fun loss2 =>
  obind (sum_pool n nt (item_term V (transpose (d_X d)) wi) s4 loss2) (fun loss3 =>
  let loss4 := if wu then feature_term (d_X d) (d_user_features d) U (t_user_weight t)
                            (lambda_user_feature cfg) loss3 else loss3 in
  let loss5 := if wi then feature_term (transpose (d_X d)) (d_item_features d) V (t_item_weight t)
                            (lambda_item_feature cfg) loss4 else loss4 in
  Ok (loss5 / 2%:R))))).

(** user_scores, 942-984.  The block product is written when the worker starts
    with the first index of its block (the cursor only takes multiples of
    chunk_size).  [junk] is the uninitialised result matrix. *)
Definition chunk_size_of (nt result_size : nat) : nat :=
  let target_chunk_count := (nt * 4)%N in
  let ideal := ((result_size + target_chunk_count - 1) %/ target_chunk_count)%N in
  if (ideal < 16)%N then 16%N else if (128 < ideal)%N then 128%N else ideal.

Definition score_work m n K (U : 'M[F]_(m, K)) (V : 'M[F]_(n, K)) (begin size chunk : nat) (i : nat)
    (s : outcome 'M[F]_(size, n)) : outcome 'M[F]_(size, n) :=
  if (i %% chunk == 0)%N then
    obind s (fun res =>
      let block_size := (minn (i + chunk) size - i)%N in
      if (i + block_size <= size)%N && (i + begin + block_size <= m)%N then
        let src := between m (i + begin) (i + begin + block_size) in
        let B := rowsub (pick src) U *m V^T in
        Ok (\matrix_(r, c)
              (if (i <= r < i + block_size)%N
               then if insub (r - i)%N is Some t then B t c else res r c
               else res r c))
      else UB)
  else s.

Definition user_scores m n K (nt : nat) (sched : seq nat) (U : 'M[F]_(m, K)) (V : 'M[F]_(n, K))
    (begin end_ : nat) (junk : 'M[F]_(end_ - begin, n)) : outcome 'M[F]_(end_ - begin, n) :=
  check_arg (0 < nt)%N (check_arg (begin <= end_)%N (check_arg (end_ <= m)%N (
    let size := (end_ - begin)%N in
    let chunk := chunk_size_of nt size in
    let p := run_pool size chunk (fun _ a => a) (@score_work m n K U V begin size chunk) sched
                      (init_pool nt tt (Ok junk)) in
    await (completed p) (p_shared p)))).
End Config.
End Ials.
Arguments dimrange_row {F} pow cfg {n K} V P rx blk x st.
