(** Model of the training of iALS without features in the arithmetic of the
    machine: cpp_source/als/IALSTrainer.hpp.

    What Eigen computes from given operands - products of blocks, the solution
    for one row - is a parameter of the model, an arbitrary function of these
    operands: any rounding, order of summation and fused operation inside such
    a call is covered.  The model fixes which calls are made, with which
    operands, by which worker, and how the results are put together.
    Ials_Model has the same code over exact numbers.
    Simplification: as in Ials_Model a worker that throws ends the whole loop. *)
From Coq Require Import QArith.
From Verif Require Import Base Sched_Model.
Local Open Scope nat_scope.

(** Numbers of the machine, K x K matrices, and what is computed in one go. *)
Record machine := mkMachine {
  num : Type;
  num_zero : num;
  pmat : Type;
  p_zero : pmat;
  (** [block^T * block] for some rows of a factor, IALSTrainer.hpp 102-105;
      addition of two such matrices (102, 111); multiplication by alpha0 (113) *)
  block_gram : list (list num) -> pmat;
  p_add : pmat -> pmat -> pmat;
  p_scale : pmat -> pmat;
  (** The bodies of the loops over rows: step_cholesky (295-323), step_cg
      (197-262; first argument max_cg_steps), _prediction (402-414),
      _step_dimrange (459-505) and _step_icd (578-623; range of dimensions
      first).  Arguments: the other factor, P, the row of X (stored columns and
      values); then what the body reads of the row it works on. *)
  chol_solve : list (list num) -> pmat -> list (nat * num) -> outcome (list num);
  cg_solve : nat -> list (list num) -> pmat -> list (nat * num) -> list num -> outcome (list num);
  predict : list (list num) -> list (nat * num) -> list num -> list num;
  dim_update : nat -> nat -> list (list num) -> pmat -> list (nat * num) -> list num -> list num * list num -> list num * list num;
  icd_update : nat -> list (list num) -> pmat -> list (nat * num) -> list num -> list num * list num -> list num * list num;
  (** The [i]-th number of a fresh normal_distribution with a fresh mt19937:
      seed, standard deviation (before the division by sqrt(cols)), cols, i *)
  draw : Z -> Q -> nat -> nat -> num;
  (** [users * item^T] for some rows, 976-978 *)
  score_block : list (list num) -> list (list num) -> list (list num) }.

Inductive solver := Cholesky | CG | IALSPP.
Record config := mkConfig {
  c_K : nat;
  c_seed : Z;
  c_stdev : Q;
  c_threads : nat;
  c_solver : solver;
  c_cg_steps : nat;
  c_iterations : nat;         (* ialspp_iteration *)
  c_subspace : nat }.         (* ialspp_subspace_dimension *)

Section Machine.
Variable M : machine.
Notation row := (list (num M)).
Notation srow := (list (nat * num M)).

(** Solver::initialize, 64-76: rows before columns.  Without a positive
    standard deviation the matrix stays what the memory contained ([junk]:
    Eigen does not initialise, 711-712). *)
Definition initialize (c : config) (rows : nat) (junk : list row) : list row :=
  if Qle_bool (c_stdev c) 0 then junk
  else map (fun i => map (fun k => draw M (c_seed c) (c_stdev c) (c_K c) (i * c_K c + k)) (seq 0 (c_K c))) (seq 0 rows).

(** prepare_p, 78-115 *)
Definition gram_work (V : list row) (i : nat) (P_local : pmat M) : pmat M :=
  if i mod 16 =? 0 then p_add M P_local (block_gram M (firstn (min (i + 16) (length V) - i) (skipn i V))) else P_local.
Definition prepare_p (nt : nat) (sched : list nat) (V : list row) : outcome (pmat M) :=
  if nt =? 0 then Fail InvalidArgument
  else
    let p := run_pool (length V) 16 (gram_work V) (fun _ s => s) sched (init_pool nt (p_zero M) tt) in
    if completed p then Ok (p_scale M (fold_left (fun P w => p_add M P (w_acc w)) (p_workers p) (p_zero M))) else Pending.

(** Loops over the rows, one row at a time from an atomic cursor. *)
Definition row_work {R} (f : nat -> R -> outcome R) (i : nat) (s : outcome (list R)) : outcome (list R) :=
  obind s (fun t => match nth_error t i with
                    | Some r => omap (update_nth t i) (f i r)
                    | None => UB
                    end).
Definition step_table {R} (f : nat -> R -> outcome R) (nt : nat) (sched : list nat) (t : list R) : outcome (list R) :=
  let p := run_pool (length t) 1 (fun _ a => a) (row_work f) sched (init_pool nt tt (Ok t)) in
  if completed p then p_shared p else Pending.

Definition xrow (X : list srow) (i : nat) : srow := nth i X [].
(** step_cholesky, 273-331, and step_cg, 170-271 *)
Definition step_cholesky nt sched (V : list row) P X (T : list row) : outcome (list row) :=
  step_table (fun i _ => chol_solve M V P (xrow X i)) nt sched T.
Definition step_cg steps nt sched (V : list row) P X (T : list row) : outcome (list row) :=
  step_table (fun i x => cg_solve M steps V P (xrow X i) x) nt sched T.
(** _prediction, 387-421 *)
Definition prediction nt sched (V : list row) X (T : list row) : outcome (list (list (num M))) :=
  step_table (fun i _ => Ok (predict M V (xrow X i) (nth i T []))) nt sched (map (fun _ => []) T).
(** _step_dimrange, 423-514, and _step_icd, 553-630: the dimensions [lo] .. [hi]
    of the target are copied, updated row by row together with the
    predictions, and written back ([hi] = [lo] + 1 in _step_icd). *)
Definition segment (lo hi : nat) (x : row) : row := firstn (hi - lo) (skipn lo x).
Definition write_segment (lo hi : nat) (x s : row) : row := firstn lo x ++ s ++ skipn hi x.
Definition step_range (update : list row -> pmat M -> srow -> row -> row * list (num M) -> row * list (num M))
    nt sched lo hi (V : list row) P X (st : list row * list (list (num M))) : outcome (list row * list (list (num M))) :=
  let T := fst st in
  omap (fun t => (map (fun p => write_segment lo hi (fst p) (fst (snd p))) (combine T t), map snd t))
    (step_table (fun i s => Ok (update V P (xrow X i) (nth i T []) s)) nt sched
       (combine (map (segment lo hi) T) (snd st))).

(** Schedules of the loops started one after the other by a call: by
    iteration and by range of dimensions. *)
Definition schedules := nat -> nat -> list nat.
(** The loop over the ranges, 526-533; [c] counts the ranges. *)
Fixpoint dim_loop K dimension nt (sch : nat -> list nat) (V : list row) P X (fuel cursor c : nat)
    (st : list row * list (list (num M))) : outcome (list row * list (list (num M))) :=
  if cursor <? K then
    match fuel with
    | 0 => Pending
    | S fuel' =>
        let cursor_end := min (cursor + dimension) K in
        obind (step_range (dim_update M cursor cursor_end) nt (sch c) cursor cursor_end V P X st)
              (dim_loop K dimension nt sch V P X fuel' (cursor + dimension) (S c))
    end
  else Ok st.
(** step_ialspp, 516-535, and step_icd, 537-552: one iteration *)
Definition ialspp_pass K dimension nt (sch : nat -> list nat) (V : list row) P X (T : list row) : outcome (list row) :=
  obind (prediction nt (sch 0) V X T) (fun pr =>
    omap fst (dim_loop K dimension nt sch V P X K 0 1 (T, pr))).
Fixpoint icd_loop nt (sch : nat -> list nat) (V : list row) P X (ks : list nat)
    (st : list row * list (list (num M))) : outcome (list row * list (list (num M))) :=
  match ks with
  | [] => Ok st
  | k :: ks' => obind (step_range (icd_update M k) nt (sch (S k)) k (S k) V P X st) (icd_loop nt sch V P X ks')
  end.
Definition icd_pass K nt (sch : nat -> list nat) (V : list row) P X (T : list row) : outcome (list row) :=
  obind (prediction nt (sch 0) V X T) (fun pr => omap fst (icd_loop nt sch V P X (seq 0 K) (T, pr))).
Fixpoint repeat_pass {A} (f : nat -> A -> outcome A) (iter c : nat) (a : A) : outcome A :=
  match iter with 0 => Ok a | S iter' => obind (f c a) (repeat_pass f iter' (S c)) end.
(** step, 664-679 *)
Definition solver_step (c : config) (sch : schedules) (V : list row) P X (T : list row) : outcome (list row) :=
  match c_solver c with
  | CG => step_cg (c_cg_steps c) (c_threads c) (sch 0 0) V P X T
  | Cholesky => step_cholesky (c_threads c) (sch 0 0) V P X T
  | IALSPP =>
      if 1 <? c_subspace c
      then repeat_pass (fun it => ialspp_pass (c_K c) (c_subspace c) (c_threads c) (sch it) V P X) (c_iterations c) 0 T
      else repeat_pass (fun it => icd_pass (c_K c) (c_threads c) (sch it) V P X) (c_iterations c) 0 T
  end.

(** IALSTrainer, 710-724, and step without features, 784-788.  [d_Xt] is
    X.transpose(). *)
Record data := mkData { d_X : list srow; d_Xt : list srow }.
Record trainer := mkTrainer { t_user : list row; t_item : list row }.
Definition new_trainer (c : config) (d : data) (junk : list row * list row) : trainer :=
  mkTrainer (initialize c (length (d_X d)) (fst junk)) (initialize c (length (d_Xt d)) (snd junk)).
Record epoch_schedules := mkSchedules {
  s_prepare_user : list nat; s_user : schedules; s_prepare_item : list nat; s_item : schedules }.
Definition trainer_step (c : config) (d : data) (es : epoch_schedules) (t : trainer) : outcome trainer :=
  obind (prepare_p (c_threads c) (s_prepare_user es) (t_item t)) (fun P =>
  obind (solver_step c (s_user es) (t_item t) P (d_X d) (t_user t)) (fun user =>
  obind (prepare_p (c_threads c) (s_prepare_item es) user) (fun P' =>
  omap (fun item => mkTrainer user item) (solver_step c (s_item es) user P' (d_Xt d) (t_item t))))).
(** The epochs of a run: BaseRecommenderWithEarlyStopping._learn without
    validation, base_earlystop.py 102-120, calling run_epoch (ials.py 163-164). *)
Fixpoint train (c : config) (d : data) (ess : list epoch_schedules) (t : trainer) : outcome trainer :=
  match ess with
  | [] => Ok t
  | es :: ess' => obind (trainer_step c d es t) (train c d ess')
  end.
(** transform_user, 791-795, with X_to_vector (122-141) *)
Definition transform_user (c : config) (sp : list nat) (sch : schedules) (t : trainer) (X : list srow) : outcome (list row) :=
  obind (prepare_p (c_threads c) sp (t_item t)) (fun P =>
    solver_step c sch (t_item t) P X (map (fun _ => repeat (num_zero M) (c_K c)) X)).

(** user_scores, 942-981 *)
Definition chunk_size (n nt : nat) : nat :=
  let ideal := (n + 4 * nt - 1) / (4 * nt) in min (max ideal 16) 128.
Definition write_rows {R} (t : list R) (i : nat) (rows : list R) : list R :=
  firstn i t ++ rows ++ skipn (i + length rows) t.
Definition score_work (U V : list row) (cs : nat) (i : nat) (s : list (list (num M))) : list (list (num M)) :=
  if i mod cs =? 0 then write_rows s i (score_block M (firstn (min (i + cs) (length U) - i) (skipn i U)) V) else s.
Definition user_scores (nt : nat) (sched : list nat) (b e : nat) (t : trainer) (junk : list (list (num M)))
    : outcome (list (list (num M))) :=
  check_arg (0 <? nt) (check_arg (b <=? e) (check_arg (e <=? length (t_user t)) (
    let U := firstn (e - b) (skipn b (t_user t)) in
    let cs := chunk_size (e - b) nt in
    let p := run_pool (e - b) cs (fun _ a => a) (score_work U (t_item t) cs) sched (init_pool nt tt junk) in
    if completed p then Ok (p_shared p) else Pending))).
End Machine.
