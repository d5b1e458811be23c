(** Model of cpp_source/evaluator.cpp (Metrics, EvaluatorCore,
    evaluate_list_vs_list).

    Simplifications, used throughout this file:
    - [double] accumulators are exact rationals [Q];
    - the table of DCG discounts [1/log2(2+i)] is an arbitrary function
      [disc : nat -> Q] (any rounding of the real numbers is an instance);
    - scores are [NegInf | Fin q | PosInf]; NaN scores are excluded;
    - [size_t] and [int64_t] counters are unbounded. *)
From Coq Require Export QArith.
From Verif Require Import Base Sched_Model.
Local Open Scope nat_scope.

(** * Scores *)
(** ScoreFloatType values of the score matrix (evaluator.cpp 37-41), no NaN. *)
Inductive score := NegInf | Fin (q : Q) | PosInf.

Definition scmp (a b : score) : comparison :=
  match a, b with
  | NegInf, NegInf => Eq
  | NegInf, _ => Lt
  | _, NegInf => Gt
  | PosInf, PosInf => Eq
  | PosInf, _ => Gt
  | _, PosInf => Lt
  | Fin p, Fin q => Qcompare p q
  end.
(** IEEE comparison [a < b] *)
Definition slt (a b : score) : bool := match scmp a b with Lt => true | _ => false end.
(** unary minus (evaluator.cpp 329: [-score]) *)
Definition sneg (a : score) : score :=
  match a with NegInf => PosInf | Fin q => Fin (- q) | PosInf => NegInf end.
(** evaluator.cpp 328: [score != -infinity] *)
Definition not_neginf (a : score) : bool := match a with NegInf => false | _ => true end.

(** [operator<] of [std::pair<ScoreFloatType, StorageIndex>] (evaluator.cpp 41, 353-355). *)
Definition pair_lt (x y : score * nat) : bool :=
  slt (fst x) (fst y) || (negb (slt (fst y) (fst x)) && (snd x <? snd y)).

(** [std::partial_sort] on pairs (evaluator.cpp 353-355).  Modelled by a full
    insertion sort; Eval_Proofs shows that every list meeting the contract of
    [std::partial_sort] has the same sorted prefix. *)
Fixpoint insert_by {X} (lt : X -> X -> bool) (x : X) (l : list X) : list X :=
  match l with
  | [] => [x]
  | y :: l' => if lt y x then y :: insert_by lt x l' else x :: l
  end.
Fixpoint sort_by {X} (lt : X -> X -> bool) (l : list X) : list X :=
  match l with
  | [] => []
  | x :: l' => insert_by lt x (sort_by lt l')
  end.

(** * Metrics (evaluator.cpp 49-179) *)
(** Fields of [Metrics], evaluator.cpp 168-177. [item_cnt] is a list of length [n_item]. *)
Record metrics := mkMetrics {
  m_valid_user : nat;
  m_total_user : nat;
  m_hit : Q;
  m_recall : Q;
  m_ndcg : Q;
  m_precision : Q;
  m_map : Q;
  m_n_item : nat;
  m_item_cnt : list nat }.

(** [Metrics(size_t n_item)], evaluator.cpp 53-57. *)
Definition empty_metrics (n_item : nat) : metrics :=
  mkMetrics 0 0 0 0 0 0 0 n_item (repeat 0 n_item).

Fixpoint map2 {A B C} (f : A -> B -> C) (l : list A) (l' : list B) : list C :=
  match l, l' with
  | a :: l, b :: l' => f a b :: map2 f l l'
  | _, _ => []
  end.

(** [Metrics::merge], evaluator.cpp 76-85 (both sides have the same n_item). *)
Definition merge (a b : metrics) : metrics :=
  mkMetrics (m_valid_user a + m_valid_user b) (m_total_user a + m_total_user b)
            (m_hit a + m_hit b) (m_recall a + m_recall b) (m_ndcg a + m_ndcg b)
            (m_precision a + m_precision b) (m_map a + m_map b)
            (m_n_item a) (map2 Nat.add (m_item_cnt a) (m_item_cnt b)).

(** [increment_total_user], evaluator.cpp 125. *)
Definition increment_total_user (m : metrics) : metrics :=
  mkMetrics (m_valid_user m) (S (m_total_user m)) (m_hit m) (m_recall m) (m_ndcg m)
            (m_precision m) (m_map m) (m_n_item m) (m_item_cnt m).

Definition nat_mem (x : nat) (l : list nat) : bool := existsb (Nat.eqb x) l.
Definition q_of_nat (n : nat) : Q := inject_Z (Z.of_nat n).
Definition qsum (l : list Q) : Q := fold_right Qplus 0%Q l.

Section Disc.
Variable disc : nat -> Q.

(** [prepare_dcg_discount], evaluator.cpp 42-48: a vector of [n_items] entries. *)
Definition dcg_discount (n_items : nat) : list Q := map disc (seq 0 n_items).

(** The loop of [Metrics::update], evaluator.cpp 144-152.  [i] is the loop
    index; the state is (dcg, cum_hit, average_precision, item_cnt).  Reads of
    [dcg_discount] and [item_cnt] outside of their bounds are [UB]. *)
Fixpoint update_loop (n_item : nat) (gt : list nat) (i : nat) (recs : list nat)
         (st : Q * nat * Q * list nat) : outcome (Q * nat * Q * list nat) :=
  match recs with
  | [] => Ok st
  | r :: recs' =>
      let '(dcg, cum_hit, ap, cnt) := st in
      match nth_error cnt r with
      | None => UB
      | Some c =>
          let cnt' := update_nth cnt r (S c) in
          if nat_mem r gt then
            match nth_error (dcg_discount n_item) i with
            | None => UB
            | Some d =>
                let cum_hit' := S cum_hit in
                update_loop n_item gt (S i) recs'
                  ((dcg + d)%Q, cum_hit', (ap + q_of_nat cum_hit' / q_of_nat (i + 1))%Q, cnt')
            end
          else update_loop n_item gt (S i) recs' (dcg, cum_hit, ap, cnt')
      end
  end.

(** [Metrics::update], evaluator.cpp 127-166. [gt] is the set of ground truth
    indices as a duplicate-free list. *)
Definition update (m : metrics) (recs gt : list nat) (recall_with_cutoff : bool) : outcome metrics :=
  let n_gt := length gt in
  let n_rec := length recs in
  if n_rec =? 0 then
    Ok (mkMetrics (S (m_valid_user m)) (m_total_user m) (m_hit m) (m_recall m) (m_ndcg m)
                  (m_precision m) (m_map m) (m_n_item m) (m_item_cnt m))
  else if m_n_item m <? min n_gt n_rec then UB   (* accumulate past the end, 137-139 *)
  else if n_gt =? 0 then Fail NotANumber         (* 0/0 at 158-165 *)
  else
    let idcg := fold_left Qplus (firstn (min n_gt n_rec) (dcg_discount (m_n_item m))) 0%Q in
    obind (update_loop (m_n_item m) gt 0 recs (0%Q, 0, 0%Q, m_item_cnt m)) (fun st =>
    let '(dcg, cum_hit, ap, cnt) := st in
    let recall_den := if recall_with_cutoff then (if n_rec <? n_gt then n_rec else n_gt) else n_gt in
    Ok (mkMetrics (S (m_valid_user m)) (m_total_user m)
         (if 0 <? cum_hit then m_hit m + 1 else m_hit m)%Q
         (m_recall m + q_of_nat cum_hit / q_of_nat recall_den)%Q
         (m_ndcg m + dcg / idcg)%Q
         (m_precision m + q_of_nat cum_hit / q_of_nat n_rec)%Q
         (m_map m + ap / q_of_nat n_gt)%Q
         (m_n_item m) cnt)).
End Disc.

(** * Report (evaluator.cpp 87-123) *)
(** Entries of the dictionary returned by [Metrics::as_dict]; the entropy
    needs real logarithms: the report holds the numbers [p] of the loop 96-105
    in loop order, the entropy is the sum of the [-log(p)*p] (see
    [r_entropy] in Entropy_Model.v). *)
Record report := mkReport {
  r_total_user : nat;
  r_valid_user : nat;
  r_n_items : nat;
  r_hit : Q;
  r_ndcg : Q;
  r_recall : Q;
  r_map : Q;
  r_precision : Q;
  r_appeared_item : nat;
  r_gini_index : Q;
  r_probs : list Q }.

(** The loop 96-105 over the sorted counts: (number of non-zero counts,
    sum of (2 i - rows + 1) * cnt), [i] the loop index. *)
Fixpoint gini_loop (rows : Z) (i : Z) (sorted_cnt : list nat) : nat * Z :=
  match sorted_cnt with
  | [] => (0, 0%Z)
  | c :: l =>
      let '(app, g) := gini_loop rows (i + 1) l in
      if c =? 0 then (app, g)
      else (S app, ((2 * i - rows + 1) * Z.of_nat c + g)%Z)
  end.

Definition list_nat_sum (l : list nat) : nat := fold_right Nat.add 0 l.

(** [Metrics::as_dict], evaluator.cpp 87-123. *)
Definition as_dict (m : metrics) : report :=
  let total_item := list_nat_sum (m_item_cnt m) in
  let count_local := sort_by Nat.ltb (m_item_cnt m) in
  let rows := Z.of_nat (length (m_item_cnt m)) in
  let '(appeared, g) := gini_loop rows 0 count_local in
  let gini := if 0 <? total_item
              then (inject_Z g / (inject_Z rows * q_of_nat total_item))%Q
              else inject_Z g in
  let denominator := q_of_nat (if 0 <? m_valid_user m then m_valid_user m else 1) in
  mkReport (m_total_user m) (m_valid_user m) (m_n_item m)
           (m_hit m / denominator) (m_ndcg m / denominator) (m_recall m / denominator)
           (m_map m / denominator) (m_precision m / denominator)
           appeared gini
           (map (fun c => q_of_nat c / q_of_nat total_item)%Q
                (filter (fun c => negb (c =? 0)) count_local)).

(** * EvaluatorCore (evaluator.cpp 181-374) *)
(** [X_] is represented by the stored column indices of each row (increasing,
    evaluator.py 114-115 sorts them; repetitions possible when the CSR matrix
    is not in canonical form).  Stored values are never read by the code. *)
Record core := mkCore {
  c_rows : list (list nat);
  c_n_items : nat;
  c_recs : list (list nat) }.

(** check 198-204: [current > prev] for consecutive entries. *)
Fixpoint strictly_increasing (l : list nat) : bool :=
  match l with
  | x :: (y :: _) as l' => (x <? y) && strictly_increasing l'
  | _ => true
  end.

(** Loop body 193-205: sort, bound check on the last entry, duplicate check. *)
Definition check_recommendable (n_items : nat) (urec : list nat) : outcome (list nat) :=
  let s := sort_by Nat.ltb urec in
  match s with
  | [] => Ok s
  | _ => check_arg (last s 0 <? n_items) (check_arg (strictly_increasing s) (Ok s))
  end.

Fixpoint check_all_recommendable (n_items : nat) (recs : list (list nat)) : outcome (list (list nat)) :=
  match recs with
  | [] => Ok []
  | u :: recs' =>
      obind (check_recommendable n_items u) (fun s =>
      obind (check_all_recommendable n_items recs') (fun rest => Ok (s :: rest)))
  end.

(** Constructor, evaluator.cpp 183-206. *)
Definition make_core (rows : list (list nat)) (n_items : nat) (recs : list (list nat)) : outcome core :=
  check_arg ((length recs =? 0) || (length recs =? 1) || (length rows =? length recs))
    (obind (check_all_recommendable n_items recs) (fun recs' => Ok (mkCore rows n_items recs'))).

(** [std::set_intersection] on two sorted ranges (evaluator.cpp 240-248). *)
Fixpoint set_intersection (l1 : list nat) : list nat -> list nat :=
  fix inner (l2 : list nat) : list nat :=
    match l1, l2 with
    | a :: l1', b :: l2' =>
        if a <? b then set_intersection l1' l2
        else if b <? a then inner l2'
        else a :: set_intersection l1' l2'
    | _, _ => []
    end.

(** Content of [X_as_set[current]], evaluator.cpp 226-250 (an unordered_set,
    here a duplicate-free list). *)
Definition gt_set (c : core) (current : nat) : list nat :=
  let indices := nth current (c_rows c) [] in
  match c_recs c with
  | [] => nodup Nat.eq_dec indices
  | [r] => nodup Nat.eq_dec (set_intersection indices r)
  | rs => nodup Nat.eq_dec (set_intersection indices (nth current rs []))
  end.

(** [cache_X_map], evaluator.cpp 208-254: [launched] of the [n_threads] tasks
    were really started ([std::async] without policy may defer a task; the
    futures are dropped without [get], so a deferred task never runs).
    Result: the table [X_as_set] after the futures were destroyed. *)
Definition cache_pool (c : core) (launched : nat) (sched : list nat) : pool unit (list (list nat)) :=
  run_pool (length (c_rows c)) 1 (fun _ a => a)
           (fun r table => update_nth table r (gt_set c r))
           sched (init_pool launched tt (repeat [] (length (c_rows c)))).
Definition cache_X_map (c : core) (launched : nat) (sched : list nat) : list (list nat) :=
  p_shared (cache_pool c launched sched).

(** A row-major score buffer (Eigen::Ref of a dense matrix, evaluator.cpp 38-39, 258). *)
Record score_buffer := mkBuffer {
  b_rows : nat;
  b_data : list score }.

(** Loops 326-331 / 334-339 / 342-347: read [buffer[i]] at the flat position
    [n_items * u + i], keep entries different from minus infinity as pairs
    (-score, i). *)
Fixpoint collect (data : list score) (base : nat) (items : list nat) : outcome (list (score * nat)) :=
  match items with
  | [] => Ok []
  | i :: items' =>
      match nth_error data (base + i) with
      | None => UB
      | Some s =>
          omap (fun rest => if not_neginf s then (sneg s, i) :: rest else rest)
               (collect data base items')
      end
  end.

(** Loop 356-362: push the second components until [cnt >= n_rec]. *)
Fixpoint push_loop (cnt n_rec : nat) (l : list (score * nat)) : list nat :=
  match l with
  | [] => []
  | p :: l' => snd p :: (if n_rec <=? S cnt then [] else push_loop (S cnt) n_rec l')
  end.

(** Items offered to user [u_orig] (evaluator.cpp 324-348). *)
Definition offered_items (c : core) (u_orig : nat) : list nat :=
  match c_recs c with
  | [] => seq 0 (c_n_items c)
  | [r] => r
  | rs => nth u_orig rs []
  end.

(** Ranking of one user, evaluator.cpp 317-318 and 323-362. *)
Definition ranking (c : core) (data : list score) (u u_orig cutoff : nat) : outcome (list nat) :=
  omap (fun cand =>
          let n_rec := min cutoff (length cand) in
          push_loop 0 n_rec (sort_by pair_lt cand))
       (collect data (c_n_items c * u) (offered_items c u_orig)).

Section Core.
Variable disc : nat -> Q.

(** Body of the loop of [get_metrics_local] for the fetched row [u]
    (evaluator.cpp 312-364); [table] is [X_as_set] ([at] throws
    std::out_of_range, 315). *)
Definition row_work (c : core) (table : list (list nat)) (data : list score)
           (cutoff offset : nat) (rwc : bool) (u : nat) (acc : outcome metrics) : outcome metrics :=
  obind acc (fun m =>
  let u_orig := u + offset in
  match nth_error table u_orig with
  | None => Fail IndexError
  | Some gt =>
      let m1 := increment_total_user m in
      match gt with
      | [] => Ok m1
      | _ => obind (ranking c data u u_orig cutoff) (fun recs => update disc m1 recs gt rwc)
      end
  end).

(** An execution of one [get_metrics] call: the caching phase (ignored when
    the cache is already filled) and the schedule of the metric workers. *)
Record execution := mkExec {
  x_launched : nat;
  x_cache_sched : list nat;
  x_sched : list nat }.

Definition metric_pool (c : core) (table : list (list nat)) (s : score_buffer)
           (cutoff offset n_threads : nat) (rwc : bool) (sched : list nat) : pool (outcome metrics) unit :=
  run_pool (b_rows s) 1 (row_work c table (b_data s) cutoff offset rwc) (fun _ x => x)
           sched (init_pool n_threads (Ok (empty_metrics (c_n_items c))) tt).

(** merging of [metric.get()] results, evaluator.cpp 280-282. *)
Definition merge_workers (n_items : nat) (ws : list (worker (outcome metrics))) : outcome metrics :=
  ofold (fun acc w => omap (merge acc) (w_acc w)) ws (empty_metrics n_items).

(** [get_metrics], evaluator.cpp 256-284.  The cache is filled by
    [cache_X_map] (261); its futures are destroyed at 253, which waits for the
    launched tasks; 280-282 wait for the metric workers.  A cache filled by an
    earlier call is not kept in the model: recomputing it gives the same table. *)
Definition get_metrics (c : core) (s : score_buffer) (cutoff offset n_threads : nat) (rwc : bool)
           (x : execution) : outcome metrics :=
  check_arg (0 <? n_threads) (* 209 and 263 *)
  (await (completed (cache_pool c (x_launched x) (x_cache_sched x)))
  (let table := cache_X_map c (x_launched x) (x_cache_sched x) in
  check_arg (offset <? length (c_rows c))
  (check_arg (offset + b_rows s <=? length (c_rows c))
  (check_arg (0 <? cutoff)
  (check_arg (cutoff <=? c_n_items c)
  (let p := metric_pool c table s cutoff offset n_threads rwc (x_sched x) in
   await (completed p) (merge_workers (c_n_items c) (p_workers p)))))))).
End Core.

(** * evaluate_list_vs_list (evaluator.cpp 376-431) *)
Section ListEval.
Variable disc : nat -> Q.

(** Body 414-422. *)
Definition list_work (recommendation ground_truth : list (list nat)) (u : nat)
           (acc : outcome metrics) : outcome metrics :=
  obind acc (fun m =>
  match nth_error recommendation u, nth_error ground_truth u with
  | Some recs, Some gt =>
      update disc (increment_total_user m) recs (nodup Nat.eq_dec gt) false
  | _, _ => Fail IndexError
  end).

Definition list_pool (recommendation ground_truth : list (list nat)) (n_items n_threads : nat)
           (sched : list nat) : pool (outcome metrics) unit :=
  run_pool (length recommendation) 1 (list_work recommendation ground_truth) (fun _ x => x)
           sched (init_pool n_threads (Ok (empty_metrics n_items)) tt).

Definition evaluate_list_vs_list (recommendation ground_truth : list (list nat)) (n_items n_threads : nat)
           (sched : list nat) : outcome metrics :=
  check_arg (length recommendation =? length ground_truth)
  (check_arg (forallb (forallb (fun i => i <? n_items)) recommendation)
  (check_arg (forallb (forallb (fun i => i <? n_items)) ground_truth)
  (let p := list_pool recommendation ground_truth n_items n_threads sched in
   await (completed p) (merge_workers n_items (p_workers p))))).
End ListEval.
