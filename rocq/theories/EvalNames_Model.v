(** Model of the dictionaries an evaluator hands out:
      src/irspack/evaluation/evaluator.py 18-36 (TargetMetric, METRIC_NAMES),
        147-149 (the choice of the target), 185-227 (get_target_score,
        get_score, get_scores), 229-324 (the same for matrices and chunks;
        their bodies differ only in the method that computes the list),
        326-334 (_metrics_as_dict)
      cpp_source/evaluator.cpp 106-122 (the keys of Metrics::as_dict),
        467-481 (__getstate__, __setstate__).

    A dictionary is the list of its entries in order of insertion. *)
From Coq Require Import String.
From Coq Require Import List.
From Verif Require Import Base PyStr_Model History_Model.
From Coq Require Import QArith.
From Verif Require Import Eval_Model EvalPy_Model.
Local Open Scope nat_scope.

(** Values: numbers, NaN, and the entropy, a sum of logarithms, given by the
    shares it is computed from. *)
Inductive mvalue := VNum (q : Q) | VNan | VEntropy (shares : list Q).
Definition mdict := list (pystr * mvalue).
Fixpoint mget (d : mdict) (k : pystr) : option mvalue :=
  match d with [] => None | (k', v) :: d' => if pystr_eqb k' k then Some v else mget d' k end.
(** [d[k] = v]: an existing key keeps its place. *)
Fixpoint mset (d : mdict) (k : pystr) (v : mvalue) : mdict :=
  match d with
  | [] => [(k, v)]
  | (k', v') :: d' => if pystr_eqb k' k then (k, v) :: d' else (k', v') :: mset d' k v
  end.

(** evaluator.cpp 107-121 and evaluator.py 326-334. *)
Definition score_dict (r : report * option Q) : mdict :=
  let (m, coverage) := r in
  [ (str "total_user", VNum (q_of_nat (r_total_user m)));
    (str "valid_user", VNum (q_of_nat (r_valid_user m)));
    (str "n_items", VNum (q_of_nat (r_n_items m)));
    (str "hit", VNum (r_hit m));
    (str "ndcg", VNum (r_ndcg m));
    (str "recall", VNum (r_recall m));
    (str "map", VNum (r_map m));
    (str "precision", VNum (r_precision m));
    (str "appeared_item", VNum (q_of_nat (r_appeared_item m)));
    (str "entropy", VEntropy (r_probs m));
    (str "gini_index", VNum (r_gini_index m));
    (str "catalog_coverage", match coverage with None => VNan | Some q => VNum q end) ].

(** 26-36. *)
Definition metric_names : list pystr :=
  map str ["hit"; "recall"; "ndcg"; "map"; "precision"; "gini_index"; "entropy"; "appeared_item"; "catalog_coverage"]%string.

(** 222-226: the loops over the cutoffs and the names. *)
Fixpoint name_loop (cutoff : nat) (score : mdict) (names : list pystr) (result : mdict) : outcome mdict :=
  match names with
  | [] => Ok result
  | m :: names' =>
      match mget score m with
      | None => Fail KeyError
      | Some v => name_loop cutoff score names' (mset result (score_label (N.of_nat cutoff) m) v)
      end
  end.
Fixpoint cutoff_loop (l : list (nat * mdict)) (result : mdict) : outcome mdict :=
  match l with
  | [] => Ok result
  | (c, s) :: l' => obind (name_loop c s metric_names result) (cutoff_loop l')
  end.

(** [run]: one of _get_scores_as_list, _get_scores_from_score_matrix_as_list and
    _get_scores_from_score_chunks_as_list, on given arguments. *)
Section Run.
Variable run : list nat -> outcome (list (report * option Q)).
(** 207-227, 247-268, 297-324. *)
Definition get_scores (cutoffs : list nat) : outcome mdict :=
  obind (run cutoffs) (fun rs => cutoff_loop (combine cutoffs (map score_dict rs)) []).
(** 196-205, 229-245, 270-295. *)
Definition get_score (cutoff : nat) : outcome mdict :=
  obind (run [cutoff]) (fun rs => match map score_dict rs with [] => Fail IndexError | s :: _ => Ok s end).
End Run.

(** 18-23. *)
Inductive target_metric := TNdcg | TRecall | THit | TMap | TPrecision.
Definition target_name (t : target_metric) : pystr :=
  match t with
  | TNdcg => str "ndcg"
  | TRecall => str "recall"
  | THit => str "hit"
  | TMap => str "map"
  | TPrecision => str "precision"
  end.
Definition target_metrics : list target_metric := [TNdcg; TRecall; THit; TMap; TPrecision].
(** [TargetMetric[name]] (147); enum lookup by name. *)
Definition target_of (name : pystr) : outcome target_metric :=
  match find (fun t => pystr_eqb (target_name t) name) target_metrics with Some t => Ok t | None => Fail KeyError end.
(** 185-194. *)
Definition get_target_score run (t : target_metric) (cutoff : nat) : outcome mvalue :=
  obind (get_score run cutoff) (fun d => match mget d (target_name t) with None => Fail KeyError | Some v => Ok v end).
(** 149. *)
Definition target_metric_name (t : target_metric) (cutoff : nat) : pystr := score_label (N.of_nat cutoff) (target_name t).

(** ** Pickling (evaluator.cpp 467-481).
    An Evaluator has no methods of its own for this: pickle stores the
    attributes of the object, the core through [getstate] and [setstate].  The
    state of a core is its ground truth and its sorted item lists; the table
    made by [cache_X_map] is not stored and made again by the next call. *)
Definition getstate (c : core) : (list (list nat) * nat) * list (list nat) := ((c_rows c, c_n_items c), c_recs c).
Definition setstate (st : (list (list nat) * nat) * list (list nat)) : outcome core :=
  let '((rows, n_items), recs) := st in make_core rows n_items recs.
Definition reload (ev : evaluator) : outcome evaluator :=
  omap (fun c => mkEvaluator c (e_n_rec ev) (e_offset ev) (e_n_users ev) (e_n_items ev) (e_n_threads ev)
                             (e_mb_size ev) (e_masked ev) (e_rwc ev))
       (setstate (getstate (e_core ev))).
