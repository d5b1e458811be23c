(** Model of src/irspack/evaluation/evaluate_df_to_df.py.

    A data frame is the list of its rows (user id, item id); ids are integers
    (any type with decidable equality and a total order behaves the same). *)
From Verif Require Import Base Sched_Model Eval_Model.
Local Open Scope nat_scope.

Definition frame := list (Z * Z).

(** [Series.isin] (37-43), [in] on a set. *)
Definition zmem (x : Z) (l : list Z) : bool := existsb (Z.eqb x) l.

(** [df[df[user_column].isin(other[user_column])]] (37-43). *)
Definition isin_users (df other : frame) : frame := filter (fun r => zmem (fst r) (map fst other)) df.

(** [sorted(list(set(l)))] (45, 47-49). *)
Definition sorted_ids (l : list Z) : list Z := sort_by Z.ltb (nodup Z.eq_dec l).

(** Lookup in [{id: i for i, id in enumerate(ids)}] (46, 50); KeyError when absent. *)
Fixpoint id_index (ids : list Z) (x : Z) : option nat :=
  match ids with
  | [] => None
  | y :: ids' => if Z.eqb x y then Some 0 else option_map S (id_index ids' x)
  end.

(** [d.setdefault(k, []).append(v)] on an insertion-ordered dict (58, 65). *)
Fixpoint dict_push (d : list (nat * list nat)) (k v : nat) : list (nat * list nat) :=
  match d with
  | [] => [(k, [v])]
  | (k', l) :: d' => if k' =? k then (k', l ++ [v]) :: d' else (k', l) :: dict_push d' k v
  end.
(** [d.get(k, [])] (70). *)
Fixpoint dict_get (d : list (nat * list nat)) (k : nat) : list nat :=
  match d with
  | [] => []
  | (k', l) :: d' => if k' =? k then l else dict_get d' k
  end.

(** The loops 53-58 and 60-65. *)
Fixpoint group_rows (users items : list Z) (df : frame) (d : list (nat * list nat)) : outcome (list (nat * list nat)) :=
  match df with
  | [] => Ok d
  | (uid, iid) :: df' =>
      match id_index users uid, id_index items iid with
      | Some u, Some i => group_rows users items df' (dict_push d u i)
      | _, _ => Fail KeyError
      end
  end.

Section Run.
Variable disc : nat -> Q.

(** [evaluate_recommendation_df] (9-79); [n_threads] is the result of get_n_threads. *)
Definition evaluate_recommendation_df (df_recommendation df_ground_truth : frame) (n_threads : nat)
           (sched : list nat) : outcome report :=
  let rec_df := isin_users df_recommendation df_ground_truth in
  let gt_df := isin_users df_ground_truth rec_df in
  let user_ids := sorted_ids (map fst rec_df) in
  let item_ids := sorted_ids (map snd rec_df ++ map snd gt_df) in
  obind (group_rows user_ids item_ids rec_df []) (fun rec_dict =>
  obind (group_rows user_ids item_ids gt_df []) (fun gt_dict =>
  omap as_dict
    (evaluate_list_vs_list disc (map snd rec_dict) (map (fun p => dict_get gt_dict (fst p)) rec_dict)
                           (length item_ids) n_threads sched))).
End Run.
