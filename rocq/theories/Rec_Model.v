(** Model of src/irspack/utils/id_mapping.py (ItemIDMapper, IDMapper) and of
    [retrieve_recommend_from_score] (cpp_source/util.hpp 426-504).

    Simplifications: ids have decidable equality (Python [==]/hash); scores as
    in Eval_Model.v; ratings are rationals. *)
From Verif Require Import Base Sched_Model Eval_Model EvalPy_Model.
Local Open Scope nat_scope.

Section Ids.
Context {I : Type}.
Variable eq_dec : forall a b : I, {a = b} + {a <> b}.

(** ** Dictionaries (insertion order) *)
Fixpoint dict_set {V} (d : list (I * V)) (k : I) (v : V) : list (I * V) :=
  match d with
  | [] => [(k, v)]
  | (k', v') :: d' => if eq_dec k k' then (k', v) :: d' else (k', v') :: dict_set d' k v
  end.
Fixpoint dict_find {V} (d : list (I * V)) (k : I) : option V :=
  match d with
  | [] => None
  | (k', v) :: d' => if eq_dec k k' then Some v else dict_find d' k
  end.
(** [{id: i for i, id in enumerate(ids)}] (67, 346). *)
Definition enumerate_dict (ids : list I) : list (I * nat) :=
  fold_left (fun d p => dict_set d (snd p) (fst p)) (combine (seq 0 (length ids)) ids) [].

(** ** ItemIDMapper.__init__ (62-69) *)
Record mapper := mkMapper { mp_ids : list I; mp_index : list (I * nat) }.
Definition make_mapper (ids : list I) : outcome mapper :=
  let d := enumerate_dict ids in
  if length ids =? length d then Ok (mkMapper ids d) else Fail ValueError.

(** [_item_id_list_to_index_list] (79-80). *)
Fixpoint index_list (m : mapper) (ids : list I) : list nat :=
  match ids with
  | [] => []
  | x :: ids' => match dict_find (mp_index m) x with
                 | Some i => i :: index_list m ids'
                 | None => index_list m ids'
                 end
  end.

(** A profile: a list of ids, or a dictionary of ratings (its items). *)
Inductive profile := PList (l : list I) | PDict (d : list (I * Q)).

(** The loop 94-97. *)
Fixpoint dict_data_col (m : mapper) (d : list (I * Q)) : list Q * list nat :=
  match d with
  | [] => ([], [])
  | (x, s) :: d' =>
      let '(data, cols) := dict_data_col m d' in
      match dict_find (mp_index m) x with
      | Some i => (s :: data, i :: cols)
      | None => (data, cols)
      end
  end.
(** [_user_profile_to_data_col] (82-98). *)
Definition profile_data_col (m : mapper) (p : profile) : list Q * list nat :=
  match p with
  | PList l => let cols := index_list m l in (repeat 1%Q (length cols), cols)
  | PDict d => dict_data_col m d
  end.

(** A CSR matrix as built by [csr_matrix((data, col, indptr), shape)]. *)
Record csr := mkCsr {
  csr_n_rows : nat;
  csr_n_cols : nat;
  csr_data : list Q;
  csr_col : list nat;
  csr_indptr : list nat }.
(** Stored entries of a row. *)
Definition csr_row (x : csr) (u : nat) : list (nat * Q) :=
  let a := nth u (csr_indptr x) 0 in
  let b := nth (S u) (csr_indptr x) 0 in
  combine (slice (csr_col x) a b) (slice (csr_data x) a b).
(** [X.nonzero()]: positions whose stored value is not 0 (repetitions irrelevant). *)
Definition csr_nonzero (x : csr) : list (list nat) :=
  map (fun u => map fst (filter (fun e => negb (Qeq_bool (snd e) 0)) (csr_row x u))) (seq 0 (csr_n_rows x)).

(** [list_of_user_profile_to_matrix] (100-127). *)
Definition profiles_to_matrix (m : mapper) (ps : list profile) : csr :=
  let '(data, col, indptr, _) :=
    fold_left (fun st p =>
      let '(data, col, indptr, cur) := st in
      let '(data_u, col_u) := profile_data_col m p in
      let cur' := cur + length col_u in
      (data ++ data_u, col ++ col_u, indptr ++ [cur'], cur')) ps ([], [], [0], 0) in
  mkCsr (length ps) (length (mp_ids m)) data col indptr.

(** ** score_to_recommended_items (221-253) *)
(** [np.isinf] *)
Definition isinf (s : score) : bool := match s with Fin _ => false | _ => true end.
Definition id_mem (x : I) (l : list I) : bool := existsb (fun y => if eq_dec x y then true else false) l.

(** The loop 240-252; [acc]: recommendations so far. *)
Fixpoint rec_loop (ids : list I) (score_row : list score) (cutoff : Z) (forbidden : option (list I))
         (inds : list nat) (acc : list (I * score)) : outcome (list (I * score)) :=
  match inds with
  | [] => Ok acc
  | i :: rest =>
      match nth_error score_row i, nth_error ids i with
      | Some s, Some x =>
          if isinf s then rec_loop ids score_row cutoff forbidden rest acc
          else if match forbidden with Some f => id_mem x f | None => false end
               then rec_loop ids score_row cutoff forbidden rest acc
               else let acc' := acc ++ [(x, s)] in
                    if (cutoff <=? Z.of_nat (length acc'))%Z then Ok acc'
                    else rec_loop ids score_row cutoff forbidden rest acc'
      | _, _ => Fail IndexError
      end
  end.

Section Single.
(** [ndarray.argsort()]: some sorting permutation (numpy's default sort is not stable). *)
Variable argsort : list score -> list nat.

Definition recommended_items (m : mapper) (score_row : list score) (cutoff : Z)
           (allowed forbidden : option (list I)) : outcome (list (I * score)) :=
  if negb (length score_row =? length (mp_ids m)) then Fail ValueError   (* 75-77, 228 *)
  else
    let high_score_inds :=
      match allowed with
      | Some a =>
          let inds := index_list m a in
          map (fun k => nth k inds 0) (rev (argsort (map (fun i => nth i score_row NegInf) inds)))
      | None => rev (argsort score_row)
      end in
    rec_loop (mp_ids m) score_row cutoff forbidden high_score_inds [].
End Single.

(** ** retrieve_recommend_from_score (util.hpp 426-504) *)
Section Batch.
(** Conversion of a score to [float] in [emplace_back] (472, 477); the
    identity for float32 scores. *)
Variable fl : score -> score.
(** [std::partial_sort(begin, begin + m, end, greater score)] (480-485): some
    list meeting its contract. *)
Variable psort : nat -> list (nat * score) -> list (nat * score).

(** Candidates 457-479 of row [row] ([n_items] columns) of the matrix. *)
Definition candidates (n_items : nat) (score_row : list score) (allowed : list (list nat)) (row : nat) : outcome (list (nat * score)) :=
  match allowed with
  | [] => Ok (map (fun i => (i, fl (nth i score_row NegInf))) (seq 0 n_items))
  | [a] => Ok (map (fun i => (i, fl (nth i score_row NegInf))) (filter (fun i => i <? n_items) a))
  | _ => match nth_error allowed row with
         | Some a => Ok (map (fun i => (i, fl (nth i score_row NegInf))) (filter (fun i => i <? n_items) a))
         | None => Fail IndexError
         end
  end.
(** The loop 487-498; [k]: items_recommended. *)
Fixpoint take_loop (cutoff k : nat) (l : list (nat * score)) : list (nat * score) :=
  match l with
  | [] => []
  | p :: l' =>
      if cutoff <=? k then []
      else match snd p with
           | NegInf => []
           | _ => p :: take_loop cutoff (S k) l'
           end
  end.
Definition retrieve_row (n_items : nat) (score_row : list score) (allowed : list (list nat)) (row cutoff : nat) : outcome (list (nat * score)) :=
  omap (fun cand => take_loop cutoff 0 (psort (min cutoff (length cand)) cand)) (candidates n_items score_row allowed row).

Definition retrieve_pool (n_items : nat) (rows : list (list score)) (allowed : list (list nat)) (cutoff : nat)
           (launched : nat) (sched : list nat) : pool unit (list (outcome (list (nat * score)))) :=
  run_pool (length rows) 1 (fun _ a => a)
           (fun r table => update_nth table r (retrieve_row n_items (nth r rows []) allowed r cutoff))
           sched (init_pool launched tt (repeat (Ok []) (length rows))).

(** All results, or the first failure. *)
Fixpoint oall {X} (l : list (outcome X)) : outcome (list X) :=
  match l with
  | [] => Ok []
  | x :: l' => obind x (fun a => omap (cons a) (oall l'))
  end.

(** [launched] of the min(n_threads, n_users) tasks are really started
    ([std::async] without policy, futures dropped without [get], 443-502). *)
Definition retrieve_recommend (n_items : nat) (rows : list (list score)) (allowed : list (list nat))
           (cutoff n_threads launched : nat) (sched : list nat) : outcome (list (list (nat * score))) :=
  check_arg (0 <? n_threads)
  (check_arg ((length rows =? length allowed) || (length allowed =? 1) || (length allowed =? 0))
  (let p := retrieve_pool n_items rows allowed cutoff launched sched in
   await (completed p) (oall (p_shared p)))).

(** [self.item_ids[item_index]] (318-324). *)
Definition to_ids (ids : list I) (l : list (nat * score)) : outcome (list (I * score)) :=
  oall (map (fun p => match nth_error ids (fst p) with Some x => Ok (x, snd p) | None => Fail IndexError end) l).

(** [score_to_recommended_items_batch] (255-324): the result and the content
    of the caller's score array afterwards. *)
Definition recommended_items_batch (m : mapper) (scores : dense) (cutoff : nat)
           (allowed : option (list I)) (per_user : option (list (list I))) (forbidden : option (list (list I)))
           (n_threads launched : nat) (sched : list nat) : list (list score) * outcome (list (list (I * score))) :=
  let rows := d_rows scores in
  if negb (d_cols scores =? length (mp_ids m)) then (rows, Fail ValueError)
  else if match forbidden with Some f => negb (length f =? length rows) | None => false end then (rows, Fail AssertionError)
  else if match per_user with Some p => negb (length p =? length rows) | None => false end then (rows, Fail AssertionError)
  else
    let allowed_indices :=
      match per_user, allowed with
      | Some p, _ => map (index_list m) p
      | None, Some a => [index_list m a]
      | None, None => []
      end in
    let rows' :=
      match forbidden with
      | None => rows
      | Some f => map (fun u => set_neginf (nth u rows []) (index_list m (nth u f []))) (seq 0 (length rows))
      end in
    (rows', obind (retrieve_recommend (d_cols scores) rows' allowed_indices cutoff n_threads launched sched)
                  (fun raw => oall (map (to_ids (mp_ids m)) raw))).
End Batch.

(** ** Recommenders *)
(** What the mapper uses of a recommender: [n_users], [n_items], [get_score],
    the non-zero columns of [X_train_all], [get_score_cold_user]. *)
Record recommender := mkRecommender {
  rc_n_users : nat;
  rc_n_items : nat;
  rc_score : list nat -> dense;
  rc_train : list (list nat);
  rc_cold : csr -> dense }.

(** base.py 309-323. *)
Definition score_remove_seen (rc : recommender) (us : list nat) : outcome dense :=
  apply_mask (rc_score rc us) (map (fun u => nth u (rc_train rc) []) us).
(** base.py 391-403. *)
Definition cold_score_remove_seen (rc : recommender) (x : csr) : outcome dense :=
  apply_mask (rc_cold rc x) (csr_nonzero x).

Section Api.
Variable argsort : list score -> list nat.
Variable fl : score -> score.
Variable psort : nat -> list (nat * score) -> list (nat * score).

(** [recommend_for_new_user] (129-170). *)
Definition recommend_new_user (m : mapper) (rc : recommender) (p : profile) (cutoff : Z)
           (allowed forbidden : option (list I)) : outcome (list (I * score)) :=
  if negb (rc_n_items rc =? length (mp_ids m)) then Fail ValueError
  else
    let '(data, cols) := profile_data_col m p in
    let x := mkCsr 1 (length (mp_ids m)) data cols [0; length cols] in
    obind (cold_score_remove_seen rc x) (fun d =>
    recommended_items argsort m (nth 0 (d_rows d) []) cutoff allowed forbidden).
(** [recommend_for_new_user_batch] (172-219). *)
Definition recommend_new_users (m : mapper) (rc : recommender) (ps : list profile) (cutoff : nat)
           (allowed : option (list I)) (per_user forbidden : option (list (list I)))
           (n_threads launched : nat) (sched : list nat) : outcome (list (list (I * score))) :=
  if negb (rc_n_items rc =? length (mp_ids m)) then Fail ValueError
  else
    obind (cold_score_remove_seen rc (profiles_to_matrix m ps)) (fun d =>
    snd (recommended_items_batch fl psort m d cutoff allowed per_user forbidden n_threads launched sched)).
End Api.
End Ids.
Arguments mapper I : clear implicits.
Arguments profile I : clear implicits.

(** ** IDMapper (327-453): user ids on top of an item mapper *)
Section Users.
Context {U I : Type}.
Variable eq_u : forall a b : U, {a = b} + {a <> b}.
Variable eq_i : forall a b : I, {a = b} + {a <> b}.

Record id_mapper := mkIdMapper { im_items : mapper I; im_users : mapper U }.
(** [__init__] (343-348). *)
Definition make_id_mapper (user_ids : list U) (item_ids : list I) : outcome id_mapper :=
  obind (make_mapper eq_i item_ids) (fun items =>
  omap (fun users => mkIdMapper items users) (make_mapper eq_u user_ids)).

Variable argsort : list score -> list nat.
Variable fl : score -> score.
Variable psort : nat -> list (nat * score) -> list (nat * score).

(** [recommend_for_known_user_id] (354-398). *)
Definition recommend_known_user (m : id_mapper) (rc : recommender) (u : U) (cutoff : Z)
           (allowed forbidden : option (list I)) : outcome (list (I * score)) :=
  if negb (rc_n_users rc =? length (mp_ids (im_users m))) then Fail ValueError
  else if negb (id_mem eq_u u (mp_ids (im_users m))) then Fail RuntimeError
  else match dict_find eq_u (mp_index (im_users m)) u with
       | None => Fail KeyError
       | Some k =>
           obind (score_remove_seen rc [k]) (fun d =>
           recommended_items eq_i argsort (im_items m) (nth 0 (d_rows d) []) cutoff allowed forbidden)
       end.
(** [recommend_for_known_user_batch] (400-453). *)
Definition recommend_known_users (m : id_mapper) (rc : recommender) (us : list U) (cutoff : nat)
           (allowed : option (list I)) (per_user forbidden : option (list (list I)))
           (n_threads launched : nat) (sched : list nat) : outcome (list (list (I * score))) :=
  if negb (rc_n_users rc =? length (mp_ids (im_users m))) then Fail ValueError
  else
    obind (oall (map (fun u => match dict_find eq_u (mp_index (im_users m)) u with Some k => Ok k | None => Fail KeyError end) us)) (fun ks =>
    obind (score_remove_seen rc ks) (fun d =>
    snd (recommended_items_batch eq_i fl psort (im_items m) d cutoff allowed per_user forbidden n_threads launched sched))).
End Users.
Arguments id_mapper U I : clear implicits.
