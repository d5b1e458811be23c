(** Which objects do the caller and the library share?  A model of Python
    objects as cells of a heap: src/irspack/recommenders/base.py 95-101, 288-403,
    evaluation/evaluator.py 99-160, 400-441, 556-579, 600-657,
    utils/id_mapping.py 62-69 and 221-324, truncsvd.py 93-104, bpr.py 159-176.

    The caller runs any sequence of calls and of in-place writes to objects it
    made or was given.  What the library computes (learning, scores, metrics) is
    given by arbitrary functions of the contents read; the other models say
    which functions.

    Simplifications.  The three arrays of a compressed matrix are one cell.  A
    change of a matrix that gives the caller's object new arrays (a new stored
    position) does not reach objects that share the old ones: for this model it
    is a new object of the caller.  The caller does not reach into attributes of
    library objects.  The calls of IDMapper with a recommender are a scoring
    call followed by a call of score_to_recommended_items(_batch) on its result,
    and evaluations get scores by [get_score] (the blocks of
    [get_score_block] have the same contents, C57).  Cold items are left out. *)
From Verif Require Import Base Sched_Model Eval_Model EvalPy_Model Rec_Model.
Local Open Scope nat_scope.

(** A stored row of a sparse matrix. *)
Definition srow := list (nat * Q).
(** The positions given by [nonzero()]. *)
Definition nonzero_row (r : srow) : list nat := map fst (filter (fun e => negb (Qeq_bool (snd e) 0)) r).

(** Objects: a list of ids, a sparse matrix, a numpy array. *)
Inductive cell (I : Type) := CIds (ids : list I) | CMat (rows : list srow) | CArr (d : dense).
Arguments CIds {I} _.
Arguments CMat {I} _.
Arguments CArr {I} _.
(** The format of a sparse matrix. *)
Inductive format := Csr | OtherFormat.

Section Share.
Context {I K M : Type}.
Variable eq_dec : forall a b : I, {a = b} + {a <> b}.

(** ** What is computed *)
(** Per class of recommenders [k]: the arrays made by [learn()], and the score
    arrays, as functions of the training matrix, these arrays, and users or
    profiles. *)
Variable learn : K -> list srow -> list dense.
Variable score : K -> list srow -> list dense -> list nat -> dense.
Variable cold : K -> list srow -> list dense -> list srow -> dense.
(** [get_score] of a class written by the user may return an array that the
    object keeps; those of the package return new ones. *)
Variable keeps : K -> bool.
(** [get_user_embedding] and [get_item_embedding] return the array of the model
    (truncsvd.py 93-94, 102-104; bpr.py 159-161, 172-174) or a new one. *)
Variable view : K -> bool.
(** The metrics of masked score arrays. *)
Variable judge : list srow -> list dense -> M.
Variable argsort : list Eval_Model.score -> list nat.
Variable fl : Eval_Model.score -> Eval_Model.score.
Variable psort : nat -> list (nat * Eval_Model.score) -> list (nat * Eval_Model.score).

(** ** The heap *)
Definition heap := list (cell I).
Definition mat_at (h : heap) (a : nat) : list srow := match nth_error h a with Some (CMat m) => m | _ => [] end.
Definition arr_at (h : heap) (a : nat) : dense := match nth_error h a with Some (CArr d) => d | _ => mkDense 0 [] end.
Definition ids_at (h : heap) (a : nat) : list I := match nth_error h a with Some (CIds l) => l | _ => [] end.
Definition alloc (h : heap) (c : cell I) : heap * nat := (h ++ [c], length h).
Definition alloc_all (h : heap) (cs : list (cell I)) : heap * list nat := (h ++ cs, seq (length h) (length cs)).

(** [sps.csr_matrix(X)] and [X.tocsr()] share the arrays of a CSR matrix. *)
Definition as_csr (h : heap) (f : format) (a : nat) : heap * nat :=
  match f with Csr => (h, a) | OtherFormat => alloc h (CMat (mat_at h a)) end.
(** [X.astype(t)] copies. *)
Definition astype (h : heap) (a : nat) : heap * nat := alloc h (CMat (mat_at h a)).
(** [scores[mask.nonzero()] = -np.inf], in place. *)
Definition assign (h : heap) (a : nat) (mask : list srow) : heap * outcome unit :=
  match apply_mask (arr_at h a) (map nonzero_row mask) with
  | Ok d => (update_nth h a (CArr d), Ok tt)
  | Fail e => (h, Fail e)
  | UB => (h, UB)
  | Pending => (h, Pending)
  end.

(** ** Recommenders *)
Record recommender := mkRecommender { rc_kind : K; rc_X : nat; rc_par : option (list nat) }.

(** base.py 95-101. *)
Definition make_rec (h : heap) (k : K) (f : format) (a : nat) : heap * recommender :=
  let '(h1, b) := as_csr h f a in
  let '(h2, x) := astype h1 b in
  (h2, mkRecommender k x None).
(** [learn()]: new arrays. *)
Definition do_learn (h : heap) (rc : recommender) : heap * recommender :=
  let '(h1, ps) := alloc_all h (map CArr (learn (rc_kind rc) (mat_at h (rc_X rc)))) in
  (h1, mkRecommender (rc_kind rc) (rc_X rc) (Some ps)).

(** [get_score] (base.py 288-299, 422-423, 449-450, toppop.py 42-45,
    truncsvd.py 79-81); before [learn()] RuntimeError. *)
Definition get_score (h : heap) (rc : recommender) (us : list nat) : heap * outcome nat :=
  match rc_par rc with
  | None => (h, Fail RuntimeError)
  | Some ps =>
      if negb (forallb (fun u => u <? length (mat_at h (rc_X rc))) us) then (h, Fail IndexError)
      else match (if keeps (rc_kind rc) then ps else []) with
           | p :: _ => (h, Ok p)
           | [] => let '(h1, a) := alloc h (CArr (score (rc_kind rc) (mat_at h (rc_X rc)) (map (arr_at h) ps) us)) in (h1, Ok a)
           end
  end.
(** [get_score_remove_seen] (base.py 309-323). *)
Definition get_score_remove_seen (h : heap) (rc : recommender) (us : list nat) : heap * outcome nat :=
  match get_score h rc us with
  | (h1, Ok a) => let '(h2, r) := assign h1 a (map (fun u => nth u (mat_at h1 (rc_X rc)) []) us) in (h2, omap (fun _ => a) r)
  | (h1, r) => (h1, r)
  end.
(** [get_score_cold_user] for given profiles (base.py 425-426). *)
Definition get_score_cold (h : heap) (rc : recommender) (x : list srow) : heap * outcome nat :=
  match rc_par rc with
  | None => (h, Fail RuntimeError)
  | Some ps =>
      match (if keeps (rc_kind rc) then ps else []) with
      | p :: _ => (h, Ok p)
      | [] => let '(h1, a) := alloc h (CArr (cold (rc_kind rc) (mat_at h (rc_X rc)) (map (arr_at h) ps) x)) in (h1, Ok a)
      end
  end.
(** [get_score_cold_user_remove_seen] (base.py 391-403). *)
Definition get_score_cold_remove_seen (h : heap) (rc : recommender) (x : list srow) : heap * outcome nat :=
  match get_score_cold h rc x with
  | (h1, Ok a) => let '(h2, r) := assign h1 a x in (h2, omap (fun _ => a) r)
  | (h1, r) => (h1, r)
  end.
(** The learnt array number [n]. *)
Definition embedding (h : heap) (rc : recommender) (n : nat) : heap * outcome nat :=
  match rc_par rc with
  | None => (h, Fail RuntimeError)
  | Some ps =>
      match nth_error ps n with
      | None => (h, Fail TypeError)
      | Some a => if view (rc_kind rc) then (h, Ok a) else let '(h1, b) := alloc h (CArr (arr_at h a)) in (h1, Ok b)
      end
  end.

(** ** Evaluators *)
(** [ev_input]: the histories of EvaluatorWithColdUser. *)
Record evaluator := mkEvaluator { ev_gt : nat; ev_input : option nat; ev_mask : option nat; ev_offset : nat; ev_blocks : list (nat * nat) }.

(** evaluator.py 114-115 (a copy of the ground truth) and 151-159 (the mask is
    shared with a CSR matrix of the caller). *)
Definition make_eval (h : heap) (gt : nat) (mask : option (format * nat)) (offset : nat) (blocks : list (nat * nat)) : heap * evaluator :=
  let '(h1, g) := astype h gt in
  match mask with
  | None => (h1, mkEvaluator g None None offset blocks)
  | Some (f, m) => let '(h2, m') := as_csr h1 f m in (h2, mkEvaluator g None (Some m') offset blocks)
  end.
(** evaluator.py 546-579: [input_interaction] is the caller's object, the
    default mask is [input_interaction.tocsr()]. *)
Definition make_cold_eval (h : heap) (fi : format) (input gt : nat) (mask : option (format * nat)) (blocks : list (nat * nat)) : heap * evaluator :=
  let '(h1, e) := make_eval h gt mask 0 blocks in
  match ev_mask e with
  | Some m => (h1, mkEvaluator (ev_gt e) (Some input) (Some m) 0 blocks)
  | None => let '(h2, m) := as_csr h1 fi input in (h2, mkEvaluator (ev_gt e) (Some input) (Some m) 0 blocks)
  end.

(** The loops 417-441 and 618-655. *)
Fixpoint eval_loop (h : heap) (e : evaluator) (rc : recommender) (blocks : list (nat * nat)) (acc : list dense) : heap * outcome (list dense) :=
  match blocks with
  | [] => (h, Ok acc)
  | (b, b') :: rest =>
      let '(h1, r) := match ev_input e with
                      | None => get_score h rc (seq b (b' - b))
                      | Some i => get_score_cold h rc (slice (mat_at h i) b b')
                      end in
      match r with
      | Ok a =>
          let mask := match ev_mask e with
                      | None => slice (mat_at h1 (rc_X rc)) b b'
                      | Some m => slice (mat_at h1 m) (b - ev_offset e) (b' - ev_offset e)
                      end in
          let '(h2, r2) := assign h1 a mask in
          match r2 with
          | Ok _ => eval_loop h2 e rc rest (acc ++ [arr_at h2 a])
          | Fail er => (h2, Fail er)
          | UB => (h2, UB)
          | Pending => (h2, Pending)
          end
      | Fail er => (h1, Fail er)
      | UB => (h1, UB)
      | Pending => (h1, Pending)
      end
  end.
Definition evaluate (h : heap) (e : evaluator) (rc : recommender) : heap * outcome M :=
  let '(h1, r) := eval_loop h e rc (ev_blocks e) [] in
  (h1, omap (judge (mat_at h1 (ev_gt e))) r).

(** ** Mappers: the list of ids is the caller's (id_mapping.py 66), the
    dictionary is new (67). *)
Record id_map := mkIdMap { im_ids : nat; im_index : list (I * nat) }.
Definition mapper_now (h : heap) (m : id_map) : mapper I := mkMapper (ids_at h (im_ids m)) (im_index m).

(** ** Programs of the caller *)
Inductive action :=
| Make (c : cell I)
| Write (a : nat) (c : cell I)
| NewRec (k : K) (f : format) (a : nat)
| Learn (r : nat)
| Score (r : nat) (us : list nat)
| ScoreRemoveSeen (r : nat) (us : list nat)
| ScoreCold (r a : nat)
| ScoreColdRemoveSeen (r a : nat)
| Embedding (r n : nat)
| NewEval (gt : nat) (mask : option (format * nat)) (offset : nat) (blocks : list (nat * nat))
| NewColdEval (fi : format) (input gt : nat) (mask : option (format * nat)) (blocks : list (nat * nat))
| Evaluate (e r : nat)
| NewMapper (a : nat)
| Recommend (m a row : nat) (cutoff : Z) (allowed forbidden : option (list I))
| RecommendBatch (m a cutoff : nat) (allowed : option (list I)) (per_user forbidden : option (list (list I)))
    (n_threads launched : nat) (sched : list nat).

Inductive result := RNone | RObject (n : nat) | RArray (a : nat) | RMetrics (m : M)
| RItems (l : list (I * Eval_Model.score)) | RLists (l : list (list (I * Eval_Model.score))).

(** [s_known]: the cells the caller has a reference to. *)
Record state := mkState { s_heap : heap; s_recs : list recommender; s_evals : list evaluator; s_maps : list id_map; s_known : list nat }.
Definition init_state : state := mkState [] [] [] [] [].

Definition learn_more (s : state) (r : heap * outcome nat) : state * outcome result :=
  match r with
  | (h, Ok a) => (mkState h (s_recs s) (s_evals s) (s_maps s) (a :: s_known s), Ok (RArray a))
  | (h, Fail e) => (mkState h (s_recs s) (s_evals s) (s_maps s) (s_known s), Fail e)
  | (h, UB) => (mkState h (s_recs s) (s_evals s) (s_maps s) (s_known s), UB)
  | (h, Pending) => (mkState h (s_recs s) (s_evals s) (s_maps s) (s_known s), Pending)
  end.
Definition set_heap (s : state) (h : heap) : state := mkState h (s_recs s) (s_evals s) (s_maps s) (s_known s).

Definition step (s : state) (act : action) : state * outcome result :=
  let h := s_heap s in
  match act with
  | Make c => (mkState (h ++ [c]) (s_recs s) (s_evals s) (s_maps s) (length h :: s_known s), Ok (RArray (length h)))
  | Write a c => (set_heap s (update_nth h a c), Ok RNone)
  | NewRec k f a =>
      let '(h1, rc) := make_rec h k f a in
      (mkState h1 (s_recs s ++ [rc]) (s_evals s) (s_maps s) (s_known s), Ok (RObject (length (s_recs s))))
  | Learn r =>
      match nth_error (s_recs s) r with
      | None => (s, Fail TypeError)
      | Some rc => let '(h1, rc') := do_learn h rc in
                   (mkState h1 (update_nth (s_recs s) r rc') (s_evals s) (s_maps s) (s_known s), Ok RNone)
      end
  | Score r us => match nth_error (s_recs s) r with None => (s, Fail TypeError) | Some rc => learn_more s (get_score h rc us) end
  | ScoreRemoveSeen r us =>
      match nth_error (s_recs s) r with None => (s, Fail TypeError) | Some rc => learn_more s (get_score_remove_seen h rc us) end
  | ScoreCold r a => match nth_error (s_recs s) r with None => (s, Fail TypeError) | Some rc => learn_more s (get_score_cold h rc (mat_at h a)) end
  | ScoreColdRemoveSeen r a =>
      match nth_error (s_recs s) r with None => (s, Fail TypeError) | Some rc => learn_more s (get_score_cold_remove_seen h rc (mat_at h a)) end
  | Embedding r n => match nth_error (s_recs s) r with None => (s, Fail TypeError) | Some rc => learn_more s (embedding h rc n) end
  | NewEval gt mask offset blocks =>
      let '(h1, e) := make_eval h gt mask offset blocks in
      (mkState h1 (s_recs s) (s_evals s ++ [e]) (s_maps s) (s_known s), Ok (RObject (length (s_evals s))))
  | NewColdEval fi input gt mask blocks =>
      let '(h1, e) := make_cold_eval h fi input gt mask blocks in
      (mkState h1 (s_recs s) (s_evals s ++ [e]) (s_maps s) (s_known s), Ok (RObject (length (s_evals s))))
  | Evaluate e r =>
      match nth_error (s_evals s) e, nth_error (s_recs s) r with
      | Some ev, Some rc => let '(h1, m) := evaluate h ev rc in (set_heap s h1, omap RMetrics m)
      | _, _ => (s, Fail TypeError)
      end
  | NewMapper a =>
      match make_mapper eq_dec (ids_at h a) with
      | Ok m => (mkState h (s_recs s) (s_evals s) (s_maps s ++ [mkIdMap a (mp_index m)]) (s_known s), Ok (RObject (length (s_maps s))))
      | Fail e => (s, Fail e)
      | UB => (s, UB)
      | Pending => (s, Pending)
      end
  | Recommend m a row cutoff allowed forbidden =>
      match nth_error (s_maps s) m with
      | None => (s, Fail TypeError)
      | Some im => (s, omap RItems (recommended_items eq_dec argsort (mapper_now h im) (nth row (d_rows (arr_at h a)) []) cutoff allowed forbidden))
      end
  | RecommendBatch m a cutoff allowed per_user forbidden n_threads launched sched =>
      match nth_error (s_maps s) m, nth_error h a with
      | Some im, Some (CArr d) =>
          let '(rows, r) := recommended_items_batch eq_dec fl psort (mapper_now h im) d cutoff allowed per_user forbidden n_threads launched sched in
          (set_heap s (update_nth h a (CArr (mkDense (d_cols d) rows))), omap RLists r)
      | _, _ => (s, Fail TypeError)
      end
  end.

(** The state after a program. *)
Definition run (s : state) (acts : list action) : state := fold_left (fun s a => fst (step s a)) acts s.
End Share.
Arguments recommender K : clear implicits.
Arguments state I K : clear implicits.
Arguments action I K : clear implicits.
Arguments result I M : clear implicits.
Arguments id_map I : clear implicits.
Arguments heap I : clear implicits.
