(** What an evaluation must return, independently of chunking, threads and
    the order of the work. *)
From Coq Require Export QArith.
From Verif Require Import Base.
From Verif Require Export Eval_Spec EvalPy_Model.
Local Open Scope nat_scope.

(** User number [u] of an evaluator: ground truth [rows], allowed items
    [recs], items hidden from the user [hidden], scores [sc]. *)
Definition masked_user (n_items : nat) (rows recs : list (list nat)) (u : nat)
           (hidden : list nat) (sc : nat -> score) : user :=
  mkUser (filter (fun i => relevant (nth u rows []) i && allowed recs u i) (seq 0 n_items))
         (filter (fun i => allowed recs u i && negb (relevant hidden i) &&
                           match sc i with NegInf => false | _ => true end) (seq 0 n_items))
         sc.

(** All users of an evaluator, given the full score matrix. *)
Definition masked_users (n_items : nat) (rows recs mask : list (list nat)) (scores : list (list score)) : list user :=
  map (fun u => masked_user n_items rows recs u (nth u mask []) (fun i => nth i (nth u scores []) NegInf))
      (seq 0 (length rows)).

(** Number of items that are allowed for somebody. *)
Definition catalog_size (n_items : nat) (recs : list (list nat)) : nat :=
  match recs with
  | [] => n_items
  | _ => length (filter (fun i => existsb (fun r => relevant r i) recs) (seq 0 n_items))
  end.

(** The dictionary returned for one cutoff. *)
Definition evaluation_means (disc : nat -> Q) (rwc : bool) (n_items : nat) (recs : list (list nat))
           (us : list user) (cutoff : nat) (r : report * option Q) : Prop :=
  (exists tops, tops_of cutoff us tops /\ report_means disc rwc n_items us tops (fst r)) /\
  match snd r with
  | None => catalog_size n_items recs = 0
  | Some q => catalog_size n_items recs <> 0 /\
      (q == inject_Z (Z.of_nat (r_appeared_item (fst r))) / inject_Z (Z.of_nat (catalog_size n_items recs)))%Q
  end.

(** Two reports with the same numbers. *)
Record same_report (a b : report) : Prop := {
  sr_total : r_total_user a = r_total_user b;
  sr_valid : r_valid_user a = r_valid_user b;
  sr_items : r_n_items a = r_n_items b;
  sr_hit : (r_hit a == r_hit b)%Q;
  sr_recall : (r_recall a == r_recall b)%Q;
  sr_ndcg : (r_ndcg a == r_ndcg b)%Q;
  sr_map : (r_map a == r_map b)%Q;
  sr_precision : (r_precision a == r_precision b)%Q;
  sr_appeared : r_appeared_item a = r_appeared_item b;
  sr_gini : (r_gini_index a == r_gini_index b)%Q;
  sr_probs : r_probs a = r_probs b }.
Definition same_coverage (a b : option Q) : Prop :=
  match a, b with
  | None, None => True
  | Some p, Some q => (p == q)%Q
  | _, _ => False
  end.
Definition same_result (a b : report * option Q) : Prop :=
  same_report (fst a) (fst b) /\ same_coverage (snd a) (snd b).

(** ** Inputs *)
(** All masked positions lie inside the matrix. *)
Definition mask_ok (n : nat) (mask : list (list nat)) : Prop := Forall (Forall (fun j => j < n)) mask.
Definition cutoffs_ok (n : nat) (cutoffs : list nat) : Prop := Forall (fun c => 0 < c <= n) cutoffs.
Definition opt_mask (m : option (list (list nat))) : list (list nat) := match m with None => [] | Some m => m end.
(** The rows of a sequence of blocks, one after the other. *)
Definition chunks_rows (chunks : list dense) : list (list score) := concat (map d_rows chunks).
(** numpy invariant: all rows of a 2-D array have the same length. *)
Definition dense_wf (d : dense) : Prop := Forall (fun r => length r = d_cols d) (d_rows d).
(** The score block of the users [a, b) computed by the recommender. *)
Definition md_rows (md : model) (a b : nat) : dense :=
  match md_block md a b with Some d => d | None => md_score md (seq a (b - a)) end.
(** The items hidden from each user when a recommender is evaluated: the
    given mask, or else the training interactions. *)
Definition eval_mask (ev : evaluator) (md : model) : list (list nat) :=
  match e_masked ev with
  | Some m => m
  | None => slice (md_train md) (e_offset ev) (e_offset ev + e_n_users ev)
  end.
(** Every worker gets enough turns to work through [n] rows. *)
Definition fair (n n_workers : nat) (sched : list nat) : Prop :=
  forall t, t < n_workers -> 3 * n + 1 <= count_occ Nat.eq_dec sched t.
Definition fair_exec (n_users n_threads : nat) (x : execution) : Prop :=
  fair n_users (x_launched x) (x_cache_sched x) /\ fair n_users n_threads (x_sched x).

(** Arguments of the constructor [Evaluator(...)]. *)
Record config := mkConfig {
  g_gt : list (list nat);
  g_n_items : nat;
  g_offset : nat;
  g_rec : option (list nat);
  g_per_user : option (list (list nat));
  g_masked : option sparse;
  g_threads : nat;
  g_rwc : bool;
  g_mb : Z }.
Definition build (g : config) : outcome evaluator :=
  make_evaluator (g_gt g) (g_n_items g) (g_offset g) (g_rec g) (g_per_user g) (g_masked g)
                 (g_threads g) (g_rwc g) (g_mb g).
(** The recommendable-item lists in force. *)
Definition g_recs (g : config) : list (list nat) :=
  match g_rec g, g_per_user g with
  | Some r, _ => [r]
  | None, Some p => p
  | None, None => []
  end.
Definition g_hidden (g : config) : list (list nat) :=
  match g_masked g with None => [] | Some m => sp_nz m end.
(** Well-formed sparse matrices, at least one thread, positive block size. *)
Record config_ok (g : config) : Prop := {
  go_rows : rows_ok (g_n_items g) (g_gt g);
  go_mask : forall m, g_masked g = Some m -> mask_ok (sp_cols m) (sp_nz m);
  go_threads : 1 <= g_threads g;
  go_mb : (0 < g_mb g)%Z }.
(** A score matrix of the right shape. *)
Record scores_ok (g : config) (d : dense) : Prop := {
  so_wf : dense_wf d;
  so_cols : d_cols d = g_n_items g;
  so_rows : length (d_rows d) = length (g_gt g) }.
(** The users described by a configuration and a score matrix. *)
Definition g_users (g : config) (scores : list (list score)) : list user :=
  masked_users (g_n_items g) (g_gt g) (g_recs g) (g_hidden g) scores.
(** Every call starts at least one caching task. *)
Definition launched (xs : nat -> nat -> execution) : Prop := forall i k, 1 <= x_launched (xs i k).

(** A recommender whose score blocks are the rows of one matrix [S] (row [k]
    belongs to user [g_offset + k]), with as many users and items as the
    evaluator expects. *)
Record recommender_ok (g : config) (md : model) (S : list (list score)) : Prop := {
  mo_users : g_offset g + length (g_gt g) <= md_n_users md;
  mo_items : md_n_items md = g_n_items g;
  mo_rows : length S = length (g_gt g);
  mo_cols : Forall (fun r => length r = g_n_items g) S;
  mo_blocks : forall a b, a < b <= length (g_gt g) ->
    md_rows md (g_offset g + a) (g_offset g + b) = mkDense (g_n_items g) (slice S a b);
  mo_train : mask_ok (g_n_items g) (md_train md) }.
(** Items hidden when a recommender is evaluated: the given mask, or else the
    training interactions of the users [g_offset ..]. *)
Definition g_model_hidden (g : config) (md : model) : list (list nat) :=
  match g_masked g with
  | Some m => sp_nz m
  | None => slice (md_train md) (g_offset g) (g_offset g + length (g_gt g))
  end.
Definition g_model_users (g : config) (md : model) (S : list (list score)) : list user :=
  masked_users (g_n_items g) (g_gt g) (g_recs g) (g_model_hidden g md) S.

(** The same evaluator with another block size and thread count. *)
Definition with_blocks (g : config) (mb : Z) (threads : nat) : config :=
  mkConfig (g_gt g) (g_n_items g) (g_offset g) (g_rec g) (g_per_user g) (g_masked g) threads (g_rwc g) mb.

(** The evaluator and the scores for the users [ks] (in this order) only. *)
Definition select {X} (d : X) (ks : list nat) (l : list X) : list X := map (fun k => nth k l d) ks.
Definition g_select (ks : list nat) (g : config) : config :=
  mkConfig (select [] ks (g_gt g)) (g_n_items g) (g_offset g) (g_rec g)
           (option_map (select [] ks) (g_per_user g))
           (option_map (fun m => mkSparse (sp_cols m) (select [] ks (sp_nz m))) (g_masked g))
           (g_threads g) (g_rwc g) (g_mb g).
Definition d_select (ks : list nat) (d : dense) : dense := mkDense (d_cols d) (select [] ks (d_rows d)).

(** ** Other item numbers *)
(** [p] renumbers the items 0..n-1, [q] is its inverse. *)
Definition renumbers (n : nat) (p q : nat -> nat) : Prop :=
  forall i, i < n -> p i < n /\ q i < n /\ q (p i) = i /\ p (q i) = i.
(** The same set of items under the new numbers. *)
Definition same_items (n : nat) (p : nat -> nat) (l l' : list nat) : Prop :=
  forall i, i < n -> (In i l <-> In (p i) l').
(** The evaluator [g'] and the scores [d'] are [g] and [d] with item [i] called [p i]. *)
Record renumbered (p : nat -> nat) (g g' : config) (d d' : dense) : Prop := {
  rn_items : g_n_items g' = g_n_items g;
  rn_rwc : g_rwc g' = g_rwc g;
  rn_users : length (g_gt g') = length (g_gt g);
  rn_gt : forall u, same_items (g_n_items g) p (nth u (g_gt g) []) (nth u (g_gt g') []);
  rn_recs : Forall2 (same_items (g_n_items g) p) (g_recs g) (g_recs g');
  rn_hidden : forall u, same_items (g_n_items g) p (nth u (g_hidden g) []) (nth u (g_hidden g') []);
  rn_scores : forall u i, i < g_n_items g -> nth (p i) (nth u (d_rows d') []) NegInf = nth i (nth u (d_rows d) []) NegInf }.
(** No user has two items with equal scores that could be recommended. *)
Definition no_ties (us : list user) : Prop :=
  forall u i j, In u us -> In i (u_elig u) -> In j (u_elig u) -> scmp (u_score u i) (u_score u j) = Eq -> i = j.

(** ** Evaluation of given lists *)
(** Scores that rank the items of [l] in the order of [l] and exclude all others. *)
Fixpoint position (l : list nat) (i : nat) : nat :=
  match l with
  | [] => 0
  | x :: l' => if x =? i then 0 else S (position l' i)
  end.
Definition rank_score (l : list nat) (i : nat) : score :=
  if relevant l i then Fin (inject_Z (- Z.of_nat (position l i))) else NegInf.
(** A user with ground truth [gt] to whom exactly the items [l] are recommended. *)
Definition list_user (n : nat) (gt l : list nat) : user :=
  mkUser (filter (relevant gt) (seq 0 n)) (filter (relevant l) (seq 0 n)) (rank_score l).
Definition list_users (n : nat) (recs gts : list (list nat)) : list user :=
  map (fun p => list_user n (fst p) (snd p)) (combine gts recs).

(** ** Cold users *)
(** Arguments of [EvaluatorWithColdUser(...)]; [h_features]: number of rows of
    [cold_item_features]. *)
Record cold_config := mkColdConfig {
  h_input : sparse;
  h_gt : list (list nat);
  h_cols : nat;                   (* columns of the ground truth *)
  h_features : option nat;
  h_rec : option (list nat);
  h_per_user : option (list (list nat));
  h_masked : option sparse;
  h_threads : nat;
  h_rwc : bool;
  h_mb : Z }.
Definition build_cold (h : cold_config) : outcome cold_evaluator :=
  make_cold_evaluator (h_input h) (h_gt h) (h_cols h) (h_features h) (h_rec h) (h_per_user h) (h_masked h)
                      (h_threads h) (h_rwc h) (h_mb h).
Definition h_recs (h : cold_config) : list (list nat) :=
  match h_rec h, h_per_user h with
  | Some r, _ => [r]
  | None, Some p => p
  | None, None => []
  end.
Definition h_warm (h : cold_config) : nat := sp_cols (h_input h).
Definition h_hidden (h : cold_config) : list (list nat) :=
  match h_masked h with None => sp_nz (h_input h) | Some m => sp_nz m end.
Record cold_config_ok (h : cold_config) : Prop := {
  ho_rows : rows_ok (h_cols h) (h_gt h);
  ho_input : mask_ok (sp_cols (h_input h)) (sp_nz (h_input h));
  ho_mask : forall m, h_masked h = Some m -> mask_ok (sp_cols m) (sp_nz m);
  ho_cols : h_features h = None -> h_cols h = h_warm h;
  ho_threads : 1 <= h_threads h;
  ho_mb : (0 < h_mb h)%Z }.
(** The recommender scores a cold user with history [r] by [W r] on the warm items. *)
Definition scores_warm (h : cold_config) (md : cold_model) (W : list nat -> list score) : Prop :=
  (forall r, length (W r) = h_warm h) /\ forall l, cm_cold md l = mkDense (h_warm h) (map W l).
(** The recommender cannot score feature-only items. *)
Definition no_item_features (md : cold_model) : Prop :=
  match cm_feature md with None => True | Some f => forall l, f l = None end.
(** The recommender scores all items, feature-only ones included, by [F]. *)
Definition scores_features (h : cold_config) (md : cold_model) (F : list nat -> list score) : Prop :=
  h_features h <> None /\ (forall r, length (F r) = h_cols h) /\
  exists f, cm_feature md = Some f /\ forall l, f l = Some (mkDense (h_cols h) (map F l)).
Definition cold_users (h : cold_config) (F : list nat -> list score) : list user :=
  masked_users (h_cols h) (h_gt h) (h_recs h) (h_hidden h) (map F (sp_nz (h_input h))).
(** Scores padded with minus infinity for the feature-only items. *)
Definition padded (h : cold_config) (W : list nat -> list score) (r : list nat) : list score :=
  W r ++ repeat NegInf (match h_features h with None => 0 | Some k => k end).
(** The same evaluation without the feature-only items. *)
Definition without_features (h : cold_config) : cold_config :=
  mkColdConfig (h_input h) (h_gt h) (h_warm h) None (h_rec h) (h_per_user h) (h_masked h) (h_threads h) (h_rwc h) (h_mb h).

(** ** Merging *)
(** Ways of combining metric objects: fresh objects, given ones, merges. *)
Inductive mtree := TFresh | TPart (m : metrics) | TMerge (l r : mtree).
Fixpoint run_tree (n : nat) (t : mtree) : metrics :=
  match t with TFresh => empty_metrics n | TPart m => m | TMerge l r => merge (run_tree n l) (run_tree n r) end.
Fixpoint parts (t : mtree) : list metrics :=
  match t with TFresh => [] | TPart m => [m] | TMerge l r => parts l ++ parts r end.

(** ** Vocabulary of the properties *)
(** Equal reports except for the number of users. *)
Record same_but_total (a b : report) : Prop := {
  sb_valid : r_valid_user a = r_valid_user b;
  sb_items : r_n_items a = r_n_items b;
  sb_hit : (r_hit a == r_hit b)%Q;
  sb_recall : (r_recall a == r_recall b)%Q;
  sb_ndcg : (r_ndcg a == r_ndcg b)%Q;
  sb_map : (r_map a == r_map b)%Q;
  sb_precision : (r_precision a == r_precision b)%Q;
  sb_appeared : r_appeared_item a = r_appeared_item b;
  sb_gini : (r_gini_index a == r_gini_index b)%Q;
  sb_probs : r_probs a = r_probs b }.

(** Strictly increasing transformations, minus infinity fixed. *)
Record increasing (f : score -> score) : Prop := {
  inc_neginf : f NegInf = NegInf;
  inc_lt : forall a b, scmp a b = Lt -> scmp (f a) (f b) = Lt;
  inc_eq : forall a b, scmp a b = Eq -> scmp (f a) (f b) = Eq }.

(** Every call gets a fair schedule. *)
Definition all_fair (g : config) (xs : nat -> nat -> execution) : Prop :=
  forall i k, fair_exec (length (g_gt g)) (g_threads g) (xs i k).

(** What the constructor must check. *)
Definition args_ok (g : config) : Prop :=
  (g_rec g = None -> forall p, g_per_user g = Some p -> length p = length (g_gt g)) /\
  Forall (fun r => NoDup r /\ Forall (fun i => i < g_n_items g) r) (g_recs g) /\
  (forall m, g_masked g = Some m -> length (sp_nz m) = length (g_gt g) /\ sp_cols m = g_n_items g).

(** Reports over different catalogues that agree on accuracy. *)
Record same_accuracy (a b : report) : Prop := {
  sa_total : r_total_user a = r_total_user b;
  sa_valid : r_valid_user a = r_valid_user b;
  sa_hit : (r_hit a == r_hit b)%Q;
  sa_recall : (r_recall a == r_recall b)%Q;
  sa_ndcg : (r_ndcg a == r_ndcg b)%Q;
  sa_map : (r_map a == r_map b)%Q;
  sa_precision : (r_precision a == r_precision b)%Q;
  sa_appeared : r_appeared_item a = r_appeared_item b;
  sa_probs : r_probs a = r_probs b }.

(** Inputs of list evaluation: distinct recommendations, non-empty ground truths, all inside the catalogue. *)
Definition lists_ok (n : nat) (recs gts : list (list nat)) : Prop :=
  length recs = length gts /\
  Forall (fun l => NoDup l /\ Forall (fun i => i < n) l) recs /\
  Forall (fun gt => gt <> [] /\ Forall (fun i => i < n) gt) gts.

(** The score matrix that ranks the lists. *)
Definition rank_matrix (n : nat) (recs : list (list nat)) : dense := mkDense n (map (fun l => map (rank_score l) (seq 0 n)) recs).

(** The result of any of the three entry points of an [Evaluator] built from
    the configuration [g], for the users [us] that the inputs describe. *)
Inductive evaluated (disc : nat -> Q) (g : config) : list user -> list nat -> list (report * option Q) -> Prop :=
| by_matrix ev d cutoffs xs rs :
    config_ok g -> build g = Ok ev -> scores_ok g d -> cutoffs_ok (g_n_items g) cutoffs -> launched xs ->
    matrix_scores disc ev d cutoffs xs = Ok rs ->
    evaluated disc g (g_users g (d_rows d)) cutoffs rs
| by_chunks ev ds cutoffs xs rs :
    config_ok g -> build g = Ok ev -> Forall dense_wf ds -> cutoffs_ok (g_n_items g) cutoffs -> launched xs ->
    chunk_scores disc ev ds cutoffs xs = Ok rs ->
    evaluated disc g (g_users g (chunks_rows ds)) cutoffs rs
| by_model ev md S cutoffs xs rs :
    config_ok g -> build g = Ok ev -> recommender_ok g md S -> cutoffs_ok (g_n_items g) cutoffs -> launched xs ->
    scores_from_model disc ev md cutoffs xs = Ok rs ->
    evaluated disc g (g_model_users g md S) cutoffs rs.
