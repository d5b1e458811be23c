(** What floating-point evaluation may and may not change. *)
From Coq Require Export QArith.
From Coq Require Import Qabs.
From Verif Require Import Base.
From Verif Require Export EvalPy_Spec EvalRnd_Model.
Local Open Scope nat_scope.

(** A rounding with [B] = 2^p for a [p]-bit format: monotone, exact on its own
    results, on the integers up to [B] and on 1/B, 1/B^2, 1/B^3, and with
    relative error at most 1/B away from zero.  Flocq gives this for IEEE
    double precision with B = 2^53 (Prop_EvalRnd.v, [C66_round64]). *)
Record fp_rounding (B : positive) (rnd : Q -> Q) : Prop := {
  fp_two : (2 <= B)%positive;
  fp_mono : forall x y, (x <= y -> rnd x <= rnd y)%Q;
  fp_idem : forall x, (rnd (rnd x) == rnd x)%Q;
  fp_int : forall z, (Z.abs z <= Zpos B)%Z -> (rnd (inject_Z z) == inject_Z z)%Q;
  fp_small : (rnd (1 # B) == 1 # B /\ rnd (1 # B * B) == 1 # B * B /\ rnd (1 # B * B * B) == 1 # B * B * B)%Q;
  fp_error : forall x, ((1 # B * B * B) <= x -> Qabs (rnd x - x) <= (1 # B) * x)%Q }.

(** The first [n] entries of the table of discounts: numbers of the format,
    between 1/B and 1, not increasing. *)
Record table_ok (B : positive) (rnd : Q -> Q) (n : nat) (disc : nat -> Q) : Prop := {
  t_repr : forall i, i < n -> (rnd (disc i) == disc i)%Q;
  t_low : forall i, i < n -> (1 # B <= disc i)%Q;
  t_high : forall i, i < n -> (disc i <= 1)%Q;
  t_dec : forall i j, i <= j -> j < n -> (disc j <= disc i)%Q }.

(** The ground truth, catalogue and threads of an evaluator of cold users. *)
Definition cold_as_config (h : cold_config) : config :=
  mkConfig (h_gt h) (h_cols h) 0 (h_rec h) (h_per_user h) (h_masked h) (h_threads h) (h_rwc h) (h_mb h).
(** The recommender scores a cold user with history [r] by [F r]: it scores the
    feature-only items itself, or they are padded with minus infinity. *)
Definition cold_scorer (h : cold_config) (md : cold_model) (F : list nat -> list score) : Prop :=
  scores_features h md F \/
  exists W, F = padded h W /\ scores_warm h md W /\ (h_features h = None \/ no_item_features md).
(** The results of the four entry points in floating point (compare
    [evaluated] and C16). *)
Inductive revaluated (rnd : Q -> Q) (disc : nat -> Q) (g : config) :
  list user -> list nat -> list (report * option Q) -> Prop :=
| rby_matrix ev d cutoffs xs rs :
    config_ok g -> build g = Ok ev -> scores_ok g d -> cutoffs_ok (g_n_items g) cutoffs -> launched xs ->
    rmatrix_scores rnd disc ev d cutoffs xs = Ok rs ->
    revaluated rnd disc g (g_users g (d_rows d)) cutoffs rs
| rby_chunks ev ds cutoffs xs rs :
    config_ok g -> build g = Ok ev -> Forall dense_wf ds -> cutoffs_ok (g_n_items g) cutoffs -> launched xs ->
    rchunk_scores rnd disc ev ds cutoffs xs = Ok rs ->
    revaluated rnd disc g (g_users g (chunks_rows ds)) cutoffs rs
| rby_model ev md S cutoffs xs rs :
    config_ok g -> build g = Ok ev -> recommender_ok g md S -> cutoffs_ok (g_n_items g) cutoffs -> launched xs ->
    rscores_from_model rnd disc ev md cutoffs xs = Ok rs ->
    revaluated rnd disc g (g_model_users g md S) cutoffs rs
| rby_cold h ce md F cutoffs xs rs :
    cold_config_ok h -> g = cold_as_config h -> build_cold h = Ok ce -> cm_n_items md = h_warm h ->
    cold_scorer h md F -> cutoffs_ok (h_cols h) cutoffs -> launched xs ->
    rcold_scores rnd disc ce md cutoffs xs = Ok rs ->
    revaluated rnd disc g (cold_users h F) cutoffs rs.

(** Number of roundings that can act on one entry of the report: at most two
    additions per recommended item and three divisions for the value of one
    user, at most one addition per user, thread and block, one division. *)
Definition roundings (g : config) (cutoff : nat) : nat :=
  2 * cutoff + 2 * length (g_gt g) + g_threads g + 3.
(** The counters of the evaluation fit into the format. *)
Definition fits (B : positive) (g : config) : Prop :=
  (Z.of_nat (length (g_gt g)) <= Zpos B)%Z /\ (Z.of_nat (g_n_items g) <= Zpos B)%Z.

Definition within (e a b : Q) : Prop := (Qabs (a - b) <= e)%Q.

(** [r] is the report of the definition up to [e] in the averages. *)
Record report_near (B : positive) (rnd : Q -> Q) (disc : nat -> Q) (rwc : bool) (e : Q) (n_items cutoff : nat)
       (us : list user) (tops : list (list nat)) (r : report) : Prop := {
  na_total : r_total_user r = length us;
  na_valid : r_valid_user r = length (valid_users us);
  na_nitems : r_n_items r = n_items;
  na_appeared : r_appeared_item r =
                length (filter (fun i => negb (times_recommended tops i =? 0)) (seq 0 n_items));
  na_hit : (r_hit r == rnd (average hit_of us tops))%Q;
  na_recall : within e (r_recall r) (average (recall_of rwc) us tops);
  na_ndcg : within e (r_ndcg r) (average (ndcg_of disc) us tops);
  na_map : within e (r_map r) (average ap_of us tops);
  na_precision : within e (r_precision r) (average precision_of us tops);
  na_gini : (Z.of_nat (n_items * (cutoff * length us)) <= Zpos B)%Z ->
            (r_gini_index r == rnd (gini_of (map (times_recommended tops) (seq 0 n_items))))%Q;
  na_probs : (Z.of_nat (cutoff * length us) <= Zpos B)%Z ->
             exists ps, shares_of (map (times_recommended tops) (seq 0 n_items)) ps /\
                        Forall2 (fun p p' => (p' == rnd p)%Q) ps (r_probs r) }.
(** The entry 'appeared_item' / 'catalog_coverage' added in Python. *)
Definition coverage_near (rnd : Q -> Q) (g : config) (r : report * option Q) : Prop :=
  match snd r with
  | None => catalog_size (g_n_items g) (g_recs g) = 0
  | Some q => catalog_size (g_n_items g) (g_recs g) <> 0 /\
      (q == rnd (inject_Z (Z.of_nat (r_appeared_item (fst r))) / inject_Z (Z.of_nat (catalog_size (g_n_items g) (g_recs g)))))%Q
  end.

(** The averages between 0 and 1. *)
Definition averages (r : report) : list Q := [r_hit r; r_recall r; r_ndcg r; r_map r; r_precision r].
(** [a'] may stand for [a] in a report. *)
Definition same_ends (a a' : Q) : Prop := ((a == 0 -> a' == 0) /\ (a == 1 -> a' == 1))%Q.
(** Two reports of the same evaluation: equal counters and hit rate, other
    averages within [e]. *)
Record reports_close (B : positive) (cutoff : nat) (e : Q) (r r' : report) : Prop := {
  cl_total : r_total_user r' = r_total_user r;
  cl_valid : r_valid_user r' = r_valid_user r;
  cl_nitems : r_n_items r' = r_n_items r;
  cl_appeared : r_appeared_item r' = r_appeared_item r;
  cl_hit : (r_hit r' == r_hit r)%Q;
  cl_recall : within e (r_recall r') (r_recall r);
  cl_ndcg : within e (r_ndcg r') (r_ndcg r);
  cl_map : within e (r_map r') (r_map r);
  cl_precision : within e (r_precision r') (r_precision r);
  cl_gini : (Z.of_nat (r_n_items r * (cutoff * r_valid_user r)) <= Zpos B)%Z -> (r_gini_index r' == r_gini_index r)%Q }.
