(** Properties C01-C08: what an evaluation returns. *)
From Coq Require Import QArith Reals.
From Verif Require Import Base Sched_Model Sort_Proofs Eval_Spec EvalPy_Spec Entropy_Model Entropy_Proofs Eval_Facts_Proofs Eval_Core_Proofs Eval_Derived_Proofs EvalApi_Proofs EvalProps_Proofs Ex_Eval.
Local Open Scope nat_scope.

(** * C01: independence of the thread schedule *)
(** Same data, other thread count and other schedule: same dictionary. *)
Theorem C01_threads_and_schedule (disc : nat -> Q) g ev t ev' d cutoffs xs xs' rs rs' :
  config_ok g -> build g = Ok ev -> 1 <= t -> build (with_blocks g (g_mb g) t) = Ok ev' ->
  scores_ok g d -> cutoffs_ok (g_n_items g) cutoffs -> launched xs -> launched xs' ->
  matrix_scores disc ev d cutoffs xs = Ok rs -> matrix_scores disc ev' d cutoffs xs' = Ok rs' ->
  Forall2 same_result rs rs'.
Proof. exact (matrix_threads disc g ev t ev' d cutoffs xs xs' rs rs'). Qed.
Print Assumptions C01_threads_and_schedule.

(** The dictionary is the one of the definition, whatever the schedule (all
    three entry points): no user is counted twice or forgotten. *)
Theorem C01_value (disc : nat -> Q) g us cutoffs rs : evaluated disc g us cutoffs rs ->
  Forall2 (evaluation_means disc (g_rwc g) (g_n_items g) (g_recs g) us) cutoffs rs.
Proof. exact (fun H => proj1 (evaluated_means disc g us cutoffs rs H)). Qed.
Print Assumptions C01_value.

(** Raw counters and sums of one C++ call. *)
Theorem C01_counters (disc : nat -> Q) n rows recs c scores cutoff offset k k' rwc x x' m m' :
  rows_ok n rows -> make_core rows n recs = Ok c -> Forall (fun r => length r = n) scores ->
  offset < length rows -> offset + length scores <= length rows -> 0 < cutoff <= n -> 1 <= k -> 1 <= k' ->
  1 <= x_launched x -> 1 <= x_launched x' ->
  get_metrics disc c (mkBuffer (length scores) (concat scores)) cutoff offset k rwc x = Ok m ->
  get_metrics disc c (mkBuffer (length scores) (concat scores)) cutoff offset k' rwc x' = Ok m' ->
  meq m m' /\ m_total_user m = length scores.
Proof. exact (core_schedule disc n rows recs c scores cutoff offset k k' rwc x x' m m'). Qed.
Print Assumptions C01_counters.

(** Under a fair schedule a valid call always returns. *)
Theorem C01_answers (disc : nat -> Q) g ev d cutoffs xs : config_ok g -> build g = Ok ev -> scores_ok g d ->
  cutoffs_ok (g_n_items g) cutoffs -> launched xs -> all_fair g xs ->
  exists rs, matrix_scores disc ev d cutoffs xs = Ok rs /\ evaluated disc g (g_users g (d_rows d)) cutoffs rs.
Proof. exact (matrix_answers disc g ev d cutoffs xs). Qed.
Print Assumptions C01_answers.
Theorem C01_model_answers (disc : nat -> Q) g ev md S cutoffs xs : config_ok g -> build g = Ok ev -> recommender_ok g md S ->
  cutoffs_ok (g_n_items g) cutoffs -> launched xs -> all_fair g xs ->
  exists rs, scores_from_model disc ev md cutoffs xs = Ok rs /\ evaluated disc g (g_model_users g md S) cutoffs rs.
Proof. exact (model_answers disc g ev md S cutoffs xs). Qed.
Print Assumptions C01_model_answers.

(** Without the assumption [launched] the claim is false: [std::async] may
    defer every caching task, and then every user looks like a user without
    ground truth. *)
Theorem C01_deferred_refuted : exists xs rs,
  all_fair ex_g xs /\ matrix_scores ex_disc ex_ev ex_d [2] xs = Ok rs /\
  map (fun r => (r_total_user (fst r), r_valid_user (fst r))) rs = [(3, 0)].
Proof.
  exists (fun _ _ => mkExec 0 [] ex_turns). eexists. split; [|split].
  - intros i k. split; intros t Ht; [cbn in Ht; lia|exact (proj2 (ex_fair i k) t Ht)].
  - vm_compute. reflexivity.
  - reflexivity.
Qed.
Print Assumptions C01_deferred_refuted.

Example C01_example : exists ev' rs', build (with_blocks ex_g (g_mb ex_g) 3) = Ok ev' /\
  matrix_scores ex_disc ev' ex_d [1; 2; 4] (fun _ _ => mkExec 1 (repeat 0 12) (repeat 2 12 ++ repeat 1 12 ++ repeat 0 12)) = Ok rs' /\
  map (fun r => r_hit (fst r)) rs' <> map (fun _ => 0%Q) rs' /\ Forall2 same_result ex_rs rs'.
Proof.
  eexists; eexists. split; [reflexivity|]. split; [vm_compute; reflexivity|]. split; [vm_compute; discriminate|].
  eapply (C01_threads_and_schedule ex_disc ex_g ex_ev 3).
  - exact ex_g_ok.
  - exact ex_built.
  - lia.
  - reflexivity.
  - exact ex_d_ok.
  - exact ex_cutoffs.
  - exact ex_launched.
  - instantiate (1 := fun _ _ => mkExec 1 (repeat 0 12) (repeat 2 12 ++ repeat 1 12 ++ repeat 0 12)). intros i k. cbn. lia.
  - exact ex_result.
  - vm_compute. reflexivity.
Qed.
Example C01_example_users : map (fun r => (r_total_user (fst r), r_valid_user (fst r), r_appeared_item (fst r))) ex_rs = [(3, 2, 2); (3, 2, 3); (3, 2, 4)].
Proof. reflexivity. Qed.
Example C01_example_fair : all_fair ex_g ex_xs.
Proof. exact ex_fair. Qed.

(** * C02: independence of the mini-batch size *)
Theorem C02_matrix (disc : nat -> Q) g ev mb ev' d cutoffs xs xs' rs rs' :
  config_ok g -> build g = Ok ev -> (0 < mb)%Z -> build (with_blocks g mb (g_threads g)) = Ok ev' ->
  scores_ok g d -> cutoffs_ok (g_n_items g) cutoffs -> launched xs -> launched xs' ->
  matrix_scores disc ev d cutoffs xs = Ok rs -> matrix_scores disc ev' d cutoffs xs' = Ok rs' ->
  Forall2 same_result rs rs'.
Proof. exact (matrix_mb disc g ev mb ev' d cutoffs xs xs' rs rs'). Qed.
Print Assumptions C02_matrix.
(** Evaluating a recommender: block size and thread count changed together. *)
Theorem C02_model (disc : nat -> Q) g ev mb t ev' md S cutoffs xs xs' rs rs' :
  config_ok g -> build g = Ok ev -> (0 < mb)%Z -> 1 <= t -> build (with_blocks g mb t) = Ok ev' ->
  recommender_ok g md S -> cutoffs_ok (g_n_items g) cutoffs -> launched xs -> launched xs' ->
  scores_from_model disc ev md cutoffs xs = Ok rs -> scores_from_model disc ev' md cutoffs xs' = Ok rs' ->
  Forall2 same_result rs rs'.
Proof. exact (model_mb disc g ev mb t ev' md S cutoffs xs xs' rs rs'). Qed.
Print Assumptions C02_model.
(** The constructor does not look at the block size or the thread count. *)
Theorem C02_builds g ev mb t : build g = Ok ev -> exists ev', build (with_blocks g mb t) = Ok ev'.
Proof. exact (blocks_build g ev mb t). Qed.
Print Assumptions C02_builds.
(** Block size 0 raises on every input. *)
Theorem C02_zero (disc : nat -> Q) g ev d md cutoffs xs : build g = Ok ev -> g_mb g = 0%Z ->
  matrix_scores disc ev d cutoffs xs = Fail ValueError /\ scores_from_model disc ev md cutoffs xs = Fail ValueError.
Proof. exact (mb_zero disc g ev d md cutoffs xs). Qed.
Print Assumptions C02_zero.

(** A recommender serving the rows of [ex_d]. *)
Definition ex_md : model := mkModel 3 4 [[3]; []; [0]] (fun a b => Some (mkDense 4 (slice (d_rows ex_d) a b))) (fun _ => mkDense 0 []).
(** A negative block size is accepted when a recommender is evaluated and
    silently yields zeros: the claim fails without 0 < mb_size. *)
Theorem C02_negative_refuted : exists ev rs,
  build (with_blocks ex_g (-1) 2) = Ok ev /\ scores_from_model ex_disc ev ex_md [2] ex_xs = Ok rs /\
  map (fun r => (r_total_user (fst r), r_valid_user (fst r))) rs = [(0, 0)].
Proof. eexists; eexists. split; [reflexivity|]. split; [vm_compute; reflexivity|reflexivity]. Qed.
Print Assumptions C02_negative_refuted.

Example C02_example : exists ev' rs', build (with_blocks ex_g 100 2) = Ok ev' /\
  matrix_scores ex_disc ev' ex_d [1; 2; 4] ex_xs = Ok rs' /\ Forall2 same_result ex_rs rs'.
Proof.
  eexists; eexists. split; [reflexivity|]. split; [vm_compute; reflexivity|].
  eapply (C02_matrix ex_disc ex_g ex_ev 100).
  - exact ex_g_ok.
  - exact ex_built.
  - reflexivity.
  - reflexivity.
  - exact ex_d_ok.
  - exact ex_cutoffs.
  - exact ex_launched.
  - exact ex_launched.
  - exact ex_result.
  - vm_compute. reflexivity.
Qed.
Example C02_example_model : recommender_ok ex_g ex_md (d_rows ex_d) /\
  exists rs, scores_from_model ex_disc ex_ev ex_md [1; 2; 4] ex_xs = Ok rs /\ Forall2 same_result ex_rs rs.
Proof.
  assert (H : recommender_ok ex_g ex_md (d_rows ex_d)) by (constructor; cbn; auto; repeat constructor).
  split; auto. eexists. split; [vm_compute; reflexivity|].
  eapply (evaluated_unique ex_disc ex_g (g_users ex_g (d_rows ex_d)) [1; 2; 4]); [exact ex_evaluated|].
  change (g_users ex_g (d_rows ex_d)) with (g_model_users ex_g ex_md (d_rows ex_d)).
  eapply by_model; [exact ex_g_ok|exact ex_built|exact H|exact ex_cutoffs|exact ex_launched|vm_compute; reflexivity].
Qed.

(** * C03: the judged list is the true top list *)
Theorem C03_top n rows recs c scores u uo cutoff :
  make_core rows n recs = Ok c -> Forall (fun r => length r = n) scores -> u < length scores -> 0 < cutoff ->
  let sc := fun i => nth i (nth u scores []) NegInf in
  let elig := filter (fun i => allowed recs uo i && match sc i with NegInf => false | _ => true end) (seq 0 n) in
  exists l, ranking c (concat scores) u uo cutoff = Ok l /\ is_top sc elig cutoff l /\ NoDup l.
Proof. exact (ranking_is_top n rows recs c scores u uo cutoff). Qed.
Print Assumptions C03_top.
(** The comparison of scores is the order of the extended numbers. *)
Theorem C03_order a b : (scmp a b = Gt <-> above a b) /\ (scmp a b = Lt <-> above b a) /\ (scmp a b = Eq <-> level a b).
Proof. exact (scmp_order a b). Qed.
Print Assumptions C03_order.
(** There is only one such list. *)
Theorem C03_unique sc elig k l l' : NoDup elig -> is_top sc elig k l -> is_top sc elig k l' -> l = l'.
Proof. exact (is_top_fun sc elig k l l'). Qed.
Print Assumptions C03_unique.
(** Any implementation of [std::partial_sort] gives the same prefix as the
    sort used in the model. *)
Theorem C03_any_sort (cand l' : list (score * nat)) m : NoDup (map snd cand) ->
  partial_sorted pair_lt m cand l' -> firstn m l' = firstn m (sort_by pair_lt cand).
Proof. exact (any_partial_sort cand l' m). Qed.
Print Assumptions C03_any_sort.
Example C03_example : exists c, make_core [[0]; [1]] 5 [[4; 1; 2; 0]] = Ok c /\
  ranking c (concat [[fin 0; fin 0; fin 0; fin 0; fin 0]; [fin 7; fin 8; NegInf; PosInf; fin 8]]) 1 1 3 = Ok [1; 4; 0].
Proof. eexists. split; reflexivity. Qed.
Example C03_example_sort : partial_sorted pair_lt 2 [(fin 3, 0); (fin 1, 1); (fin 2, 2)] [(fin 1, 1); (fin 2, 2); (fin 3, 0)].
Proof.
  constructor; cbn.
  - apply perm_trans with [(fin 1, 1); (fin 3, 0); (fin 2, 2)]; repeat constructor.
  - repeat constructor.
  - intros x y [<-|[<-|[]]] [<-|[]]; reflexivity.
Qed.

(** * C04: masked cells *)
Theorem C04_matrix (disc : nat -> Q) g ev d d' cutoffs xs xs' rs rs' :
  config_ok g -> build g = Ok ev -> scores_ok g d -> scores_ok g d' -> cutoffs_ok (g_n_items g) cutoffs ->
  launched xs -> launched xs' ->
  (forall u i, u < length (g_gt g) -> i < g_n_items g -> ~ In i (nth u (g_hidden g) []) ->
     nth i (nth u (d_rows d) []) NegInf = nth i (nth u (d_rows d') []) NegInf) ->
  matrix_scores disc ev d cutoffs xs = Ok rs -> matrix_scores disc ev d' cutoffs xs' = Ok rs' ->
  Forall2 same_result rs rs'.
Proof. exact (masked_irrelevant disc g ev d d' cutoffs xs xs' rs rs'). Qed.
Print Assumptions C04_matrix.
(** Evaluation of a recommender; hidden are the given mask or the training data. *)
Theorem C04_model (disc : nat -> Q) g ev md md' S S' cutoffs xs xs' rs rs' :
  config_ok g -> build g = Ok ev -> recommender_ok g md S -> recommender_ok g md' S' -> cutoffs_ok (g_n_items g) cutoffs ->
  launched xs -> launched xs' -> md_train md = md_train md' ->
  (forall u i, u < length (g_gt g) -> i < g_n_items g -> ~ In i (nth u (g_model_hidden g md) []) ->
     nth i (nth u S []) NegInf = nth i (nth u S' []) NegInf) ->
  scores_from_model disc ev md cutoffs xs = Ok rs -> scores_from_model disc ev md' cutoffs xs' = Ok rs' ->
  Forall2 same_result rs rs'.
Proof. exact (model_masked_irrelevant disc g ev md md' S S' cutoffs xs xs' rs rs'). Qed.
Print Assumptions C04_model.
(** A hidden item is in no recommendation list. *)
Theorem C04_never n rows recs mask scores u d0 c l i : u < length rows ->
  let U := nth u (masked_users n rows recs mask scores) d0 in
  is_top (u_score U) (u_elig U) c l -> In i l -> ~ In i (nth u mask []).
Proof. exact (masked_never n rows recs mask scores u d0 c l i). Qed.
Print Assumptions C04_never.
(** [ex_d] with other scores in the masked cells (0,3) and (2,0). *)
Definition ex_d_masked : dense :=
  mkDense 4 [[fin 5; fin 4; fin 3; PosInf]; [fin 1; fin 1; NegInf; PosInf]; [fin 100; fin 1; fin 2; fin 3]].
Example C04_example : exists rs', matrix_scores ex_disc ex_ev ex_d_masked [1; 2; 4] ex_xs' = Ok rs' /\ Forall2 same_result ex_rs rs'.
Proof.
  eexists. split; [vm_compute; reflexivity|].
  eapply (C04_matrix ex_disc ex_g ex_ev ex_d ex_d_masked).
  - exact ex_g_ok.
  - exact ex_built.
  - exact ex_d_ok.
  - constructor; try reflexivity. repeat constructor.
  - exact ex_cutoffs.
  - exact ex_launched.
  - exact ex_launched'.
  - cbn. intros u i Hu Hi Hn. destruct u as [|[|[|u]]]; try lia; destruct i as [|[|[|[|i]]]]; try lia; cbn in *; try reflexivity; exfalso; tauto.
  - exact ex_result.
  - vm_compute. reflexivity.
Qed.

(** * C05: ranges *)
Theorem C05_range (disc : nat -> Q) g us cutoffs rs r : (forall i, 0 < disc i)%Q -> (forall i, disc (S i) <= disc i)%Q ->
  evaluated disc g us cutoffs rs -> In r rs ->
  in01 (r_hit (fst r)) /\ in01 (r_recall (fst r)) /\ in01 (r_ndcg (fst r)) /\ in01 (r_map (fst r)) /\ in01 (r_precision (fst r)).
Proof. exact (evaluated_range disc g us cutoffs rs r). Qed.
Print Assumptions C05_range.
Theorem C05_none (disc : nat -> Q) g us cutoffs rs r : evaluated disc g us cutoffs rs -> In r rs -> (forall u, In u us -> u_gt u = []) ->
  (r_hit (fst r) == 0 /\ r_recall (fst r) == 0 /\ r_ndcg (fst r) == 0 /\ r_map (fst r) == 0 /\ r_precision (fst r) == 0)%Q.
Proof. exact (evaluated_none disc g us cutoffs rs r). Qed.
Print Assumptions C05_none.
(** The same for EvaluatorWithColdUser. *)
Theorem C05_cold_range (disc : nat -> Q) h ce md F cutoffs xs rs r : (forall i, 0 < disc i)%Q -> (forall i, disc (S i) <= disc i)%Q ->
  cold_config_ok h -> build_cold h = Ok ce -> cm_n_items md = h_warm h ->
  (scores_features h md F \/ exists W, F = padded h W /\ scores_warm h md W /\ (h_features h = None \/ no_item_features md)) ->
  cutoffs_ok (h_cols h) cutoffs -> launched xs ->
  cold_scores_from_model disc ce md cutoffs xs = Ok rs -> In r rs ->
  in01 (r_hit (fst r)) /\ in01 (r_recall (fst r)) /\ in01 (r_ndcg (fst r)) /\ in01 (r_map (fst r)) /\ in01 (r_precision (fst r)).
Proof. exact (cold_range disc h ce md F cutoffs xs rs r). Qed.
Print Assumptions C05_cold_range.
(** The discount of the code, 1/log2(i+2), meets the hypotheses over the real numbers. *)
Theorem C05_discount i : (0 < log2_discount i)%R /\ (log2_discount (S i) < log2_discount i)%R.
Proof. exact (conj (log2_discount_pos i) (log2_discount_decreasing i)). Qed.
Print Assumptions C05_discount.
Example C05_example : (forall i, 0 < ex_disc i)%Q /\ (forall i, ex_disc (S i) < ex_disc i)%Q /\
  evaluated ex_disc ex_g (g_users ex_g (d_rows ex_d)) [1; 2; 4] ex_rs /\
  map (fun r => Qred (r_recall (fst r))) ex_rs = [1 # 4; 1 # 4; 1]%Q /\ map (fun r => Qred (r_map (fst r))) ex_rs = [1 # 4; 1 # 4; 7 # 12]%Q.
Proof.
  split; [exact ex_disc_pos|]. split; [exact ex_disc_dec|]. split; [exact ex_evaluated|]. split; vm_compute; reflexivity.
Qed.

(** * C06: ndcg = 1 *)
Theorem C06_user (disc : nat -> Q) : (forall i, 0 < disc i)%Q -> (forall i, disc (S i) < disc i)%Q ->
  forall l gt, NoDup l -> l <> [] -> gt <> [] -> ((ndcg_of disc l gt == 1)%Q <-> perfect l gt).
Proof. exact (ndcg_one_iff disc). Qed.
Print Assumptions C06_user.
Theorem C06_report (disc : nat -> Q) g us cutoffs rs c r : (forall i, 0 < disc i)%Q -> (forall i, disc (S i) < disc i)%Q ->
  evaluated disc g us cutoffs rs -> In (c, r) (combine cutoffs rs) -> (exists u, In u us /\ u_gt u <> []) ->
  ((r_ndcg (fst r) == 1)%Q <-> forall u, In u us -> u_gt u <> [] ->
     forall l, is_top (u_score u) (u_elig u) c l -> l <> [] /\ perfect l (u_gt u)).
Proof. exact (evaluated_ndcg_one disc g us cutoffs rs c r). Qed.
Print Assumptions C06_report.
Theorem C06_recall_map l gt rwc : NoDup l -> gt <> [] -> length gt <= length l ->
  (forall i, i < length gt -> In (nth i l 0) gt) ->
  (recall_of rwc l gt == 1 /\ ap_of l gt == 1 /\ hit_of l gt == 1)%Q.
Proof. exact (recall_ap_one l gt rwc). Qed.
Print Assumptions C06_recall_map.
Example C06_example : perfect [2; 0; 1] [0; 2] /\ (ndcg_of ex_disc [2; 0; 1]%nat [0; 2]%nat == 1)%Q /\
  ~ perfect [2; 1; 0] [0; 2] /\ (ndcg_of ex_disc [2; 1; 0]%nat [0; 2]%nat == 8 # 9)%Q.
Proof.
  split; [intros [|[|i]]; cbn; intros; try lia; auto|]. split; [vm_compute; reflexivity|].
  split; [|vm_compute; reflexivity]. intros H. specialize (H 1 ltac:(cbn; lia)). cbn in H. lia.
Qed.

(** * C07: deeper cutoffs *)
Theorem C07_monotone (disc : nat -> Q) g us cutoffs cutoffs' rs rs' c c' r r' : g_rwc g = false ->
  evaluated disc g us cutoffs rs -> evaluated disc g us cutoffs' rs' -> c <= c' ->
  In (c, r) (combine cutoffs rs) -> In (c', r') (combine cutoffs' rs') ->
  (r_hit (fst r) <= r_hit (fst r'))%Q /\ (r_recall (fst r) <= r_recall (fst r'))%Q /\ (r_map (fst r) <= r_map (fst r'))%Q /\
  r_appeared_item (fst r) <= r_appeared_item (fst r').
Proof. exact (evaluated_cutoffs disc g us cutoffs cutoffs' rs rs' c c' r r'). Qed.
Print Assumptions C07_monotone.
Theorem C07_prefix sc elig k k' l l' : NoDup elig -> k <= k' -> is_top sc elig k l -> is_top sc elig k' l' -> exists rest, l' = l ++ rest.
Proof. exact (top_prefix sc elig k k' l l'). Qed.
Print Assumptions C07_prefix.
(** With recall_with_cutoff the recall can drop: the hypothesis on the definition is needed. *)
Theorem C07_recall_with_cutoff_refuted : exists l rest gt, NoDup (l ++ rest) /\
  (recall_of true (l ++ rest) gt < recall_of true l gt)%Q.
Proof.
  exists [0], [1], [0; 2]. split; [repeat constructor; cbn; lia|vm_compute; reflexivity].
Qed.
Print Assumptions C07_recall_with_cutoff_refuted.
Example C07_example : exists r r', In (1, r) (combine [1; 2; 4] ex_rs) /\ In (4, r') (combine [1; 2; 4] ex_rs) /\
  evaluated ex_disc ex_g (g_users ex_g (d_rows ex_d)) [1; 2; 4] ex_rs /\ (r_hit (fst r) < r_hit (fst r'))%Q.
Proof.
  eexists; eexists. split; [left; reflexivity|]. split; [right; right; left; reflexivity|].
  split; [exact ex_evaluated|vm_compute; reflexivity].
Qed.

(** * C08: diversity *)
Theorem C08_diversity (disc : nat -> Q) g us cutoffs rs c r : evaluated disc g us cutoffs rs -> In (c, r) (combine cutoffs rs) ->
  exists tops, tops_of c us tops /\
  (let cnt := map (times_recommended tops) (seq 0 (g_n_items g)) in
   r_appeared_item (fst r) = length (filter (fun n => negb (n =? 0)) cnt) /\
   r_appeared_item (fst r) <= catalog_size (g_n_items g) (g_recs g) /\
   (match snd r with None => True | Some q => in01 q end) /\
   nat_sum cnt = nat_sum (map (@length nat) tops) /\
   nat_sum cnt <= c * r_valid_user (fst r) /\
   (0 <= r_gini_index (fst r) < 1)%Q /\
   ((r_gini_index (fst r) == 0)%Q <-> forall a b, In a cnt -> In b cnt -> a = b)).
Proof. exact (evaluated_diversity disc g us cutoffs rs c r). Qed.
Print Assumptions C08_diversity.
Theorem C08_entropy (disc : nat -> Q) rwc n us tops r : report_means disc rwc n us tops r ->
  (r_appeared_item r = 0 -> r_entropy r = 0%R) /\
  (r_appeared_item r <> 0 -> (0 <= r_entropy r <= ln (INR (r_appeared_item r)))%R).
Proof. exact (report_entropy disc rwc n us tops r). Qed.
Print Assumptions C08_entropy.
Example C08_example : map (fun r => (r_appeared_item (fst r), Qred (r_gini_index (fst r)))) ex_rs = [(2, (1 # 2)%Q); (3, (3 # 8)%Q); (4, (1 # 6)%Q)].
Proof. vm_compute. reflexivity. Qed.
