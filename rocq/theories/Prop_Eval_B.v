(** Properties C09-C16: what does and what does not influence an evaluation. *)
From Coq Require Import QArith.
From Verif Require Import Base Sched_Model Eval_Spec EvalPy_Spec EvalMem_Model EvalMem_Proofs EvalDf_Spec EvalDf_Proofs Eval_Proofs Eval_Derived_Proofs EvalApi_Proofs ListEval_Proofs EvalMore_Proofs EvalProps_Proofs EvalPerm_Proofs Ex_Eval.
Local Open Scope nat_scope.

(** * C09: users without usable ground truth *)
(** [keep] may drop any users without allowed ground truth items; the rest is
    evaluated by the evaluator built from the remaining rows. *)
Theorem C09_neutral (disc : nat -> Q) g ev keep d cutoffs xs xs' rs :
  let ks := filter keep (seq 0 (length (g_gt g))) in
  config_ok g -> build g = Ok ev -> scores_ok g d -> cutoffs_ok (g_n_items g) cutoffs -> launched xs -> launched xs' ->
  (forall u, u < length (g_gt g) -> keep u = false ->
     forall i, In i (nth u (g_gt g) []) -> allowed (g_recs g) u i = false) ->
  matrix_scores disc ev d cutoffs xs = Ok rs ->
  exists ev', build (g_select ks g) = Ok ev' /\
    forall rs', matrix_scores disc ev' (d_select ks d) cutoffs xs' = Ok rs' ->
    Forall2 (fun r r' => same_but_total (fst r) (fst r') /\
     r_total_user (fst r) = length (g_gt g) /\ r_total_user (fst r') = length ks /\
     (g_per_user g = None -> same_coverage (snd r) (snd r'))) rs rs'.
Proof. exact (drop_report' disc g ev keep d cutoffs xs xs' rs). Qed.
Print Assumptions C09_neutral.
Example C09_example : (forall u, u < length (g_gt ex_g) -> negb (u =? 2) = false ->
     forall i, In i (nth u (g_gt ex_g) []) -> allowed (g_recs ex_g) u i = false) /\
  filter (fun u => negb (u =? 2)) (seq 0 (length (g_gt ex_g))) = [0; 1].
Proof.
  split; [|reflexivity]. intros u Hu H. destruct (Nat.eqb_spec u 2) as [->|]; [|discriminate]. cbn. tauto.
Qed.
(** With one recommendable list per user the coverage may change, because the
    dropped user's list leaves the catalogue. *)
Theorem C09_coverage_per_user_refuted : exists g ev ev' d rs rs',
  config_ok g /\ build g = Ok ev /\ build (g_select [0] g) = Ok ev' /\ nth 1 (g_gt g) [] = [] /\
  matrix_scores ex_disc ev d [1] ex_xs = Ok rs /\ matrix_scores ex_disc ev' (d_select [0] d) [1] ex_xs = Ok rs' /\
  ~ Forall2 (fun r r' => same_coverage (snd r) (snd r')) rs rs'.
Proof.
  exists (mkConfig [[0]; []] 2 0 None (Some [[0]; [1]]) None 2 false 4%Z).
  eexists. eexists. exists (mkDense 2 [[fin 1; fin 2]; [fin 1; fin 2]]). eexists. eexists.
  split; [constructor; cbn; auto with arith; try lia; [repeat constructor|discriminate]|].
  split; [reflexivity|]. split; [reflexivity|]. split; [reflexivity|].
  split; [vm_compute; reflexivity|]. split; [vm_compute; reflexivity|].
  intros H. inversion H as [|? ? ? ? H1 H2]. vm_compute in H1. discriminate.
Qed.
Print Assumptions C09_coverage_per_user_refuted.

(** * C10: increasing transformations of the scores *)
Theorem C10_order_only (disc : nat -> Q) f g ev d cutoffs xs xs' rs rs' : increasing f ->
  config_ok g -> build g = Ok ev -> scores_ok g d -> cutoffs_ok (g_n_items g) cutoffs ->
  launched xs -> launched xs' ->
  matrix_scores disc ev d cutoffs xs = Ok rs ->
  matrix_scores disc ev (mkDense (d_cols d) (map (map f) (d_rows d))) cutoffs xs' = Ok rs' ->
  Forall2 same_result rs rs'.
Proof. exact (transform_irrelevant disc f g ev d cutoffs xs xs' rs rs'). Qed.
Print Assumptions C10_order_only.
(** 2 x - 7 on finite scores. *)
Definition ex_f (s : score) : score := match s with Fin q => Fin (2 * q - 7) | s => s end.
Example C10_example : increasing ex_f /\
  exists rs', matrix_scores ex_disc ex_ev (mkDense 4 (map (map ex_f) (d_rows ex_d))) [1; 2; 4] ex_xs' = Ok rs' /\ Forall2 same_result ex_rs rs'.
Proof.
  assert (H : increasing ex_f).
  { constructor; auto; intros [|p|] [|q|]; cbn; auto; try discriminate.
    - rewrite <- !Qlt_alt. intros H. apply Qplus_lt_l. apply Qmult_lt_l; auto. reflexivity.
    - rewrite <- !Qeq_alt. intros H. now rewrite H. }
  split; auto. eexists. split; [vm_compute; reflexivity|].
  eapply (C10_order_only ex_disc ex_f ex_g ex_ev ex_d [1; 2; 4] ex_xs ex_xs').
  - exact H.
  - exact ex_g_ok.
  - exact ex_built.
  - exact ex_d_ok.
  - exact ex_cutoffs.
  - exact ex_launched.
  - exact ex_launched'.
  - exact ex_result.
  - vm_compute. reflexivity.
Qed.

(** * C11: the constructor *)
Theorem C11_accepts g : (exists ev, build g = Ok ev) <-> args_ok g.
Proof. exact (build_iff g). Qed.
Print Assumptions C11_accepts.
(** Otherwise it raises. *)
Theorem C11_raises g : (exists ev, build g = Ok ev) \/ build g = Fail InvalidArgument \/ build g = Fail ValueError.
Proof. exact (build_error g). Qed.
Print Assumptions C11_raises.
Theorem C11_list_order (disc : nat -> Q) g ev rec' per' ev' d cutoffs xs xs' rs rs' :
  let g' := mkConfig (g_gt g) (g_n_items g) (g_offset g) rec' per' (g_masked g) (g_threads g) (g_rwc g) (g_mb g) in
  config_ok g -> build g = Ok ev -> build g' = Ok ev' ->
  Forall2 (@Permutation nat) (g_recs g) (g_recs g') ->
  scores_ok g d -> cutoffs_ok (g_n_items g) cutoffs -> launched xs -> launched xs' ->
  matrix_scores disc ev d cutoffs xs = Ok rs -> matrix_scores disc ev' d cutoffs xs' = Ok rs' ->
  Forall2 same_result rs rs'.
Proof. exact (list_order_irrelevant disc g ev rec' per' ev' d cutoffs xs xs' rs rs'). Qed.
Print Assumptions C11_list_order.
Example C11_example : args_ok (mkConfig ex_gt 4 0 None (Some [[3; 0]; []; [1; 2]]) None 2 false 2%Z) /\
  build (mkConfig ex_gt 4 0 (Some [3; 3]) None None 2 false 2%Z) = Fail InvalidArgument /\
  build (mkConfig ex_gt 4 0 (Some [4]) None None 2 false 2%Z) = Fail InvalidArgument /\
  build (mkConfig ex_gt 4 0 None (Some [[1]]) None 2 false 2%Z) = Fail ValueError.
Proof.
  split; [|split; [reflexivity|split; reflexivity]].
  split; [|split]; cbn.
  - intros _ p [= <-]. reflexivity.
  - repeat (constructor; [split; repeat constructor; cbn; lia|]). constructor.
  - discriminate.
Qed.
Example C11_example_order : exists ev ev' rs rs',
  build (mkConfig ex_gt 4 0 (Some [3; 0; 1]) None None 2 false 2%Z) = Ok ev /\
  build (mkConfig ex_gt 4 0 (Some [0; 1; 3]) None None 2 false 2%Z) = Ok ev' /\
  matrix_scores ex_disc ev ex_d [2] ex_xs = Ok rs /\ matrix_scores ex_disc ev' ex_d [2] ex_xs' = Ok rs' /\
  Forall2 (@Permutation nat) [[3; 0; 1]] [[0; 1; 3]].
Proof.
  eexists; eexists; eexists; eexists. split; [reflexivity|]. split; [reflexivity|]. split; [vm_compute; reflexivity|].
  split; [vm_compute; reflexivity|]. repeat constructor. apply (Permutation_cons_append [0; 1] 3).
Qed.

(** * C12: chunks *)
Theorem C12_same (disc : nat -> Q) g ev ds d cutoffs xs xs' rs rs' :
  config_ok g -> build g = Ok ev -> Forall dense_wf ds -> scores_ok g d -> chunks_rows ds = d_rows d ->
  cutoffs_ok (g_n_items g) cutoffs -> launched xs -> launched xs' ->
  chunk_scores disc ev ds cutoffs xs = Ok rs -> matrix_scores disc ev d cutoffs xs' = Ok rs' -> Forall2 same_result rs rs'.
Proof. exact (chunks_matrix disc g ev ds d cutoffs xs xs' rs rs'). Qed.
Print Assumptions C12_same.
Theorem C12_coverage (disc : nat -> Q) g ev ds cutoffs xs :
  config_ok g -> build g = Ok ev -> Forall dense_wf ds -> cutoffs_ok (g_n_items g) cutoffs -> launched xs ->
  chunk_scores disc ev ds cutoffs xs <> Pending ->
  (Forall (fun d => d_cols d = g_n_items g) ds /\ length (chunks_rows ds) = length (g_gt g) ->
     exists rs, chunk_scores disc ev ds cutoffs xs = Ok rs) /\
  (~ (Forall (fun d => d_cols d = g_n_items g) ds /\ length (chunks_rows ds) = length (g_gt g)) ->
     chunk_scores disc ev ds cutoffs xs = Fail ValueError).
Proof. exact (chunks_accept disc g ev ds cutoffs xs). Qed.
Print Assumptions C12_coverage.
Theorem C12_answers (disc : nat -> Q) g ev ds cutoffs xs : config_ok g -> build g = Ok ev -> all_fair g xs ->
  chunk_scores disc ev ds cutoffs xs <> Pending.
Proof. exact (chunks_answer disc g ev ds cutoffs xs). Qed.
Print Assumptions C12_answers.
(** No array that exists before the call is written to (the chunks may
    overlap or repeat). *)
Theorem C12_arrays_untouched (disc : nat -> Q) ev mask cutoffs xs chunks ms st : Forall (fun v => v_addr v < length st) chunks ->
  snd (chunk_loop_mem disc ev mask cutoffs xs 0 0 chunks ms st) = chunk_loop disc ev mask cutoffs xs 0 0 (map (read st) chunks) ms /\
  forall a, a < length st -> nth_error (fst (chunk_loop_mem disc ev mask cutoffs xs 0 0 chunks ms st)) a = nth_error st a.
Proof. exact (chunk_memory disc ev mask cutoffs xs chunks ms st). Qed.
Print Assumptions C12_arrays_untouched.
(** When a recommender is evaluated, the array it returns is overwritten. *)
Theorem C12_model_array_refuted : exists (st : store),
  nth_error (fst (model_loop_mem ex_disc ex_ev [] (fun a b => mkView 0 a b) [2] ex_xs 3 0 [0; 2] [empty_metrics 4] st)) 0 <> nth_error st 0.
Proof. exists [ex_d]. vm_compute. discriminate. Qed.
Print Assumptions C12_model_array_refuted.
Definition ex_chunks : list dense := [mkDense 4 (slice (d_rows ex_d) 0 1); mkDense 4 []; mkDense 4 (slice (d_rows ex_d) 1 3)].
Example C12_example : Forall dense_wf ex_chunks /\ chunks_rows ex_chunks = d_rows ex_d /\
  (exists rs, chunk_scores ex_disc ex_ev ex_chunks [1; 2; 4] ex_xs = Ok rs /\ Forall2 same_result rs ex_rs) /\
  chunk_scores ex_disc ex_ev (ex_chunks ++ ex_chunks) [1; 2; 4] ex_xs = Fail ValueError /\
  chunk_scores ex_disc ex_ev (firstn 2 ex_chunks) [1; 2; 4] ex_xs = Fail ValueError.
Proof.
  assert (HW : Forall dense_wf ex_chunks) by repeat constructor.
  split; auto. split; [reflexivity|]. split.
  - eexists. split; [vm_compute; reflexivity|].
    eapply (C12_same ex_disc ex_g ex_ev ex_chunks ex_d [1; 2; 4] ex_xs ex_xs).
    + exact ex_g_ok.
    + exact ex_built.
    + exact HW.
    + exact ex_d_ok.
    + reflexivity.
    + exact ex_cutoffs.
    + exact ex_launched.
    + exact ex_launched.
    + vm_compute. reflexivity.
    + exact ex_result.
  - split; vm_compute; reflexivity.
Qed.

(** * C13: merging *)
Theorem C13_assoc a b c : meq (merge (merge a b) c) (merge a (merge b c)).
Proof. exact (merge_assoc_l a b c). Qed.
Print Assumptions C13_assoc.
Theorem C13_comm n a b : wf_metrics n a -> wf_metrics n b -> meq (merge a b) (merge b a).
Proof. exact (merge_comm_l n a b). Qed.
Print Assumptions C13_comm.
Theorem C13_identity n a : wf_metrics n a -> meq (merge a (empty_metrics n)) a /\ meq (merge (empty_metrics n) a) a.
Proof. exact (fun H => conj (merge_empty_r n a H) (merge_empty_l n a H)). Qed.
Print Assumptions C13_identity.
(** Any two merge trees (with any number of fresh objects) over the same parts. *)
Theorem C13_trees n t1 t2 : Forall (wf_metrics n) (parts t1) -> Permutation (parts t1) (parts t2) ->
  meq (run_tree n t1) (run_tree n t2) /\ same_report (as_dict (run_tree n t1)) (as_dict (run_tree n t2)).
Proof. exact (merge_trees n t1 t2). Qed.
Print Assumptions C13_trees.
Definition ex_m (k : nat) : metrics := mkMetrics k (S k) (inject_Z (Z.of_nat k)) (1 # 2) (1 # 3) (1 # 5) (1 # 7) 3 [k; 0; 1].
Example C13_example :
  let t1 := TMerge (TMerge TFresh (TPart (ex_m 1))) (TMerge (TPart (ex_m 2)) (TPart (ex_m 3))) in
  let t2 := TMerge (TMerge (TPart (ex_m 3)) (TPart (ex_m 2))) (TPart (ex_m 1)) in
  Forall (wf_metrics 3) (parts t1) /\ Permutation (parts t1) (parts t2) /\ m_item_cnt (run_tree 3 t1) = [6; 0; 3].
Proof.
  cbn zeta. split; [repeat constructor|]. split; [|reflexivity]. cbn. apply (Permutation_rev [ex_m 1; ex_m 2; ex_m 3]).
Qed.

(** * C14: lists against lists *)
(** The report is that of the definition for the given lists. *)
Theorem C14_value (disc : nat -> Q) n recs gts k sched : lists_ok n recs gts -> 1 <= k ->
  evaluate_list_vs_list disc recs gts n k sched <> Pending ->
  exists m, evaluate_list_vs_list disc recs gts n k sched = Ok m /\
    report_means disc false n (list_users n recs gts) recs (as_dict m).
Proof. exact (list_eval_report disc n recs gts k sched). Qed.
Print Assumptions C14_value.
Theorem C14_answers (disc : nat -> Q) n recs gts k sched : fair (length recs) k sched ->
  evaluate_list_vs_list disc recs gts n k sched <> Pending.
Proof. exact (list_eval_returns disc n recs gts k sched). Qed.
Print Assumptions C14_answers.
(** ... it agrees with the evaluator for scores that rank these lists ... *)
Theorem C14_agrees (disc : nat -> Q) g ev recs gts k sched c xs rs m :
  config_ok g -> build g = Ok ev -> g_rec g = None -> g_per_user g = None -> g_masked g = None -> g_rwc g = false ->
  lists_ok (g_n_items g) recs gts ->
  Forall2 (fun row gt => forall i, In i row <-> In i gt) (g_gt g) gts ->
  0 < c <= g_n_items g -> Forall (fun l => length l <= c) recs -> launched xs -> 1 <= k ->
  matrix_scores disc ev (rank_matrix (g_n_items g) recs) [c] xs = Ok rs ->
  evaluate_list_vs_list disc recs gts (g_n_items g) k sched = Ok m ->
  exists r cov, rs = [(r, cov)] /\ same_report r (as_dict m).
Proof. exact (list_matrix_agree disc g ev recs gts k sched c xs rs m). Qed.
Print Assumptions C14_agrees.
(** ... and its averages lie in [0,1]. *)
Theorem C14_range (disc : nat -> Q) n recs gts r : (forall i, 0 < disc i)%Q -> (forall i, disc (S i) <= disc i)%Q ->
  lists_ok n recs gts -> report_means disc false n (list_users n recs gts) recs r ->
  in01 (r_hit r) /\ in01 (r_recall r) /\ in01 (r_ndcg r) /\ in01 (r_map r) /\ in01 (r_precision r).
Proof. exact (list_report_range disc n recs gts r). Qed.
Print Assumptions C14_range.
(** The data-frame front end: every user with both a recommendation and a
    ground truth row is judged on exactly their rows. *)
Theorem C14_frames (disc : nat -> Q) rec gt k sched : 1 <= k -> no_repeats rec ->
  evaluate_recommendation_df disc rec gt k sched <> Pending ->
  exists r, evaluate_recommendation_df disc rec gt k sched = Ok r /\ df_report_means disc rec gt r.
Proof. exact (df_eval_report disc rec gt k sched). Qed.
Print Assumptions C14_frames.
(** Out-of-range indices are rejected. *)
Theorem C14_rejects (disc : nat -> Q) n recs gts k sched : length recs = length gts ->
  (exists l i, (In l recs \/ In l gts) /\ In i l /\ n <= i) ->
  evaluate_list_vs_list disc recs gts n k sched = Fail InvalidArgument.
Proof. exact (list_eval_rejects disc n recs gts k sched). Qed.
Print Assumptions C14_rejects.
(** Repeated recommendations: recall exceeds 1. *)
Theorem C14_repeats_refuted : exists recs gts m,
  evaluate_list_vs_list ex_disc recs gts 3 1 (repeat 0 12) = Ok m /\ (1 < r_recall (as_dict m))%Q.
Proof. exists [[0; 0]], [[0]]. eexists. split; [vm_compute; reflexivity|vm_compute; reflexivity]. Qed.
Print Assumptions C14_repeats_refuted.
(** Zero threads are not rejected: the report says that nobody was evaluated. *)
Theorem C14_zero_threads_refuted : exists recs gts m,
  lists_ok 3 recs gts /\ evaluate_list_vs_list ex_disc recs gts 3 0 [] = Ok m /\ r_total_user (as_dict m) <> length recs.
Proof.
  exists [[0; 1]], [[0]]. eexists. split; [|split; [vm_compute; reflexivity|vm_compute; lia]].
  split; [reflexivity|]. split; repeat constructor; cbn; auto; try lia; discriminate.
Qed.
Print Assumptions C14_zero_threads_refuted.
(** An empty ground truth list makes the averages NaN. *)
Theorem C14_empty_ground_truth_refuted : exists recs gts,
  evaluate_list_vs_list ex_disc recs gts 3 1 (repeat 0 12) = Fail NotANumber.
Proof. exists [[0]; [1]], [[0]; []]. vm_compute. reflexivity. Qed.
Print Assumptions C14_empty_ground_truth_refuted.
(** A list longer than the catalogue (with repetitions) reads outside of the
    discount table. *)
Theorem C14_long_list_refuted : exists recs gts,
  Forall (Forall (fun i => i < 1)) recs /\ evaluate_list_vs_list ex_disc recs gts 1 1 (repeat 0 12) = UB.
Proof. exists [[0; 0]], [[0]]. split; [repeat constructor|vm_compute; reflexivity]. Qed.
Print Assumptions C14_long_list_refuted.
(** A user of the ground truth without any recommendation is not counted. *)
Theorem C14_frames_drop_users_refuted : exists rec gt r,
  evaluate_recommendation_df ex_disc rec gt 1 (repeat 0 12) = Ok r /\
  r_total_user r <> length (nodup Z.eq_dec (map fst gt)).
Proof.
  exists [(1, 10)]%Z, [(1, 10); (2, 10)]%Z. eexists. split; [vm_compute; reflexivity|vm_compute; lia].
Qed.
Print Assumptions C14_frames_drop_users_refuted.
Example C14_example : lists_ok 4 [[2; 0]; [3]] [[0; 1]; [3; 3]] /\
  exists m, evaluate_list_vs_list ex_disc [[2; 0]; [3]] [[0; 1]; [3; 3]] 4 2 ex_turns = Ok m /\ Qred (r_recall (as_dict m)) = (3 # 4)%Q.
Proof.
  split; [split; [reflexivity|]; split; repeat constructor; cbn; try lia; try discriminate; intros [H|[]]; lia|].
  eexists. split; vm_compute; reflexivity.
Qed.
Example C14_example_frames : exists r,
  evaluate_recommendation_df ex_disc [(7, 10); (7, 11); (8, 10); (9, 12)]%Z [(8, 10); (7, 11); (5, 10)]%Z 1 (repeat 0 12) = Ok r /\
  r_total_user r = 2 /\ r_n_items r = 2 /\ Qred (r_precision r) = (3 # 4)%Q.
Proof. eexists. split; [vm_compute; reflexivity|]. repeat split; vm_compute; reflexivity. Qed.

(** * C15: order of the users, numbering of the items *)
Theorem C15_user_order (disc : nat -> Q) g ev ks d cutoffs xs xs' rs :
  config_ok g -> build g = Ok ev -> scores_ok g d -> cutoffs_ok (g_n_items g) cutoffs -> launched xs -> launched xs' ->
  Permutation ks (seq 0 (length (g_gt g))) ->
  matrix_scores disc ev d cutoffs xs = Ok rs ->
  exists ev', build (g_select ks g) = Ok ev' /\
    forall rs', matrix_scores disc ev' (d_select ks d) cutoffs xs' = Ok rs' -> Forall2 same_result rs rs'.
Proof. exact (select_report' disc g ev ks d cutoffs xs xs' rs). Qed.
Print Assumptions C15_user_order.
Example C15_example : Permutation [2; 0; 1] (seq 0 (length (g_gt ex_g))) /\ g_gt (g_select [2; 0; 1] ex_g) = [[]; [0; 2]; [1]] /\
  exists ev', build (g_select [2; 0; 1] ex_g) = Ok ev' /\
  is_ok (matrix_scores ex_disc ev' (d_select [2; 0; 1] ex_d) [1; 2; 4] ex_xs') = true.
Proof.
  split; [apply (Permutation_cons_append [0; 1] 2)|]. split; [reflexivity|]. eexists. split; [reflexivity|vm_compute; reflexivity].
Qed.

(** [g'] and [d'] are [g] and [d] after renumbering the items by [p]; no two
    items that may be recommended to a user score equally. *)
Theorem C15_item_numbers (disc : nat -> Q) g g' ev ev' d d' p q cutoffs xs xs' rs rs' :
  config_ok g -> build g = Ok ev -> scores_ok g d -> config_ok g' -> build g' = Ok ev' -> scores_ok g' d' ->
  renumbers (g_n_items g) p q -> renumbered p g g' d d' -> no_ties (g_users g (d_rows d)) ->
  cutoffs_ok (g_n_items g) cutoffs -> launched xs -> launched xs' ->
  matrix_scores disc ev d cutoffs xs = Ok rs -> matrix_scores disc ev' d' cutoffs xs' = Ok rs' -> Forall2 same_result rs rs'.
Proof. exact (renumbered_report disc g g' ev ev' d d' p q cutoffs xs xs' rs rs'). Qed.
Print Assumptions C15_item_numbers.
Example C15_example_items : config_ok ex_g_rev /\ renumbers 4 ex_rev ex_rev /\ renumbered ex_rev ex_g ex_g_rev ex_d2 (d_rev ex_d2) /\
  no_ties (g_users ex_g (d_rows ex_d2)) /\
  exists ev', build ex_g_rev = Ok ev' /\ is_ok (matrix_scores ex_disc ev' (d_rev ex_d2) [1; 2; 4] ex_xs) = true.
Proof.
  split; [exact ex_g_rev_ok|]. split; [exact ex_renumbers|]. split; [exact (ex_renumbered ex_d2 (or_intror eq_refl))|]. split; [exact ex_no_ties|].
  eexists. split; [reflexivity|vm_compute; reflexivity].
Qed.
(** With ties the numbers matter. *)
Theorem C15_ties_refuted : exists g g' d d' p q ev ev' rs rs', renumbers 4 p q /\ renumbered p g g' d d' /\
  build g = Ok ev /\ build g' = Ok ev' /\
  matrix_scores ex_disc ev d [2] ex_xs = Ok rs /\ matrix_scores ex_disc ev' d' [2] ex_xs = Ok rs' /\
  map (fun r => Qred (r_hit (fst r))) rs <> map (fun r => Qred (r_hit (fst r))) rs'.
Proof.
  exists ex_g, ex_g_rev, ex_d, (d_rev ex_d), ex_rev, ex_rev. eexists _, _, _, _.
  split; [exact ex_renumbers|]. split; [exact (ex_renumbered ex_d (or_introl eq_refl))|]. split; [reflexivity|]. split; [reflexivity|].
  split; [vm_compute; reflexivity|]. split; [vm_compute; reflexivity|]. vm_compute. discriminate.
Qed.
Print Assumptions C15_ties_refuted.

(** * C16: cold users *)
(** A recommender that scores all items, feature-only ones included. *)
Theorem C16_features (disc : nat -> Q) h ce md F cutoffs xs :
  cold_config_ok h -> build_cold h = Ok ce -> cm_n_items md = h_warm h -> scores_features h md F ->
  cutoffs_ok (h_cols h) cutoffs -> launched xs -> cold_scores_from_model disc ce md cutoffs xs <> Pending ->
  exists rs, cold_scores_from_model disc ce md cutoffs xs = Ok rs /\
    Forall2 (evaluation_means disc (h_rwc h) (h_cols h) (h_recs h) (cold_users h F)) cutoffs rs.
Proof. exact (api_cold_features disc h ce md F cutoffs xs). Qed.
Print Assumptions C16_features.
(** A recommender that cannot score feature-only items: their score is minus infinity. *)
Theorem C16_padded (disc : nat -> Q) h ce md W cutoffs xs :
  cold_config_ok h -> build_cold h = Ok ce -> cm_n_items md = h_warm h -> scores_warm h md W ->
  (h_features h = None \/ no_item_features md) ->
  cutoffs_ok (h_cols h) cutoffs -> launched xs -> cold_scores_from_model disc ce md cutoffs xs <> Pending ->
  exists rs, cold_scores_from_model disc ce md cutoffs xs = Ok rs /\
    Forall2 (evaluation_means disc (h_rwc h) (h_cols h) (h_recs h) (cold_users h (padded h W))) cutoffs rs.
Proof. exact (api_cold_warm disc h ce md W cutoffs xs). Qed.
Print Assumptions C16_padded.
(** Under a fair schedule the evaluation returns. *)
Theorem C16_answers (disc : nat -> Q) h ce md cutoffs xs : cold_config_ok h -> build_cold h = Ok ce ->
  (forall i k, fair_exec (length (h_gt h)) (h_threads h) (xs i k)) -> cold_scores_from_model disc ce md cutoffs xs <> Pending.
Proof. exact (cold_returns disc h ce md cutoffs xs). Qed.
Print Assumptions C16_answers.
Theorem C16_never_recommended h W c tops l i : (forall r, length (W r) = h_warm h) ->
  tops_of c (cold_users h (padded h W)) tops -> In l tops -> In i l -> i < h_warm h.
Proof. exact (cold_never h W c tops l i). Qed.
Print Assumptions C16_never_recommended.
(** With ground truth on warm items only, accuracy is that of the evaluation without feature-only items. *)
Theorem C16_accuracy (disc : nat -> Q) h ce ce0 md W cutoffs xs xs' rs rs' :
  cold_config_ok h -> build_cold h = Ok ce -> cold_config_ok (without_features h) -> build_cold (without_features h) = Ok ce0 ->
  cm_n_items md = h_warm h -> scores_warm h md W -> no_item_features md ->
  Forall (Forall (fun i => i < h_warm h)) (h_gt h) ->
  cutoffs_ok (h_warm h) cutoffs -> launched xs -> launched xs' ->
  cold_scores_from_model disc ce md cutoffs xs = Ok rs ->
  cold_scores_from_model disc ce0 md cutoffs xs' = Ok rs' ->
  Forall2 (fun r r' => same_accuracy (fst r) (fst r')) rs rs'.
Proof. exact (cold_accuracy disc h ce ce0 md W cutoffs xs xs' rs rs'). Qed.
Print Assumptions C16_accuracy.
(** Without cold_item_features the column numbers of the ground truth and of
    the input are never compared: scores are read out of bounds. *)
Theorem C16_columns_refuted : exists h ce md W,
  h_features h = None /\ build_cold h = Ok ce /\ cm_n_items md = h_warm h /\ scores_warm h md W /\
  cold_scores_from_model ex_disc ce md [2] ex_xs = UB.
Proof.
  exists (mkColdConfig (mkSparse 2 [[0]]) [[2]] 3 None None None None 2 false 4%Z).
  eexists. exists (mkColdModel 2 (fun l => mkDense 2 (map (fun _ => [fin 1; fin 2]) l)) None), (fun _ => [fin 1; fin 2]).
  split; [reflexivity|]. split; [reflexivity|]. split; [reflexivity|]. split; [split; reflexivity|vm_compute; reflexivity].
Qed.
Print Assumptions C16_columns_refuted.
Definition ex_h : cold_config :=
  mkColdConfig (mkSparse 3 [[0]; [1; 2]]) [[1; 2]; [0]] 5 (Some 2) None None None 2 false 1%Z.
Definition ex_W (r : list nat) : list score := match r with [0] => [fin 9; fin 1; fin 2] | _ => [fin 3; fin 4; fin 5] end.
Definition ex_cmd : cold_model := mkColdModel 3 (fun l => mkDense 3 (map ex_W l)) (Some (fun _ => None)).
Example C16_example : cold_config_ok ex_h /\ scores_warm ex_h ex_cmd ex_W /\ no_item_features ex_cmd /\
  Forall (Forall (fun i => i < h_warm ex_h)) (h_gt ex_h) /\
  exists ce ce0 rs rs', build_cold ex_h = Ok ce /\ build_cold (without_features ex_h) = Ok ce0 /\
    cold_scores_from_model ex_disc ce ex_cmd [1; 3] ex_xs = Ok rs /\
    cold_scores_from_model ex_disc ce0 ex_cmd [1; 3] ex_xs = Ok rs' /\ map (fun r => Qred (r_recall (fst r))) rs = [3 # 4; 1]%Q.
Proof.
  split; [constructor; cbn; auto with arith; try lia; try discriminate; repeat constructor; cbn; lia|].
  split; [split; [intros [|[|] [|]]; reflexivity|reflexivity]|]. split; [intros l; reflexivity|]. split; [repeat constructor; cbn; lia|].
  eexists; eexists; eexists; eexists. split; [reflexivity|]. split; [reflexivity|]. split; [vm_compute; reflexivity|]. split; vm_compute; reflexivity.
Qed.
