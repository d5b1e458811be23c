(** C76: what the caller does with its objects, and results. *)
From Verif Require Import Base Eval_Model EvalPy_Model Rec_Model Share_Model Share_Spec Share_Proofs ShareApi_Proofs ShareEval_Proofs Ex_Rec Ex_Share.
Local Open Scope nat_scope.

Section C76.
Context {I K M : Type}.
Variable eq_dec : forall a b : I, {a = b} + {a <> b}.
Variable learn : K -> list srow -> list dense.
Variable score : K -> list srow -> list dense -> list nat -> dense.
Variable cold : K -> list srow -> list dense -> list srow -> dense.
Variable keeps : K -> bool.
Variable view : K -> bool.
Variable judge : list srow -> list dense -> M.
Variable argsort : list Eval_Model.score -> list nat.
Variable fl : Eval_Model.score -> Eval_Model.score.
Variable psort : nat -> list (nat * Eval_Model.score) -> list (nat * Eval_Model.score).
Notation step := (step eq_dec learn score cold keeps view judge argsort fl psort).
Notation run := (run eq_dec learn score cold keeps view judge argsort fl psort).
Notation permitted := (permitted (fun s act => fst (step s act))).

(** * C76: scores *)
(** Whatever the caller does with its objects, before or after training, the
    scores are those of the matrix as it was at construction. *)
Theorem C76_scores A k f a B X us :
  let s0 := run init_state A in
  let r := length (s_recs s0) in
  let q := step (run init_state (A ++ NewRec k f a :: B)) (Score r us) in
  permitted init_state (A ++ NewRec k f a :: B) -> nth_error (s_heap s0) a = Some (CMat X) -> keeps k = false ->
  (view k = true -> forall n, ~ In (Embedding r n) B) -> In (Learn r) B -> (forall u, In u us -> u < length X) ->
  returned (snd q) (s_heap (fst q)) = Ok (score k X (learn k X) us).
Proof. exact (fun P HX Hk Hv Hl U => scores_fixed eq_dec learn score cold keeps view judge argsort fl psort A B k f a X P HX Hk Hv Hl us U). Qed.
Theorem C76_scores_remove_seen A k f a B X us :
  let s0 := run init_state A in
  let r := length (s_recs s0) in
  let q := step (run init_state (A ++ NewRec k f a :: B)) (ScoreRemoveSeen r us) in
  permitted init_state (A ++ NewRec k f a :: B) -> nth_error (s_heap s0) a = Some (CMat X) -> keeps k = false ->
  (view k = true -> forall n, ~ In (Embedding r n) B) -> In (Learn r) B -> (forall u, In u us -> u < length X) ->
  returned (snd q) (s_heap (fst q)) = apply_mask (score k X (learn k X) us) (map (fun u => nonzero_row (nth u X [])) us).
Proof. exact (fun P HX Hk Hv Hl U => scores_seen eq_dec learn score cold keeps view judge argsort fl psort A B k f a X P HX Hk Hv Hl us U). Qed.
Theorem C76_scores_cold A k f a B X b :
  let s0 := run init_state A in
  let s := run init_state (A ++ NewRec k f a :: B) in
  let r := length (s_recs s0) in
  permitted init_state (A ++ NewRec k f a :: B) -> nth_error (s_heap s0) a = Some (CMat X) -> keeps k = false ->
  (view k = true -> forall n, ~ In (Embedding r n) B) -> In (Learn r) B ->
  (let q := step s (ScoreCold r b) in returned (snd q) (s_heap (fst q)) = Ok (cold k X (learn k X) (mat_at (s_heap s) b))) /\
  (let q := step s (ScoreColdRemoveSeen r b) in
   returned (snd q) (s_heap (fst q)) = apply_mask (cold k X (learn k X) (mat_at (s_heap s) b)) (map nonzero_row (mat_at (s_heap s) b))).
Proof.
  exact (fun P HX Hk Hv Hl => conj (scores_cold eq_dec learn score cold keeps view judge argsort fl psort A B k f a X P HX Hk Hv Hl b)
                                   (scores_cold_seen eq_dec learn score cold keeps view judge argsort fl psort A B k f a X P HX Hk Hv Hl b)).
Qed.

(** * C76: evaluations *)
(** The ground truth is that at construction, and so is the mask unless it was
    given as a CSR matrix: then it is what the caller's matrix holds now. *)
Theorem C76_evaluation P A k f a B X A' gt mask off bl B' :
  let s := run init_state P in
  let s0 := run init_state A in
  let s1 := run init_state A' in
  let r := length (s_recs s0) in
  let e := length (s_evals s1) in
  permitted init_state P -> P = A ++ NewRec k f a :: B -> nth_error (s_heap s0) a = Some (CMat X) -> keeps k = false ->
  (view k = true -> forall n, ~ In (Embedding r n) B) -> In (Learn r) B -> P = A' ++ NewEval gt mask off bl :: B' ->
  snd (step s (Evaluate e r)) =
  omap (fun ds => RMetrics (judge (mat_at (s_heap s1) gt) ds))
    (judged (length X) (fun b b' => score k X (learn k X) (seq b (b' - b)))
       (match mask with None => X | Some (Csr, m) => mat_at (s_heap s) m | Some (OtherFormat, m) => mat_at (s_heap s1) m end)
       (match mask with None => 0 | Some _ => off end) bl).
Proof.
  exact (fun Hp HP HX Hk Hv Hl => evaluated eq_dec learn score cold keeps view judge argsort fl psort P A B A' B' k f a X Hp HP HX Hk Hv Hl gt mask off bl).
Qed.
(** The histories are always what the caller's matrix holds now. *)
Theorem C76_evaluation_cold P A k f a B X A' fi input gt mask bl B' :
  let s := run init_state P in
  let s0 := run init_state A in
  let s1 := run init_state A' in
  let r := length (s_recs s0) in
  let e := length (s_evals s1) in
  permitted init_state P -> P = A ++ NewRec k f a :: B -> nth_error (s_heap s0) a = Some (CMat X) -> keeps k = false ->
  (view k = true -> forall n, ~ In (Embedding r n) B) -> In (Learn r) B -> P = A' ++ NewColdEval fi input gt mask bl :: B' ->
  snd (step s (Evaluate e r)) =
  omap (fun ds => RMetrics (judge (mat_at (s_heap s1) gt) ds))
    (judged_cold (cold k X (learn k X)) (mat_at (s_heap s) input)
       (match (match mask with None => (fi, input) | Some fm => fm end) with (Csr, m) => mat_at (s_heap s) m | (OtherFormat, m) => mat_at (s_heap s1) m end) bl).
Proof.
  exact (fun Hp HP HX Hk Hv Hl => evaluated_cold eq_dec learn score cold keeps view judge argsort fl psort P A B A' B' k f a X Hp HP HX Hk Hv Hl fi input gt mask bl).
Qed.

(** * C76: the objects of the caller *)
Theorem C76_objects (s : state I K) act a c : (forall k, keeps k = false) -> (forall a c, act <> Write a c) ->
  (forall m a cu al pu fo n l sc, act <> RecommendBatch m a cu al pu fo n l sc) ->
  nth_error (s_heap s) a = Some c -> nth_error (s_heap (fst (step s act))) a = Some c.
Proof. exact (fun Kf N1 N2 => frame eq_dec learn score cold keeps view judge argsort fl psort s act Kf N1 N2 a c). Qed.

(** * C76: mappers *)
Theorem C76_recommend A a B L mp b row cutoff al fo :
  let s0 := run init_state A in
  let s := run init_state (A ++ NewMapper a :: B) in
  (forall k, keeps k = false) -> nth_error (s_heap s0) a = Some (CIds L) -> make_mapper eq_dec L = Ok mp -> (forall c, ~ In (Write a c) B) ->
  snd (step s (Recommend (length (s_maps s0)) b row cutoff al fo)) =
  omap RItems (recommended_items eq_dec argsort mp (nth row (d_rows (arr_at (s_heap s) b)) []) cutoff al fo).
Proof. exact (fun Kf HL HM HN => recommend_same eq_dec learn score cold keeps view judge argsort fl psort A B a L mp Kf HL HM HN b row cutoff al fo). Qed.
(** The batch call writes minus infinity at forbidden items into the caller's
    score array, and nothing else. *)
Theorem C76_recommend_batch A a B L mp b d cutoff al pu fo n l sc :
  let s0 := run init_state A in
  let s := run init_state (A ++ NewMapper a :: B) in
  let q := step s (RecommendBatch (length (s_maps s0)) b cutoff al pu fo n l sc) in
  (forall k, keeps k = false) -> nth_error (s_heap s0) a = Some (CIds L) -> make_mapper eq_dec L = Ok mp -> (forall c, ~ In (Write a c) B) ->
  nth_error (s_heap s) b = Some (CArr d) ->
  snd q = omap RLists (snd (recommended_items_batch eq_dec fl psort mp d cutoff al pu fo n l sc)) /\
  (forall b', b' <> b -> nth_error (s_heap (fst q)) b' = nth_error (s_heap s) b') /\
  exists d', nth_error (s_heap (fst q)) b = Some (CArr d') /\ d_cols d' = d_cols d /\ length (d_rows d') = length (d_rows d) /\
    forall u i x, nth_error L i = Some x ->
      nth i (nth u (d_rows d') []) NegInf = nth i (nth u (d_rows d) []) NegInf \/
      (nth i (nth u (d_rows d') []) NegInf = NegInf /\ exists f, fo = Some f /\ In x (nth u f [])).
Proof. exact (fun Kf HL HM HN => batch_same eq_dec learn score cold keeps view judge argsort fl psort A B a L mp Kf HL HM HN b d cutoff al pu fo n l sc). Qed.
End C76.
Print Assumptions C76_scores.
Print Assumptions C76_scores_remove_seen.
Print Assumptions C76_scores_cold.
Print Assumptions C76_evaluation.
Print Assumptions C76_evaluation_cold.
Print Assumptions C76_objects.
Print Assumptions C76_recommend.
Print Assumptions C76_recommend_batch.

(** The matrices, the returned scores and an embedding have been overwritten. *)
Example C76_scores_ex :
  let s := ex_run init_state (ex_program Plain) in
  let q := ex_step s (Score 0 [0; 2]) in
  let q' := ex_step s (ScoreRemoveSeen 0 [0; 2]) in
  ex_permitted init_state (ex_program Plain) /\ mat_at (s_heap s) 1 = [] /\ nth_error (s_heap s) 6 = Some (CArr ex_zero) /\
  returned (snd q) (s_heap (fst q)) = Ok (mkDense 3 [[zfin 1; zfin 1; zfin 2]; [zfin 1; zfin 1; zfin 2]]) /\
  returned (snd q') (s_heap (fst q')) = Ok (mkDense 3 [[NegInf; zfin 1; zfin 2]; [zfin 1; zfin 1; NegInf]]).
Proof. split; [exact (proj1 ex_permitted_program)|]. vm_compute. repeat split. Qed.
Example C76_evaluation_ex :
  let s := ex_run init_state (ex_program Plain) in
  snd (ex_step s (Evaluate 0 0)) =
    Ok (RMetrics (ex_gt, [mkDense 3 [[zfin 1; zfin 1; zfin 2]; [NegInf; zfin 1; zfin 2]]; mkDense 3 [[zfin 1; NegInf; zfin 2]]])) /\
  snd (ex_step s (Evaluate 1 0)) =
    Ok (RMetrics (ex_gt, [mkDense 3 [[zfin 1; zfin 1; NegInf]; [zfin 1; zfin 1; zfin 2]]; mkDense 3 [[zfin 1; zfin 1; zfin 2]]])) /\
  snd (ex_step s (Evaluate 2 0)) =
    Ok (RMetrics (ex_gt, [mkDense 3 [[NegInf; zfin 1; zfin 2]; [zfin 1; NegInf; NegInf]]; mkDense 3 [[zfin 1; zfin 1; NegInf]]])).
Proof. vm_compute. repeat split. Qed.
Example C76_evaluation_cold_ex :
  ex_permitted init_state (ex_ready Plain) /\
  snd (ex_step (ex_run init_state (ex_ready Plain)) (Evaluate 1 0)) =
    Ok (RMetrics (ex_gt, [mkDense 3 [[NegInf; zfin 2; zfin 3]; [zfin 2; NegInf; NegInf]; [zfin 1; zfin 2; NegInf]]])).
Proof. split; [exact (proj2 ex_permitted_program)|]. vm_compute. reflexivity. Qed.
Example C76_recommend_ex :
  let s := ex_run init_state (ex_ready Plain) in
  nth_error (s_heap s) 0 = Some (CIds [10; 20; 30]) /\
  snd (ex_step s (Recommend 0 9 0 2%Z None None)) = Ok (RItems [(20, zfin 7); (30, zfin 6)]) /\
  (let q := ex_step s (RecommendBatch 0 9 2 None None (Some [[20]]) 1 1 ex_sched) in
   snd q = Ok (RLists [[(30, zfin 6); (10, zfin 5)]]) /\
   nth_error (s_heap (fst q)) 9 = Some (CArr (mkDense 3 [[zfin 5; NegInf; zfin 6]]))).
Proof. vm_compute. repeat split. Qed.

(** * C76: objects that are shared *)
(** A class whose [get_score] returns an array it keeps: removing seen items, or
    an evaluation, spoils all later scores. *)
Theorem C76_kept_scores_refuted : exists k act,
  let s := ex_run init_state (ex_ready k) in
  let q := ex_step s (Score 0 [0; 1; 2]) in
  let q' := ex_step (fst (ex_step s act)) (Score 0 [0; 1; 2]) in
  (exists us, act = ScoreRemoveSeen 0 us) /\ returned (snd q) (s_heap (fst q)) <> returned (snd q') (s_heap (fst q')).
Proof. exists Keeping, (ScoreRemoveSeen 0 [0; 1; 2]). split; [eexists; reflexivity|]. vm_compute. discriminate. Qed.
Print Assumptions C76_kept_scores_refuted.
Theorem C76_kept_scores_evaluation_refuted : exists k,
  let s := ex_run init_state (ex_ready k) in
  let q := ex_step s (Score 0 [0; 1; 2]) in
  let q' := ex_step (fst (ex_step s (Evaluate 0 0))) (Score 0 [0; 1; 2]) in
  returned (snd q) (s_heap (fst q)) <> returned (snd q') (s_heap (fst q')).
Proof. exists Keeping. vm_compute. discriminate. Qed.
Print Assumptions C76_kept_scores_evaluation_refuted.
(** Writing to what [get_item_embedding] returned changes the model. *)
Theorem C76_embedding_refuted : exists k c,
  let s := ex_run init_state (ex_ready k) in
  let s' := fst (ex_step s (Embedding 0 0)) in
  exists a, snd (ex_step s (Embedding 0 0)) = Ok (RArray a) /\
    let q := ex_step s' (Score 0 [0]) in
    let q' := ex_step (fst (ex_step s' (Write a c))) (Score 0 [0]) in
    returned (snd q) (s_heap (fst q)) <> returned (snd q') (s_heap (fst q')).
Proof. exists Viewing, (CArr ex_zero). eexists. split; [vm_compute; reflexivity|]. vm_compute. discriminate. Qed.
Print Assumptions C76_embedding_refuted.
(** A CSR mask changed by the caller changes the metrics of the evaluator. *)
Theorem C76_mask_refuted : exists c,
  let s := ex_run init_state (ex_ready Plain) in
  snd (ex_step (fst (ex_step s (Write 3 c))) (Evaluate 0 0)) <> snd (ex_step s (Evaluate 0 0)).
Proof. exists (CMat [[]; []; []]). vm_compute. discriminate. Qed.
Print Assumptions C76_mask_refuted.
(** A CSC matrix of histories changed by the caller: new histories are judged
    with the old mask. *)
Theorem C76_histories_refuted : exists X',
  let s := ex_run init_state (ex_ready Plain) in
  snd (ex_step (fst (ex_step s (Write 1 (CMat X')))) (Evaluate 1 0)) =
    omap (fun ds => RMetrics (ex_gt, ds)) (judged_cold (ex_cold Plain ex_X (ex_learn Plain ex_X)) X' ex_X [(0, 3)]) /\
  judged_cold (ex_cold Plain ex_X (ex_learn Plain ex_X)) X' ex_X [(0, 3)] <>
    judged_cold (ex_cold Plain ex_X (ex_learn Plain ex_X)) X' X' [(0, 3)] /\
  judged_cold (ex_cold Plain ex_X (ex_learn Plain ex_X)) X' ex_X [(0, 3)] <>
    judged_cold (ex_cold Plain ex_X (ex_learn Plain ex_X)) ex_X ex_X [(0, 3)].
Proof. exists [[]; []; [(0, 1%Q)]]. vm_compute. repeat split; discriminate. Qed.
Print Assumptions C76_histories_refuted.
(** Sorting the list of ids after the mapper was made gives wrong ids. *)
Theorem C76_ids_refuted : exists l,
  let s := ex_run init_state (ex_ready Plain) in
  snd (ex_step s (Recommend 0 9 0 1%Z None None)) = Ok (RItems [(20, zfin 7)]) /\
  snd (ex_step (fst (ex_step s (Write 0 (CIds l)))) (Recommend 0 9 0 1%Z None None)) = Ok (RItems [(10, zfin 7)]).
Proof. exists [20; 10; 30]. vm_compute. split; reflexivity. Qed.
Print Assumptions C76_ids_refuted.
(** Forbidden items stay forbidden in the next call with the same scores. *)
Theorem C76_forbidden_refuted : exists f,
  let s := ex_run init_state (ex_ready Plain) in
  let again := RecommendBatch 0 9 2 None None None 1 1 ex_sched in
  snd (ex_step s again) = Ok (RLists [[(20, zfin 7); (30, zfin 6)]]) /\
  snd (ex_step (fst (ex_step s (RecommendBatch 0 9 2 None None (Some f) 1 1 ex_sched))) again) = Ok (RLists [[(30, zfin 6); (10, zfin 5)]]).
Proof. exists [[20]]. vm_compute. split; reflexivity. Qed.
Print Assumptions C76_forbidden_refuted.
