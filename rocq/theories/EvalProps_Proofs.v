(** The evaluator properties in their final form. *)
From Coq Require Import QArith Lqa.
From Verif Require Import Base Sched_Model Sort_Proofs Eval_Spec EvalPy_Spec Eval_Proofs Eval_Core_Proofs Eval_Main_Proofs Eval_Facts_Proofs EvalPy_Proofs Eval_Derived_Proofs EvalApi_Proofs ListEval_Proofs EvalMore_Proofs.
Local Open Scope nat_scope.

Section Disc.
Variable disc : nat -> Q.

(** Every entry point returns the numbers of the specification. *)
Lemma evaluated_means g us cutoffs rs : evaluated disc g us cutoffs rs ->
  Forall2 (evaluation_means disc (g_rwc g) (g_n_items g) (g_recs g) us) cutoffs rs /\ Forall (user_ok (g_n_items g)) us /\
  exists mask scores, us = masked_users (g_n_items g) (g_gt g) (g_recs g) mask scores.
Proof.
  intros []; split.
  - destruct (api_matrix disc g ev d cutoffs0 xs) as (r & E & M); auto; [rewrite H4; discriminate|].
    rewrite H4 in E. injection E as <-. exact M.
  - split; [apply masked_users_ok|unfold g_users; eauto].
  - destruct (api_chunks disc g ev ds cutoffs0 xs) as [(_ & _ & r & E & M)|(_ & E)]; auto; try (rewrite H4 in E; discriminate); [rewrite H4; discriminate|].
    rewrite H4 in E. injection E as <-. exact M.
  - split; [apply masked_users_ok|unfold g_users; eauto].
  - destruct (api_model disc g ev md S cutoffs0 xs) as (r & E & M); auto; [rewrite H4; discriminate|].
    rewrite H4 in E. injection E as <-. exact M.
  - split; [apply masked_users_ok|unfold g_model_users; eauto].
Qed.

Lemma evaluated_unique g us cutoffs rs rs' : evaluated disc g us cutoffs rs -> evaluated disc g us cutoffs rs' ->
  Forall2 same_result rs rs'.
Proof.
  intros H1 H2. destruct (evaluated_means _ _ _ _ H1) as (M1 & HU & _), (evaluated_means _ _ _ _ H2) as (M2 & _ & _).
  eapply evaluations_unique; [eapply users_ok_elig; exact HU|exact M1|exact M2].
Qed.

Lemma matrix_threads g ev t ev' d cutoffs xs xs' rs rs' :
  config_ok g -> build g = Ok ev -> 1 <= t -> build (with_blocks g (g_mb g) t) = Ok ev' ->
  scores_ok g d -> cutoffs_ok (g_n_items g) cutoffs -> launched xs -> launched xs' ->
  matrix_scores disc ev d cutoffs xs = Ok rs -> matrix_scores disc ev' d cutoffs xs' = Ok rs' ->
  Forall2 same_result rs rs'.
Proof.
  intros HC HB Ht HB' HS Hcut Hx Hx' E E'.
  refine (matrix_blocks disc g ev (g_mb g) t ev' d cutoffs xs xs' rs rs' HC HB _ HB' HS Hcut Hx Hx' E E').
  destruct HC; constructor; auto.
Qed.
Lemma matrix_mb g ev mb ev' d cutoffs xs xs' rs rs' :
  config_ok g -> build g = Ok ev -> (0 < mb)%Z -> build (with_blocks g mb (g_threads g)) = Ok ev' ->
  scores_ok g d -> cutoffs_ok (g_n_items g) cutoffs -> launched xs -> launched xs' ->
  matrix_scores disc ev d cutoffs xs = Ok rs -> matrix_scores disc ev' d cutoffs xs' = Ok rs' ->
  Forall2 same_result rs rs'.
Proof.
  intros HC HB Ht HB' HS Hcut Hx Hx' E E'.
  refine (matrix_blocks disc g ev mb (g_threads g) ev' d cutoffs xs xs' rs rs' HC HB _ HB' HS Hcut Hx Hx' E E').
  destruct HC; constructor; auto.
Qed.
Lemma model_mb g ev mb t ev' md S cutoffs xs xs' rs rs' :
  config_ok g -> build g = Ok ev -> (0 < mb)%Z -> 1 <= t -> build (with_blocks g mb t) = Ok ev' ->
  recommender_ok g md S -> cutoffs_ok (g_n_items g) cutoffs -> launched xs -> launched xs' ->
  scores_from_model disc ev md cutoffs xs = Ok rs -> scores_from_model disc ev' md cutoffs xs' = Ok rs' ->
  Forall2 same_result rs rs'.
Proof.
  intros HC HB Hmb Ht HB' HS Hcut Hx Hx' E E'.
  refine (model_blocks disc g ev mb t ev' md S cutoffs xs xs' rs rs' HC HB _ HB' HS Hcut Hx Hx' E E').
  destruct HC; constructor; auto.
Qed.
(** Fair schedules: all entry points answer. *)
Lemma matrix_answers g ev d cutoffs xs : config_ok g -> build g = Ok ev -> scores_ok g d ->
  cutoffs_ok (g_n_items g) cutoffs -> launched xs -> all_fair g xs ->
  exists rs, matrix_scores disc ev d cutoffs xs = Ok rs /\ evaluated disc g (g_users g (d_rows d)) cutoffs rs.
Proof.
  intros HC HB HS Hcut Hx HF.
  destruct (api_returns disc g ev d [] (mkModel 0 0 [] (fun _ _ => None) (fun _ => d)) cutoffs xs HC HB HF) as (H & _ & _).
  destruct (api_matrix disc g ev d cutoffs xs HC HB HS Hcut Hx H) as (rs & E & _).
  exists rs. split; auto. eapply by_matrix; eauto.
Qed.
Lemma model_answers g ev md S cutoffs xs : config_ok g -> build g = Ok ev -> recommender_ok g md S ->
  cutoffs_ok (g_n_items g) cutoffs -> launched xs -> all_fair g xs ->
  exists rs, scores_from_model disc ev md cutoffs xs = Ok rs /\ evaluated disc g (g_model_users g md S) cutoffs rs.
Proof.
  intros HC HB HS Hcut Hx HF.
  destruct (api_returns disc g ev (mkDense 0 []) [] md cutoffs xs HC HB HF) as (_ & _ & H).
  destruct (api_model disc g ev md S cutoffs xs HC HB HS Hcut Hx H) as (rs & E & _).
  exists rs. split; auto. eapply by_model; eauto.
Qed.

(** One call of get_metrics: counters and sums. *)
Lemma core_schedule n rows recs c scores cutoff offset k k' rwc x x' m m' :
  rows_ok n rows -> make_core rows n recs = Ok c -> Forall (fun r => length r = n) scores ->
  offset < length rows -> offset + length scores <= length rows -> 0 < cutoff <= n -> 1 <= k -> 1 <= k' ->
  1 <= x_launched x -> 1 <= x_launched x' ->
  get_metrics disc c (mkBuffer (length scores) (concat scores)) cutoff offset k rwc x = Ok m ->
  get_metrics disc c (mkBuffer (length scores) (concat scores)) cutoff offset k' rwc x' = Ok m' ->
  meq m m' /\ m_total_user m = length scores.
Proof.
  intros HR Hc Hs Ho He Hcut Hk Hk' Hx Hx' E E'.
  destruct (get_metrics_msum disc rwc cutoff n rows recs c scores offset k x HR Hc (Build_valid_call _ n rows offset k scores Hs Ho He Hcut Hk) Hx) as (m1 & E1 & M1).
  { unfold buffer_of. rewrite E. discriminate. }
  destruct (get_metrics_msum disc rwc cutoff n rows recs c scores offset k' x' HR Hc (Build_valid_call _ n rows offset k' scores Hs Ho He Hcut Hk') Hx') as (m2 & E2 & M2).
  { unfold buffer_of. rewrite E'. discriminate. }
  unfold buffer_of in *. rewrite E in E1. rewrite E' in E2. injection E1 as <-. injection E2 as <-.
  split; [now rewrite M1, M2|]. rewrite (meq_total _ _ M1).
  destruct (msum_users disc rwc cutoff n (users_of n rows recs offset scores)) as (_ & H & _). rewrite H. apply users_of_length.
Qed.

(** The ranking of one user. *)
Lemma ranking_is_top n rows recs c scores u uo cutoff :
  make_core rows n recs = Ok c -> Forall (fun r => length r = n) scores -> u < length scores -> 0 < cutoff ->
  let sc := fun i => nth i (nth u scores []) NegInf in
  let elig := filter (fun i => allowed recs uo i && match sc i with NegInf => false | _ => true end) (seq 0 n) in
  exists l, ranking c (concat scores) u uo cutoff = Ok l /\ is_top sc elig cutoff l /\ NoDup l.
Proof.
  intros Hc Hsc Hk Hcut sc elig. apply make_core_iff in Hc as [-> Hrecs].
  destruct (offered_items_spec rows n recs uo Hrecs) as [HoN HoI].
  set (c := mkCore rows n (map (sort_by Nat.ltb) recs)) in *.
  rewrite ranking_top; auto.
  2:{ apply Forall_forall. intros i Hi. apply HoI in Hi. cbn [c c_n_items]. rewrite (concat_length_const n) by auto. nia. }
  cbn [c c_n_items]. set (sc' := fun i => nth (n * u + i) (concat scores) NegInf). set (elig' := filter _ _).
  assert (Hsc' : forall i, i < n -> sc' i = sc i) by (intros i Hi; unfold sc', sc; apply concat_nth; auto).
  assert (HN : NoDup elig) by (apply NoDup_filter, seq_NoDup).
  assert (Helig : Permutation elig' elig).
  { apply NoDup_Permutation; auto; [now apply NoDup_filter|]. intros i. unfold elig', elig. rewrite !filter_In, HoI, in_seq, andb_true_iff.
    split.
    - intros [[H1 H2] H3]. change (not_neginf (sc' i) = true) in H3. rewrite Hsc' in H3 by auto. repeat split; auto; lia.
    - intros [[_ H1] [H2 H3]]. change (((i < n /\ allowed recs uo i = true) /\ not_neginf (sc' i) = true)). rewrite Hsc' by lia. repeat split; auto. }
  assert (Htop : top_list sc' elig' cutoff = top_list sc elig cutoff).
  { rewrite (top_list_perm sc' elig' elig); auto; [|now apply NoDup_filter].
    apply top_list_ext. intros i Hi. unfold elig in Hi. apply filter_In in Hi as [Hi _]. apply in_seq in Hi. apply Hsc'. lia. }
  rewrite Htop. eexists. split; [reflexivity|]. pose proof (top_list_is_top sc elig cutoff HN) as HT. split; auto. eapply is_top_nodup; eauto.
Qed.
Lemma is_top_fun sc elig k l l' : NoDup elig -> is_top sc elig k l -> is_top sc elig k l' -> l = l'.
Proof. intros HN H1 H2. rewrite (is_top_unique _ _ _ _ HN H1). symmetry. now apply is_top_unique. Qed.
Lemma any_partial_sort (cand l' : list (score * nat)) m : NoDup (map snd cand) ->
  partial_sorted pair_lt m cand l' -> firstn m l' = firstn m (sort_by pair_lt cand).
Proof.
  intros HN. apply partial_sort_unique.
  - apply pair_lt_asym.
  - apply pair_lt_negtrans.
  - intros x y Hx Hy H1 H2. destruct x as [a i], y as [b j].
    assert (E : i = j).
    { unfold pair_lt in H1, H2. cbn in H1, H2. apply orb_false_iff in H1 as [A1 A2], H2 as [B1 B2]. rewrite B1 in A2. rewrite A1 in B2. cbn in A2, B2.
      apply Nat.ltb_ge in A2, B2. lia. }
    subst j. clear H1 H2. induction cand as [|[c k] cand IH]; [destruct Hx|]. cbn in HN. inversion HN as [|? ? HN1 HN2]; subst.
    destruct Hx as [Hx|Hx], Hy as [Hy|Hy]; auto; [congruence|injection Hx as -> ->|injection Hy as -> ->].
    + exfalso. apply HN1, in_map_iff. now exists (b, i).
    + exfalso. apply HN1, in_map_iff. now exists (a, i).
Qed.

(** Masked cells. *)
Lemma masked_irrelevant g ev d d' cutoffs xs xs' rs rs' :
  config_ok g -> build g = Ok ev -> scores_ok g d -> scores_ok g d' -> cutoffs_ok (g_n_items g) cutoffs ->
  launched xs -> launched xs' ->
  (forall u i, u < length (g_gt g) -> i < g_n_items g -> ~ In i (nth u (g_hidden g) []) ->
     nth i (nth u (d_rows d) []) NegInf = nth i (nth u (d_rows d') []) NegInf) ->
  matrix_scores disc ev d cutoffs xs = Ok rs -> matrix_scores disc ev d' cutoffs xs' = Ok rs' ->
  Forall2 same_result rs rs'.
Proof.
  intros HC HB HS HS' Hcut Hx Hx' HE E E'.
  destruct (api_matrix disc g ev d cutoffs xs HC HB HS Hcut Hx) as (r1 & E1 & M1); [rewrite E; discriminate|].
  destruct (api_matrix disc g ev d' cutoffs xs' HC HB HS' Hcut Hx') as (r2 & E2 & M2); [rewrite E'; discriminate|].
  rewrite E in E1. rewrite E' in E2. injection E1 as <-. injection E2 as <-.
  apply (means_transfer disc g _ _ _ _ (masked_same_ranking disc (g_n_items g) (g_gt g) (g_recs g) (g_hidden g) (d_rows d) (d_rows d') HE)) in M1.
  refine (means_unique disc g _ _ _ _ _ _ _ _ M1 M2 eq_refl eq_refl eq_refl). apply masked_users_ok.
Qed.
Lemma model_masked_irrelevant g ev md md' S S' cutoffs xs xs' rs rs' :
  config_ok g -> build g = Ok ev -> recommender_ok g md S -> recommender_ok g md' S' -> cutoffs_ok (g_n_items g) cutoffs ->
  launched xs -> launched xs' -> md_train md = md_train md' ->
  (forall u i, u < length (g_gt g) -> i < g_n_items g -> ~ In i (nth u (g_model_hidden g md) []) ->
     nth i (nth u S []) NegInf = nth i (nth u S' []) NegInf) ->
  scores_from_model disc ev md cutoffs xs = Ok rs -> scores_from_model disc ev md' cutoffs xs' = Ok rs' ->
  Forall2 same_result rs rs'.
Proof.
  intros HC HB HS HS' Hcut Hx Hx' Ht HE E E'.
  destruct (api_model disc g ev md S cutoffs xs HC HB HS Hcut Hx) as (r1 & E1 & M1); [rewrite E; discriminate|].
  destruct (api_model disc g ev md' S' cutoffs xs' HC HB HS' Hcut Hx') as (r2 & E2 & M2); [rewrite E'; discriminate|].
  rewrite E in E1. rewrite E' in E2. injection E1 as <-. injection E2 as <-.
  assert (Eh : g_model_hidden g md' = g_model_hidden g md) by (unfold g_model_hidden; now rewrite Ht).
  unfold g_model_users in M2. rewrite Eh in M2.
  apply (means_transfer disc g _ _ _ _ (masked_same_ranking disc (g_n_items g) (g_gt g) (g_recs g) (g_model_hidden g md) S S' HE)) in M1.
  refine (means_unique disc g _ _ _ _ _ _ _ _ M1 M2 eq_refl eq_refl eq_refl). apply masked_users_ok.
Qed.
Lemma masked_never n rows recs mask scores u d0 c l i : u < length rows ->
  let U := nth u (masked_users n rows recs mask scores) d0 in
  is_top (u_score U) (u_elig U) c l -> In i l -> ~ In i (nth u mask []).
Proof.
  intros Hu U HT Hi. apply (top_incl _ _ _ _ HT) in Hi. unfold U, masked_users in Hi.
  set (f := fun u => masked_user n rows recs u (nth u mask []) (fun i => nth i (nth u scores []) NegInf)) in Hi.
  rewrite (nth_indep _ d0 (f 0)) in Hi by (now rewrite map_length, seq_length). rewrite map_nth, seq_nth in Hi by auto.
  cbn in Hi. apply filter_In in Hi as [_ Hi]. apply andb_true_iff in Hi as [Hi _]. apply andb_true_iff in Hi as [_ Hi].
  apply negb_true_iff in Hi. now apply relevant_false.
Qed.

(** Increasing transformations. *)
Lemma transform_irrelevant f g ev d cutoffs xs xs' rs rs' : increasing f ->
  config_ok g -> build g = Ok ev -> scores_ok g d -> cutoffs_ok (g_n_items g) cutoffs ->
  launched xs -> launched xs' ->
  matrix_scores disc ev d cutoffs xs = Ok rs ->
  matrix_scores disc ev (mkDense (d_cols d) (map (map f) (d_rows d))) cutoffs xs' = Ok rs' ->
  Forall2 same_result rs rs'.
Proof.
  intros Hf HC HB HS Hcut Hx Hx' E E'. set (d' := mkDense (d_cols d) (map (map f) (d_rows d))) in *.
  assert (HS' : scores_ok g d').
  { destruct HS as [W1 W2 W3]. constructor; cbn; auto.
    - unfold dense_wf in *. cbn. apply Forall_forall. intros r Hr. apply in_map_iff in Hr as (r0 & <- & Hr).
      rewrite map_length. rewrite Forall_forall in W1. auto.
    - now rewrite map_length. }
  destruct (api_matrix disc g ev d cutoffs xs HC HB HS Hcut Hx) as (r1 & E1 & M1); [rewrite E; discriminate|].
  destruct (api_matrix disc g ev d' cutoffs xs' HC HB HS' Hcut Hx') as (r2 & E2 & M2); [rewrite E'; discriminate|].
  rewrite E in E1. rewrite E' in E2. injection E1 as <-. injection E2 as <-.
  apply (means_transfer disc g _ _ _ _ (increasing_same_ranking disc f (g_n_items g) (g_gt g) (g_recs g) (g_hidden g) (d_rows d) Hf)) in M1.
  refine (means_unique disc g _ _ _ _ _ _ _ _ M1 M2 eq_refl eq_refl eq_refl). apply masked_users_ok.
Qed.

(** Order inside the recommendable lists. *)
Lemma list_order_irrelevant g ev rec' per' ev' d cutoffs xs xs' rs rs' :
  let g' := mkConfig (g_gt g) (g_n_items g) (g_offset g) rec' per' (g_masked g) (g_threads g) (g_rwc g) (g_mb g) in
  config_ok g -> build g = Ok ev -> build g' = Ok ev' ->
  Forall2 (@Permutation nat) (g_recs g) (g_recs g') ->
  scores_ok g d -> cutoffs_ok (g_n_items g) cutoffs -> launched xs -> launched xs' ->
  matrix_scores disc ev d cutoffs xs = Ok rs -> matrix_scores disc ev' d cutoffs xs' = Ok rs' ->
  Forall2 same_result rs rs'.
Proof.
  intros g' HC HB HB' HP HS Hcut Hx Hx' E E'.
  assert (HC' : config_ok g') by (destruct HC; constructor; auto).
  assert (HS' : scores_ok g' d) by (destruct HS; constructor; auto).
  destruct (api_matrix disc g ev d cutoffs xs HC HB HS Hcut Hx) as (r1 & E1 & M1); [rewrite E; discriminate|].
  destruct (api_matrix disc g' ev' d cutoffs xs' HC' HB' HS' Hcut Hx') as (r2 & E2 & M2); [rewrite E'; discriminate|].
  rewrite E in E1. rewrite E' in E2. injection E1 as <-. injection E2 as <-.
  assert (EU : g_users g' (d_rows d) = g_users g (d_rows d)).
  { unfold g_users. symmetry. apply masked_users_allowed. intros u i. now apply allowed_perm. }
  rewrite EU in M2.
  assert (M1' : means disc g' (g_users g (d_rows d)) cutoffs rs).
  { unfold means in *. cbn [g' g_rwc g_n_items]. clear -M1 HP. induction M1 as [|c r cs rs [H1 H2] M1 IH]; constructor; auto.
    split; auto. rewrite <- (catalog_perm _ _ _ HP). exact H2. }
  refine (means_unique disc g' _ _ _ _ _ _ _ _ M1' M2 eq_refl eq_refl eq_refl). apply masked_users_ok.
Qed.

(** Ranges. *)
Lemma in_forall2 {X Y} (R : X -> Y -> Prop) l l' x y : Forall2 R l l' -> In (x, y) (combine l l') -> R x y.
Proof. intros H Hin. now apply (forall2_combine _ _ _ _ _ H). Qed.

Lemma evaluated_range g us cutoffs rs r : (forall i, 0 < disc i)%Q -> (forall i, disc (S i) <= disc i)%Q ->
  evaluated disc g us cutoffs rs -> In r rs ->
  in01 (r_hit (fst r)) /\ in01 (r_recall (fst r)) /\ in01 (r_ndcg (fst r)) /\ in01 (r_map (fst r)) /\ in01 (r_precision (fst r)).
Proof.
  intros Hp Hd H Hr. destruct (evaluated_means _ _ _ _ H) as (M & _ & _). clear H.
  induction M as [|c r0 cs rs [(t & T & R) _] M IH]; [destruct Hr|]. destruct Hr as [->|Hr]; auto. eapply report_range; eauto.
Qed.
Lemma evaluated_none g us cutoffs rs r : evaluated disc g us cutoffs rs -> In r rs -> (forall u, In u us -> u_gt u = []) ->
  (r_hit (fst r) == 0 /\ r_recall (fst r) == 0 /\ r_ndcg (fst r) == 0 /\ r_map (fst r) == 0 /\ r_precision (fst r) == 0)%Q.
Proof.
  intros H Hr Hu. destruct (evaluated_means _ _ _ _ H) as (M & _ & _). clear H.
  assert (HV : valid_users us = []).
  { destruct (valid_users us) as [|u l] eqn:E; auto. assert (Hin : In u (valid_users us)) by (rewrite E; now left).
    apply valid_in in Hin as [H1 H2]. now apply Hu in H1. }
  induction M as [|c r0 cs rs [(t & T & R) _] M IH]; [destruct Hr|]. destruct Hr as [->|Hr]; auto. eapply report_none; eauto.
Qed.
Lemma evaluated_ndcg_one g us cutoffs rs c r : (forall i, 0 < disc i)%Q -> (forall i, disc (S i) < disc i)%Q ->
  evaluated disc g us cutoffs rs -> In (c, r) (combine cutoffs rs) -> (exists u, In u us /\ u_gt u <> []) ->
  ((r_ndcg (fst r) == 1)%Q <-> forall u, In u us -> u_gt u <> [] ->
     forall l, is_top (u_score u) (u_elig u) c l -> l <> [] /\ perfect l (u_gt u)).
Proof.
  intros Hp Hd H Hin (u0 & Hu0 & Hg0). destruct (evaluated_means _ _ _ _ H) as (M & HU & _).
  apply (in_forall2 _ _ _ _ _ M) in Hin as [(t & T & R) _].
  assert (HN := users_ok_elig _ _ HU).
  rewrite (report_ndcg_one disc (g_rwc g) (g_n_items g) us c t (fst r) Hp Hd); auto.
  2:{ intros E. assert (Hv : In u0 (valid_users us)) by (apply valid_in; auto). rewrite E in Hv. destruct Hv. }
  rewrite (tops_of_unique _ _ _ HN T). rewrite Forall_forall in HN. split.
  - intros HX u Hu Hg l Hl. apply HX.
    assert (E : l = u_top c u) by (apply is_top_unique; auto). subst l.
    assert (Hv : In u (valid_users us)) by (apply valid_in; auto). clear -Hv.
    induction (valid_users us) as [|v vs IH]; [destruct Hv|]. cbn. destruct Hv as [->|Hv]; auto.
  - intros HX u l Hul.
    assert (Hv : In u (valid_users us) /\ l = u_top c u).
    { clear -Hul. induction (valid_users us) as [|v vs IH]; [destruct Hul|]. cbn in *. destruct Hul as [[= -> <-]|Hul]; auto. destruct (IH Hul); auto. }
    destruct Hv as [Hv ->]. apply valid_in in Hv as [Hu Hg]. apply HX; auto. apply top_list_is_top. auto.
Qed.
Lemma evaluated_cutoffs g us cutoffs cutoffs' rs rs' c c' r r' : g_rwc g = false ->
  evaluated disc g us cutoffs rs -> evaluated disc g us cutoffs' rs' -> c <= c' ->
  In (c, r) (combine cutoffs rs) -> In (c', r') (combine cutoffs' rs') ->
  (r_hit (fst r) <= r_hit (fst r'))%Q /\ (r_recall (fst r) <= r_recall (fst r'))%Q /\ (r_map (fst r) <= r_map (fst r'))%Q /\
  r_appeared_item (fst r) <= r_appeared_item (fst r').
Proof.
  intros Hrwc H H' Hc Hin Hin'. destruct (evaluated_means _ _ _ _ H) as (M & HU & _), (evaluated_means _ _ _ _ H') as (M' & _ & _).
  apply (in_forall2 _ _ _ _ _ M) in Hin as [(t & T & R) _]. apply (in_forall2 _ _ _ _ _ M') in Hin' as [(t' & T' & R') _].
  rewrite Hrwc in *. destruct (report_cutoffs disc (g_n_items g) us c c' t t' (fst r) (fst r') HU Hc T R T' R') as (_ & H1 & H2 & H3 & H4 & _). auto.
Qed.
Lemma top_prefix sc elig k k' l l' : NoDup elig -> k <= k' -> is_top sc elig k l -> is_top sc elig k' l' -> exists rest, l' = l ++ rest.
Proof.
  intros HN Hk H H'. rewrite (is_top_unique _ _ _ _ HN H), (is_top_unique _ _ _ _ HN H'). now apply top_list_prefix.
Qed.
Lemma evaluated_diversity g us cutoffs rs c r : evaluated disc g us cutoffs rs -> In (c, r) (combine cutoffs rs) ->
  exists tops, tops_of c us tops /\
  (let cnt := map (times_recommended tops) (seq 0 (g_n_items g)) in
   r_appeared_item (fst r) = length (filter (fun n => negb (n =? 0)) cnt) /\
   r_appeared_item (fst r) <= catalog_size (g_n_items g) (g_recs g) /\
   (match snd r with None => True | Some q => in01 q end) /\
   nat_sum cnt = nat_sum (map (@length nat) tops) /\
   nat_sum cnt <= c * r_valid_user (fst r) /\
   (0 <= r_gini_index (fst r) < 1)%Q /\
   ((r_gini_index (fst r) == 0)%Q <-> forall a b, In a cnt -> In b cnt -> a = b)).
Proof.
  intros H Hin. destruct (evaluated_means _ _ _ _ H) as (M & HU & mask & scores & EU).
  apply (in_forall2 _ _ _ _ _ M) in Hin as HM. pose proof HM as [(t & T & R) C].
  exists t. split; auto. cbn zeta. set (cnt := map (times_recommended t) (seq 0 (g_n_items g))).
  subst us. destruct (report_coverage _ _ _ _ _ _ _ _ _ HM) as [HA HQ].
  assert (Ha : r_appeared_item (fst r) = length (filter (fun n => negb (n =? 0)) cnt)).
  { rewrite (rm_appeared _ _ _ _ _ _ R). unfold cnt. now rewrite filter_map_length. }
  assert (Hs : nat_sum cnt = nat_sum (map (@length nat) t)).
  { apply times_sum. eapply tops_wf; eauto. }
  repeat (split; [assumption|]). split; [|split].
  - rewrite Hs, (rm_valid _ _ _ _ _ _ R). now apply tops_total.
  - rewrite (rm_gini _ _ _ _ _ _ R). apply gini_range.
  - rewrite (rm_gini _ _ _ _ _ _ R). apply gini_zero_iff.
Qed.

(** Chunks. *)
Lemma chunks_matrix g ev ds d cutoffs xs xs' rs rs' :
  config_ok g -> build g = Ok ev -> Forall dense_wf ds -> scores_ok g d -> chunks_rows ds = d_rows d ->
  cutoffs_ok (g_n_items g) cutoffs -> launched xs -> launched xs' ->
  chunk_scores disc ev ds cutoffs xs = Ok rs -> matrix_scores disc ev d cutoffs xs' = Ok rs' -> Forall2 same_result rs rs'.
Proof.
  intros HC HB Hd HS ER Hcut Hx Hx' E E'.
  apply (evaluated_unique g (g_users g (d_rows d)) cutoffs).
  - rewrite <- ER. eapply by_chunks; [..|exact E]; eauto.
  - eapply by_matrix; [..|exact E']; eauto.
Qed.
Lemma chunks_accept g ev ds cutoffs xs :
  config_ok g -> build g = Ok ev -> Forall dense_wf ds -> cutoffs_ok (g_n_items g) cutoffs -> launched xs ->
  chunk_scores disc ev ds cutoffs xs <> Pending ->
  (Forall (fun d => d_cols d = g_n_items g) ds /\ length (chunks_rows ds) = length (g_gt g) ->
     exists rs, chunk_scores disc ev ds cutoffs xs = Ok rs) /\
  (~ (Forall (fun d => d_cols d = g_n_items g) ds /\ length (chunks_rows ds) = length (g_gt g)) ->
     chunk_scores disc ev ds cutoffs xs = Fail ValueError).
Proof.
  intros HC HB Hd Hcut Hx Hp. destruct (api_chunks disc g ev ds cutoffs xs HC HB Hd Hcut Hx Hp) as [(H1 & H2 & rs & E & _)|(H & E)].
  - split; [intros _; eauto|intros HN; exfalso; tauto].
  - split; [tauto|auto].
Qed.
Lemma chunks_answer g ev ds cutoffs xs : config_ok g -> build g = Ok ev -> all_fair g xs ->
  chunk_scores disc ev ds cutoffs xs <> Pending.
Proof.
  intros HC HB HF.
  apply (api_returns disc g ev (mkDense 0 []) ds (mkModel 0 0 [] (fun _ _ => None) (fun _ => mkDense 0 [])) cutoffs xs HC HB HF).
Qed.
End Disc.

(** Selections of users and other block sizes are accepted again. *)
Lemma select_config_ok g ks : config_ok g -> Forall (fun k => k < length (g_gt g)) ks -> config_ok (g_select ks g).
Proof.
  intros [H1 H2 H3 H4] Hk. constructor; auto.
  - unfold rows_ok in *. cbn. unfold select. apply Forall_forall. intros r Hr. apply in_map_iff in Hr as (k & <- & Hin).
    rewrite Forall_forall in H1, Hk. apply H1, nth_In. auto.
  - cbn. intros m Hm. destruct (g_masked g) as [m0|]; [|discriminate]. injection Hm as <-. cbn. unfold mask_ok, select.
    specialize (H2 _ eq_refl). unfold mask_ok in H2. rewrite Forall_forall in H2. apply Forall_forall. intros r Hr.
    apply in_map_iff in Hr as (k & <- & Hin). destruct (Nat.lt_ge_cases k (length (sp_nz m0))) as [Hl|Hl].
    + apply H2. now apply nth_In.
    + rewrite nth_overflow by auto. constructor.
Qed.
Lemma select_builds g ev ks : build g = Ok ev -> exists ev', build (g_select ks g) = Ok ev'.
Proof.
  intros HB. apply build_iff. assert (A : args_ok g) by (apply build_iff; eauto). destruct A as (A1 & A2 & A3).
  split; [|split]; cbn.
  - intros Hr p Hp. destruct (g_per_user g) as [p0|]; [|discriminate]. injection Hp as <-. now rewrite !select_length.
  - unfold g_recs in *. cbn. destruct (g_rec g); auto. destruct (g_per_user g) as [p0|]; cbn; auto.
    apply Forall_forall. intros r Hr. unfold select in Hr. apply in_map_iff in Hr as (k & <- & _).
    destruct (Nat.lt_ge_cases k (length p0)) as [Hl|Hl].
    + rewrite Forall_forall in A2. apply A2. now apply nth_In.
    + rewrite nth_overflow by auto. repeat constructor.
  - intros m H. destruct (g_masked g) as [m0|]; [|discriminate]. injection H as <-. cbn. rewrite !select_length. split; auto. now apply A3.
Qed.
Lemma blocks_build g ev mb t : build g = Ok ev -> exists ev', build (with_blocks g mb t) = Ok ev'.
Proof. intros HB. apply build_iff. assert (A : args_ok g) by (apply build_iff; eauto). exact A. Qed.

Section Disc2.
Variable disc : nat -> Q.

Lemma select_report' g ev ks d cutoffs xs xs' rs :
  config_ok g -> build g = Ok ev -> scores_ok g d -> cutoffs_ok (g_n_items g) cutoffs -> launched xs -> launched xs' ->
  Permutation ks (seq 0 (length (g_gt g))) ->
  matrix_scores disc ev d cutoffs xs = Ok rs ->
  exists ev', build (g_select ks g) = Ok ev' /\
    forall rs', matrix_scores disc ev' (d_select ks d) cutoffs xs' = Ok rs' -> Forall2 same_result rs rs'.
Proof.
  intros HC HB HS Hcut Hx Hx' HP E. destruct (select_builds g ev ks HB) as [ev' HB']. exists ev'. split; auto.
  intros rs' E'. refine (select_report disc g ev ks ev' d cutoffs xs xs' rs rs' HC HB _ HB' HS Hcut Hx Hx' HP E E').
  apply select_config_ok; auto. apply Forall_forall. intros k Hk. apply (Permutation_in _ HP) in Hk. apply in_seq in Hk. lia.
Qed.
Lemma drop_report' g ev keep d cutoffs xs xs' rs :
  let ks := filter keep (seq 0 (length (g_gt g))) in
  config_ok g -> build g = Ok ev -> scores_ok g d -> cutoffs_ok (g_n_items g) cutoffs -> launched xs -> launched xs' ->
  (forall u, u < length (g_gt g) -> keep u = false ->
     forall i, In i (nth u (g_gt g) []) -> allowed (g_recs g) u i = false) ->
  matrix_scores disc ev d cutoffs xs = Ok rs ->
  exists ev', build (g_select ks g) = Ok ev' /\
    forall rs', matrix_scores disc ev' (d_select ks d) cutoffs xs' = Ok rs' ->
    Forall2 (fun r r' => same_but_total (fst r) (fst r') /\
     r_total_user (fst r) = length (g_gt g) /\ r_total_user (fst r') = length ks /\
     (g_per_user g = None -> same_coverage (snd r) (snd r'))) rs rs'.
Proof.
  intros ks HC HB HS Hcut Hx Hx' HK E. destruct (select_builds g ev ks HB) as [ev' HB']. exists ev'. split; auto.
  intros rs' E'. refine (drop_report disc g ev keep ev' d cutoffs xs xs' rs rs' HC HB _ HB' HS Hcut Hx Hx' HK E E').
  apply select_config_ok; auto. apply Forall_forall. intros k Hk. apply filter_In in Hk as [Hk _]. apply in_seq in Hk. lia.
Qed.

(** The whole call on a matrix with mini-batch size 0 raises. *)
Lemma mb_zero g ev d md cutoffs xs : build g = Ok ev -> g_mb g = 0%Z ->
  matrix_scores disc ev d cutoffs xs = Fail ValueError /\ scores_from_model disc ev md cutoffs xs = Fail ValueError.
Proof.
  intros HB H0. assert (E : e_mb_size ev = 0%Z).
  { unfold build, make_evaluator in HB. destruct (recommendable_arg _ _ _); try discriminate. cbn in HB.
    destruct (make_core _ _ _); try discriminate. cbn in HB. destruct (g_masked g).
    - destruct (_ && _); [|discriminate]. injection HB as <-. exact H0.
    - injection HB as <-. exact H0. }
  split.
  - unfold matrix_scores, scores_from_matrix. destruct (negb _); auto. unfold chunk_starts. now rewrite E.
  - unfold scores_from_model. destruct (_ <? _); auto. destruct (negb _); auto. unfold chunk_starts. now rewrite E.
Qed.

Lemma cold_range h ce md F cutoffs xs rs r : (forall i, 0 < disc i)%Q -> (forall i, disc (S i) <= disc i)%Q ->
  cold_config_ok h -> build_cold h = Ok ce -> cm_n_items md = h_warm h ->
  (scores_features h md F \/ exists W, F = padded h W /\ scores_warm h md W /\ (h_features h = None \/ no_item_features md)) ->
  cutoffs_ok (h_cols h) cutoffs -> launched xs ->
  cold_scores_from_model disc ce md cutoffs xs = Ok rs -> In r rs ->
  in01 (r_hit (fst r)) /\ in01 (r_recall (fst r)) /\ in01 (r_ndcg (fst r)) /\ in01 (r_map (fst r)) /\ in01 (r_precision (fst r)).
Proof.
  intros Hp Hd HC HB Hm HF Hcut Hx E Hr.
  assert (M : exists us, cold_means disc h us cutoffs rs).
  { destruct HF as [HF|(W & -> & HW & Hn)].
    - destruct (api_cold_features disc h ce md F cutoffs xs HC HB Hm HF Hcut Hx) as (rs' & E' & M); [rewrite E; discriminate|].
      rewrite E in E'. injection E' as <-. eauto.
    - destruct (api_cold_warm disc h ce md W cutoffs xs HC HB Hm HW Hn Hcut Hx) as (rs' & E' & M); [rewrite E; discriminate|].
      rewrite E in E'. injection E' as <-. eauto. }
  destruct M as (us & M). unfold cold_means in M.
  clear -Hp Hd M Hr. induction M as [|c r0 cs rs [(t & T & R) _] M IH]; [destruct Hr|]. destruct Hr as [->|Hr]; auto. eapply report_range; eauto.
Qed.
End Disc2.

Lemma list_eval_rejects (disc : nat -> Q) n recs gts k sched : length recs = length gts ->
  (exists l i, (In l recs \/ In l gts) /\ In i l /\ n <= i) ->
  evaluate_list_vs_list disc recs gts n k sched = Fail InvalidArgument.
Proof.
  intros HL (l & i & Hl & Hi & Hn). unfold evaluate_list_vs_list. rewrite HL, Nat.eqb_refl. cbn [check_arg].
  assert (F : forall ls, In l ls -> forallb (forallb (fun i => i <? n)) ls = false).
  { intros ls H. destruct (forallb (forallb (fun i => i <? n)) ls) eqn:E; auto. rewrite forallb_forall in E. specialize (E _ H).
    rewrite forallb_forall in E. specialize (E _ Hi). apply Nat.ltb_lt in E. lia. }
  destruct Hl as [Hl|Hl].
  - rewrite (F _ Hl). reflexivity.
  - rewrite (F _ Hl). now destruct (forallb _ recs).
Qed.

Lemma scmp_order a b : (scmp a b = Gt <-> above a b) /\ (scmp a b = Lt <-> above b a) /\ (scmp a b = Eq <-> level a b).
Proof.
  destruct a as [|p|], b as [|q|]; cbn [scmp]; (split; [|split]); split; intros H;
    try discriminate; try constructor; try reflexivity; try (inversion H; subst; assumption); try (inversion H; fail).
  all: first [now apply Qgt_alt | now apply Qlt_alt | now apply Qeq_alt |
    inversion H; subst; first [now apply Qgt_alt | now apply Qlt_alt | now apply Qeq_alt]].
Qed.
