(** The evaluator as constructed by the user: results of every entry point,
    and the properties derived from them. *)
From Coq Require Import QArith Lqa.
From Verif Require Import Base Sched_Model Sort_Proofs Eval_Spec EvalPy_Spec Eval_Proofs Eval_Core_Proofs Eval_Main_Proofs Eval_Facts_Proofs EvalPy_Proofs Eval_Derived_Proofs.
Local Open Scope nat_scope.

Section Disc.
Variable disc : nat -> Q.

Lemma build_ok g ev : config_ok g -> build g = Ok ev ->
  ev_ok ev (g_gt g) (g_recs g) (g_n_items g) /\ e_n_rec ev = n_recommendable (g_n_items g) (g_recs g) /\
  e_rwc ev = g_rwc g /\ e_mb_size ev = g_mb g /\ e_offset ev = g_offset g /\
  e_masked ev = option_map sp_nz (g_masked g) /\
  mask_ok (g_n_items g) (g_hidden g) /\
  recs_ok (length (g_gt g)) (g_n_items g) (g_recs g) /\
  (g_rec g = None -> forall p, g_per_user g = Some p -> length p = length (g_gt g)) /\
  (forall m, g_masked g = Some m -> length (sp_nz m) = length (g_gt g)).
Proof.
  intros [Hr Hm Ht Hmb] HB. unfold build in HB. apply make_evaluator_ok in HB.
  destruct HB as (recs & Ea & Ec & E1 & E2 & E3 & E4 & E5 & E6 & E7 & E8 & E9).
  assert (Erecs : recs = g_recs g /\ (g_rec g = None -> forall p, g_per_user g = Some p -> length p = length (g_gt g))).
  { unfold recommendable_arg in Ea. unfold g_recs. destruct (g_rec g) as [r|].
    - injection Ea as <-. split; auto. discriminate.
    - destruct (g_per_user g) as [p|].
      + destruct (Nat.eqb_spec (length p) (length (g_gt g))); [|discriminate]. injection Ea as <-. split; auto. congruence.
      + injection Ea as <-. split; auto. discriminate. }
  destruct Erecs as [-> Hper].
  split; [constructor; auto; lia|]. repeat split; auto.
  - unfold g_hidden. destruct (g_masked g) as [m|]; [|constructor].
    destruct E9 as [_ E9]. rewrite <- E9. apply Hm. reflexivity.
  - apply make_core_iff in Ec. destruct Ec as [_ [H _]]. exact H.
  - apply make_core_iff in Ec. destruct Ec as [_ [_ H]]. exact H.
  - intros m Em. rewrite Em in E9. tauto.
Qed.

Lemma opt_mask_hidden g ev : e_masked ev = option_map sp_nz (g_masked g) -> opt_mask (e_masked ev) = g_hidden g.
Proof. intros ->. unfold g_hidden. now destruct (g_masked g). Qed.

Definition means g us := Forall2 (evaluation_means disc (g_rwc g) (g_n_items g) (g_recs g) us).

Lemma api_matrix g ev d cutoffs xs :
  config_ok g -> build g = Ok ev -> scores_ok g d -> cutoffs_ok (g_n_items g) cutoffs -> launched xs ->
  matrix_scores disc ev d cutoffs xs <> Pending ->
  exists rs, matrix_scores disc ev d cutoffs xs = Ok rs /\ means g (g_users g (d_rows d)) cutoffs rs.
Proof.
  intros HC HB [W1 W2 W3] Hcut Hx Hp.
  destruct (build_ok g ev HC HB) as (Hev & Hrec & Hrwc & Hmb & Hoff & Hm & Hmask & _).
  pose proof (opt_mask_hidden g ev Hm) as Eh. destruct HC as [_ _ _ Hmb'].
  unfold matrix_scores in *.
  destruct (scores_from_matrix_spec disc ev (g_gt g) (g_recs g) (g_n_items g) (e_masked ev) d cutoffs xs) as (rs & E & H); auto.
  - rewrite Eh. auto.
  - lia.
  - exists rs. split; auto. unfold means, g_users. rewrite <- Eh, <- Hrwc. exact H.
Qed.

Lemma api_chunks g ev ds cutoffs xs :
  config_ok g -> build g = Ok ev -> Forall dense_wf ds -> cutoffs_ok (g_n_items g) cutoffs -> launched xs ->
  chunk_scores disc ev ds cutoffs xs <> Pending ->
  (Forall (fun d => d_cols d = g_n_items g) ds /\ length (chunks_rows ds) = length (g_gt g) /\
   exists rs, chunk_scores disc ev ds cutoffs xs = Ok rs /\ means g (g_users g (chunks_rows ds)) cutoffs rs)
  \/ (~ (Forall (fun d => d_cols d = g_n_items g) ds /\ length (chunks_rows ds) = length (g_gt g)) /\
      chunk_scores disc ev ds cutoffs xs = Fail ValueError).
Proof.
  intros HC HB Hd Hcut Hx Hp.
  destruct (build_ok g ev HC HB) as (Hev & Hrec & Hrwc & Hmb & Hoff & Hm & Hmask & _).
  pose proof (opt_mask_hidden g ev Hm) as Eh.
  unfold chunk_scores in *.
  destruct (scores_from_chunks_spec disc ev (g_gt g) (g_recs g) (g_n_items g) (e_masked ev) ds cutoffs xs) as [(H1 & H2 & rs & E & H)|[H1 H2]]; auto.
  - rewrite Eh. auto.
  - left. repeat split; auto. exists rs. split; auto. unfold means, g_users. rewrite <- Eh, <- Hrwc. exact H.
Qed.

Lemma api_model g ev md S cutoffs xs :
  config_ok g -> build g = Ok ev -> recommender_ok g md S -> cutoffs_ok (g_n_items g) cutoffs -> launched xs ->
  scores_from_model disc ev md cutoffs xs <> Pending ->
  exists rs, scores_from_model disc ev md cutoffs xs = Ok rs /\ means g (g_model_users g md S) cutoffs rs.
Proof.
  intros HC HB [M1 M2 M3 M4 M5 M6] Hcut Hx Hp.
  destruct (build_ok g ev HC HB) as (Hev & Hrec & Hrwc & Hmb & Hoff & Hm & Hmask & _). destruct HC as [_ _ _ Hmb'].
  assert (Eh : eval_mask ev md = g_model_hidden g md).
  { unfold eval_mask, g_model_hidden. rewrite Hm, Hoff, (eo_users _ _ _ _ Hev). destruct (g_masked g); reflexivity. }
  destruct (scores_from_model_spec disc ev (g_gt g) (g_recs g) (g_n_items g) md S cutoffs xs) as (rs & E & H); auto.
  - lia.
  - now rewrite Hoff.
  - rewrite Hoff. exact M5.
  - rewrite Eh. unfold g_model_hidden, g_hidden in *. destruct (g_masked g); auto. now apply slice_forall.
  - exists rs. split; auto. unfold means, g_model_users. rewrite <- Eh, <- Hrwc. exact H.
Qed.

(** All entry points return when every worker keeps getting turns. *)
Lemma build_rows g ev : config_ok g -> build g = Ok ev -> c_rows (e_core ev) = g_gt g /\ e_n_threads ev = g_threads g.
Proof.
  intros HC HB. destruct (build_ok g ev HC HB) as (Hev & _). destruct Hev as [_ Hc _ _ _]. apply make_core_iff in Hc as [-> _].
  split; auto. unfold build in HB. apply make_evaluator_ok in HB. destruct HB as (recs & HB). tauto.
Qed.
Lemma api_returns g ev d ds md cutoffs xs : config_ok g -> build g = Ok ev -> all_fair g xs ->
  matrix_scores disc ev d cutoffs xs <> Pending /\ chunk_scores disc ev ds cutoffs xs <> Pending /\
  scores_from_model disc ev md cutoffs xs <> Pending.
Proof.
  intros HC HB HF. destruct (build_rows g ev HC HB) as [E1 E2].
  unfold matrix_scores, chunk_scores. split; [|split].
  - apply scores_from_matrix_returns. rewrite E1, E2. exact HF.
  - apply scores_from_chunks_returns. rewrite E1, E2. exact HF.
  - apply scores_from_model_returns. rewrite E1, E2. exact HF.
Qed.

(** Two runs with the same users give the same numbers. *)
Lemma means_unique g n recs rwc us cutoffs rs1 rs2 :
  Forall (user_ok n) us ->
  means g us cutoffs rs1 -> Forall2 (evaluation_means disc rwc n recs us) cutoffs rs2 ->
  rwc = g_rwc g -> n = g_n_items g -> recs = g_recs g ->
  Forall2 same_result rs1 rs2.
Proof.
  intros HU H1 H2 -> -> ->. eapply evaluations_unique; [eapply users_ok_elig; eauto|exact H1|exact H2].
Qed.
Lemma forall2_same_sym rs1 rs2 : Forall2 same_result rs1 rs2 -> Forall2 same_result rs2 rs1.
Proof.
  induction 1 as [|a b l l' [[] Hc] HF IH]; constructor; auto. split.
  - constructor; auto; now symmetry.
  - destruct (snd a), (snd b); cbn in *; auto. now symmetry.
Qed.

(** ** C01, C02 *)
Lemma matrix_blocks g ev mb t ev' d cutoffs xs xs' rs rs' :
  config_ok g -> build g = Ok ev -> config_ok (with_blocks g mb t) -> build (with_blocks g mb t) = Ok ev' ->
  scores_ok g d -> cutoffs_ok (g_n_items g) cutoffs -> launched xs -> launched xs' ->
  matrix_scores disc ev d cutoffs xs = Ok rs -> matrix_scores disc ev' d cutoffs xs' = Ok rs' ->
  Forall2 same_result rs rs'.
Proof.
  intros HC HB HC' HB' HS Hcut Hx Hx' E E'.
  destruct (api_matrix g ev d cutoffs xs HC HB HS Hcut Hx) as (r1 & E1 & M1); [rewrite E; discriminate|].
  assert (HS' : scores_ok (with_blocks g mb t) d) by (destruct HS; constructor; auto).
  destruct (api_matrix _ ev' d cutoffs xs' HC' HB' HS' Hcut Hx') as (r2 & E2 & M2);
    [rewrite E'; discriminate|].
  rewrite E in E1. rewrite E' in E2. injection E1 as <-. injection E2 as <-.
  eapply (means_unique g); [|exact M1|exact M2|reflexivity..]. apply masked_users_ok.
Qed.
Lemma model_blocks g ev mb t ev' md S cutoffs xs xs' rs rs' :
  config_ok g -> build g = Ok ev -> config_ok (with_blocks g mb t) -> build (with_blocks g mb t) = Ok ev' ->
  recommender_ok g md S -> cutoffs_ok (g_n_items g) cutoffs -> launched xs -> launched xs' ->
  scores_from_model disc ev md cutoffs xs = Ok rs -> scores_from_model disc ev' md cutoffs xs' = Ok rs' ->
  Forall2 same_result rs rs'.
Proof.
  intros HC HB HC' HB' HS Hcut Hx Hx' E E'.
  destruct (api_model g ev md S cutoffs xs HC HB HS Hcut Hx) as (r1 & E1 & M1); [rewrite E; discriminate|].
  assert (HS' : recommender_ok (with_blocks g mb t) md S) by (destruct HS; constructor; auto).
  destruct (api_model _ ev' md S cutoffs xs' HC' HB' HS' Hcut Hx') as (r2 & E2 & M2); [rewrite E'; discriminate|].
  rewrite E in E1. rewrite E' in E2. injection E1 as <-. injection E2 as <-.
  eapply (means_unique g); [|exact M1|exact M2|reflexivity..]. apply masked_users_ok.
Qed.

(** ** C04, C10: changes of the scores that keep the ranking *)
Lemma means_transfer g us us' cutoffs rs : Forall2 same_ranking us us' -> means g us cutoffs rs -> means g us' cutoffs rs.
Proof. intros H. unfold means. induction 1; constructor; auto. eapply evaluation_transfer; eauto. Qed.

Lemma masked_same_ranking n rows recs mask s s' :
  (forall u i, u < length rows -> i < n -> ~ In i (nth u mask []) ->
     nth i (nth u s []) NegInf = nth i (nth u s' []) NegInf) ->
  Forall2 same_ranking (masked_users n rows recs mask s) (masked_users n rows recs mask s').
Proof.
  intros H. unfold masked_users.
  assert (G : forall l, (forall u, In u l -> u < length rows) ->
     Forall2 same_ranking
      (map (fun u => masked_user n rows recs u (nth u mask []) (fun i => nth i (nth u s []) NegInf)) l)
      (map (fun u => masked_user n rows recs u (nth u mask []) (fun i => nth i (nth u s' []) NegInf)) l)).
  2:{ apply G. intros u Hu. apply in_seq in Hu. lia. }
  induction l as [|u l IH]; intros Hl; cbn [map]; constructor; [|apply IH; intros; apply Hl; now right].
  specialize (H u). specialize (Hl u (or_introl eq_refl)).
  assert (HE : forall i, In i (u_elig (masked_user n rows recs u (nth u mask []) (fun i => nth i (nth u s []) NegInf))) ->
      nth i (nth u s []) NegInf = nth i (nth u s' []) NegInf).
  { intros i Hi. cbn in Hi. apply filter_In in Hi as [Hi Hf]. apply in_seq in Hi.
    apply andb_true_iff in Hf as [Hf _]. apply andb_true_iff in Hf as [_ Hf]. apply negb_true_iff, relevant_false in Hf.
    apply H; auto; lia. }
  split; [reflexivity|split].
  - cbn. apply filter_ext_in. intros i Hi. apply in_seq in Hi.
    destruct (relevant (nth u mask []) i) eqn:Er; cbn; [now rewrite !andb_false_r|].
    rewrite H; auto; [lia|now apply relevant_false].
  - intros i j Hi Hj. unfold better. cbn [u_score masked_user]. rewrite (HE i Hi), (HE j Hj). tauto.
Qed.

Lemma increasing_cmp f a b : increasing f -> scmp (f a) (f b) = scmp a b.
Proof.
  intros [H0 H1 H2]. destruct (scmp a b) eqn:E; auto.
  rewrite scmp_antisym in E |- *. destruct (scmp b a) eqn:E'; try discriminate. now rewrite (H1 _ _ E').
Qed.
Lemma increasing_same_ranking f n rows recs mask s : increasing f ->
  Forall2 same_ranking (masked_users n rows recs mask s) (masked_users n rows recs mask (map (map f) s)).
Proof.
  intros Hf. unfold masked_users.
  assert (E : forall u i, nth i (nth u (map (map f) s) []) NegInf = f (nth i (nth u s []) NegInf)).
  { intros u i. change (@nil score) with (map f []) at 1. rewrite map_nth. rewrite <- (inc_neginf f Hf) at 1. apply map_nth. }
  assert (Ez : forall a, match f a with NegInf => false | _ => true end = match a with NegInf => false | _ => true end).
  { intros a. pose proof (increasing_cmp f NegInf a Hf) as H. rewrite (inc_neginf f Hf) in H.
    destruct a, (f _); cbn in H; auto; discriminate. }
  induction (seq 0 (length rows)) as [|u l IH]; cbn [map]; constructor; auto.
  split; [reflexivity|split].
  - cbn. apply filter_ext. intros i. now rewrite E, Ez.
  - intros i j _ _. unfold better. cbn [u_score masked_user]. rewrite !E, !(increasing_cmp f _ _ Hf). tauto.
Qed.

(** ** C11: order inside the lists *)
Lemma allowed_perm recs recs' u i : Forall2 (@Permutation nat) recs recs' -> allowed recs u i = allowed recs' u i.
Proof.
  intros H. unfold allowed. destruct H as [|r r' recs recs' Hr H]; auto.
  destruct H as [|r2 r2' recs recs' Hr2 H]; [now apply relevant_perm|].
  set (a := r :: r2 :: recs). set (b := r' :: r2' :: recs').
  assert (HF : Forall2 (@Permutation nat) a b) by (constructor; auto).
  clearbody a b. clear -HF. revert u. induction HF as [|x y a b Hxy HF IH]; intros [|u]; cbn; auto. now apply relevant_perm.
Qed.
Lemma catalog_perm n recs recs' : Forall2 (@Permutation nat) recs recs' -> catalog_size n recs = catalog_size n recs'.
Proof.
  intros H. unfold catalog_size. destruct H as [|r r' recs recs' Hr H]; auto. f_equal. apply filter_ext. intros i.
  cbn [existsb]. rewrite (relevant_perm _ _ i Hr). f_equal.
  induction H as [|x y a b Hxy HF IH]; cbn; auto. now rewrite IH, (relevant_perm _ _ i Hxy).
Qed.
Lemma masked_users_allowed n rows recs recs' mask s :
  (forall u i, allowed recs u i = allowed recs' u i) -> masked_users n rows recs mask s = masked_users n rows recs' mask s.
Proof.
  intros H. unfold masked_users. apply map_ext. intros u. unfold masked_user. f_equal; apply filter_ext; intros i; now rewrite H.
Qed.

(** ** C09, C15: choosing users *)
Lemma allowed_per_user p u i : u < length p -> allowed p u i = relevant (nth u p []) i.
Proof. destruct p as [|r [|r' p]]; cbn [length]; intros H; [lia| |reflexivity]. now replace u with 0 by lia. Qed.
Lemma select_nth {X} (d : X) ks l j : j < length ks -> nth j (select d ks l) d = nth (nth j ks 0) l d.
Proof.
  intros H. unfold select. rewrite (nth_indep _ d (nth 0 l d)) by (now rewrite map_length).
  now rewrite (map_nth (fun k => nth k l d)).
Qed.
Lemma select_length {X} (d : X) ks l : length (select d ks l) = length ks.
Proof. apply map_length. Qed.

Lemma select_users g ev ks s : config_ok g -> build g = Ok ev ->
  Forall (fun k => k < length (g_gt g)) ks ->
  Forall2 same_ranking (select (mkUser [] [] (fun _ => NegInf)) ks (g_users g s)) (g_users (g_select ks g) (select [] ks s)).
Proof.
  intros HC HB Hks. destruct (build_ok g ev HC HB) as (_ & _ & _ & _ & _ & _ & _ & _ & Hper & Hml).
  unfold g_users. cbn [g_select g_n_items g_gt].
  set (d0 := mkUser [] [] (fun _ => NegInf)).
  assert (E1 : select d0 ks (masked_users (g_n_items g) (g_gt g) (g_recs g) (g_hidden g) s) =
     map (fun j => masked_user (g_n_items g) (g_gt g) (g_recs g) (nth j ks 0) (nth (nth j ks 0) (g_hidden g) [])
                    (fun i => nth i (nth (nth j ks 0) s []) NegInf)) (seq 0 (length ks))).
  { unfold select. rewrite <- (map_nth_seq (fun k => nth k (masked_users _ _ _ _ s) d0) ks 0). apply map_ext_in. intros j Hj.
    apply in_seq in Hj. rewrite Forall_forall in Hks. assert (Hk : nth j ks 0 < length (g_gt g)) by (apply Hks, nth_In; lia).
    set (k := nth j ks 0) in *. unfold masked_users.
    set (f := fun u => masked_user (g_n_items g) (g_gt g) (g_recs g) u (nth u (g_hidden g) []) (fun i => nth i (nth u s []) NegInf)).
    rewrite (nth_indep _ d0 (f 0)) by (now rewrite map_length, seq_length). rewrite map_nth, seq_nth by auto. reflexivity. }
  rewrite E1. unfold masked_users at 1. rewrite select_length.
  assert (G : forall l, (forall j, In j l -> j < length ks) -> Forall2 same_ranking
     (map (fun j => masked_user (g_n_items g) (g_gt g) (g_recs g) (nth j ks 0) (nth (nth j ks 0) (g_hidden g) [])
                    (fun i => nth i (nth (nth j ks 0) s []) NegInf)) l)
     (map (fun u => masked_user (g_n_items g) (select [] ks (g_gt g)) (g_recs (g_select ks g)) u (nth u (g_hidden (g_select ks g)) [])
                    (fun i => nth i (nth u (select [] ks s) []) NegInf)) l)).
  2:{ apply G. intros j Hj. apply in_seq in Hj. lia. }
  induction l as [|j l IH]; intros Hl; cbn [map]; constructor; [|apply IH; intros; apply Hl; now right].
  specialize (Hl j (or_introl eq_refl)).
  assert (Hk : nth j ks 0 < length (g_gt g)) by (rewrite Forall_forall in Hks; apply Hks, nth_In; lia).
  assert (Ea : forall i, allowed (g_recs (g_select ks g)) j i = allowed (g_recs g) (nth j ks 0) i).
  { intros i. unfold g_recs. cbn [g_select g_rec g_per_user]. destruct (g_rec g) as [r|]; [reflexivity|].
    destruct (g_per_user g) as [p|]; [|reflexivity]. cbn [option_map].
    rewrite !allowed_per_user, select_nth; auto; [rewrite (Hper eq_refl p eq_refl); lia|now rewrite select_length]. }
  assert (Eh : nth j (g_hidden (g_select ks g)) [] = nth (nth j ks 0) (g_hidden g) []).
  { unfold g_hidden. cbn [g_select g_masked]. destruct (g_masked g) as [m|]; cbn [option_map sp_nz]; [now apply select_nth|].
    now destruct j, (nth _ ks 0). }
  unfold masked_user. rewrite !select_nth, Eh by auto.
  split; [|split].
  - cbn. apply filter_ext. intros i. now rewrite Ea.
  - cbn. apply filter_ext. intros i. now rewrite Ea.
  - intros i k _ _. tauto.
Qed.

Lemma select_perm {X} (d : X) ks l : Permutation ks (seq 0 (length l)) -> Permutation (select d ks l) l.
Proof.
  intros H. unfold select. rewrite (Permutation_map (fun k => nth k l d) H).
  pose proof (map_nth_seq (fun x : X => x) l d) as E. rewrite map_id in E. now rewrite E.
Qed.
Lemma g_users_length g s : length (g_users g s) = length (g_gt g).
Proof. unfold g_users, masked_users. now rewrite map_length, seq_length. Qed.

Lemma existsb_perm {X} (p : X -> bool) l l' : Permutation l l' -> existsb p l = existsb p l'.
Proof. induction 1; cbn; auto; try congruence. destruct (p x), (p y); auto. Qed.
Lemma catalog_users_perm n recs recs' : Permutation recs recs' -> catalog_size n recs = catalog_size n recs'.
Proof.
  intros H. unfold catalog_size. destruct recs as [|r recs], recs' as [|r' recs']; auto.
  - apply Permutation_nil in H. discriminate.
  - symmetry in H. apply Permutation_nil in H. discriminate.
  - f_equal. apply filter_ext. intros i. now apply existsb_perm.
Qed.
Lemma select_catalog g ev ks : config_ok g -> build g = Ok ev -> Permutation ks (seq 0 (length (g_gt g))) ->
  catalog_size (g_n_items g) (g_recs (g_select ks g)) = catalog_size (g_n_items g) (g_recs g).
Proof.
  intros HC HB HP. destruct (build_ok g ev HC HB) as (_ & _ & _ & _ & _ & _ & _ & _ & Hper & Hml).
  unfold g_recs. cbn [g_select g_rec g_per_user]. destruct (g_rec g); auto. destruct (g_per_user g) as [p|]; auto. cbn [option_map].
  apply catalog_users_perm, select_perm. now rewrite (Hper eq_refl p eq_refl).
Qed.

Lemma select_report g ev ks ev' d cutoffs xs xs' rs rs' :
  config_ok g -> build g = Ok ev -> config_ok (g_select ks g) -> build (g_select ks g) = Ok ev' ->
  scores_ok g d -> cutoffs_ok (g_n_items g) cutoffs -> launched xs -> launched xs' ->
  Permutation ks (seq 0 (length (g_gt g))) ->
  matrix_scores disc ev d cutoffs xs = Ok rs -> matrix_scores disc ev' (d_select ks d) cutoffs xs' = Ok rs' ->
  Forall2 same_result rs rs'.
Proof.
  intros HC HB HC' HB' HS Hcut Hx Hx' HP E E'.
  assert (Hks : Forall (fun k => k < length (g_gt g)) ks).
  { apply Forall_forall. intros k Hk. apply (Permutation_in _ HP) in Hk. apply in_seq in Hk. lia. }
  destruct (api_matrix g ev d cutoffs xs HC HB HS Hcut Hx) as (r1 & E1 & M1); [rewrite E; discriminate|].
  assert (HS' : scores_ok (g_select ks g) (d_select ks d)).
  { destruct HS as [W1 W2 W3]. constructor; cbn.
    - unfold dense_wf in *. cbn. apply Forall_forall. intros r Hr. unfold select in Hr. apply in_map_iff in Hr as (k & <- & Hk).
      rewrite Forall_forall in W1, Hks. apply W1, nth_In. rewrite W3. auto.
    - auto.
    - now rewrite !select_length. }
  destruct (api_matrix _ ev' _ cutoffs xs' HC' HB' HS' Hcut Hx') as (r2 & E2 & M2); [rewrite E'; discriminate|].
  rewrite E in E1. rewrite E' in E2. injection E1 as <-. injection E2 as <-.
  assert (M1' : means (g_select ks g) (g_users (g_select ks g) (d_rows (d_select ks d))) cutoffs rs).
  { eapply means_transfer; [apply (select_users g ev ks (d_rows d)); auto|].
    unfold means in *. cbn [g_select g_rwc g_n_items]. clear -M1 HP HC HB. induction M1 as [|c r cs rs Hr M1 IH]; constructor; auto.
    eapply evaluation_perm; [| |exact Hr].
    - symmetry. apply select_perm. now rewrite g_users_length.
    - symmetry. apply (select_catalog g ev ks HC HB HP). }
  eapply (means_unique (g_select ks g)); [|exact M1'|exact M2|reflexivity..]. apply masked_users_ok.
Qed.

(** Removing users without ground truth. *)
Lemma valid_select_filter keep g s :
  (forall u, u < length (g_gt g) -> keep u = false -> u_gt (nth u (g_users g s) (mkUser [] [] (fun _ => NegInf))) = []) ->
  valid_users (select (mkUser [] [] (fun _ => NegInf)) (filter keep (seq 0 (length (g_gt g)))) (g_users g s)) = valid_users (g_users g s).
Proof.
  intros H. set (d0 := mkUser [] [] (fun _ => NegInf)) in *. rewrite <- (g_users_length g s).
  rewrite <- (map_id (g_users g s)) at 3. rewrite <- (map_nth_seq (fun x => x) (g_users g s) d0).
  rewrite <- (g_users_length g s) in H. unfold select.
  assert (G : forall l, (forall u, In u l -> u < length (g_users g s)) ->
     valid_users (map (fun k => nth k (g_users g s) d0) (filter keep l)) = valid_users (map (fun k => nth k (g_users g s) d0) l)).
  { induction l as [|u l IH]; intros Hl; [reflexivity|]. cbn [filter map].
    specialize (IH (fun v Hv => Hl v (or_intror Hv))). specialize (Hl u (or_introl eq_refl)).
    destruct (keep u) eqn:Ek.
    - cbn [map]. unfold valid_users in *. cbn [filter]. now rewrite IH.
    - specialize (H u Hl Ek). rewrite IH. unfold valid_users. cbn [filter].
      assert (E : has_gt (nth u (g_users g s) d0) = false) by (unfold has_gt; now rewrite H). now rewrite E. }
  apply G. intros u Hu. apply in_seq in Hu. lia.
Qed.

Lemma drop_report g ev keep ev' d cutoffs xs xs' rs rs' :
  let ks := filter keep (seq 0 (length (g_gt g))) in
  config_ok g -> build g = Ok ev -> config_ok (g_select ks g) -> build (g_select ks g) = Ok ev' ->
  scores_ok g d -> cutoffs_ok (g_n_items g) cutoffs -> launched xs -> launched xs' ->
  (forall u, u < length (g_gt g) -> keep u = false ->
     forall i, In i (nth u (g_gt g) []) -> allowed (g_recs g) u i = false) ->
  matrix_scores disc ev d cutoffs xs = Ok rs -> matrix_scores disc ev' (d_select ks d) cutoffs xs' = Ok rs' ->
  Forall2 (fun r r' => same_but_total (fst r) (fst r') /\
     r_total_user (fst r) = length (g_gt g) /\ r_total_user (fst r') = length ks /\
     (g_per_user g = None -> same_coverage (snd r) (snd r'))) rs rs'.
Proof.
  intros ks HC HB HC' HB' HS Hcut Hx Hx' Hkeep E E'.
  assert (Hks : Forall (fun k => k < length (g_gt g)) ks).
  { apply Forall_forall. intros k Hk. apply filter_In in Hk as [Hk _]. apply in_seq in Hk. lia. }
  destruct (api_matrix g ev d cutoffs xs HC HB HS Hcut Hx) as (r1 & E1 & M1); [rewrite E; discriminate|].
  assert (HS' : scores_ok (g_select ks g) (d_select ks d)).
  { destruct HS as [W1 W2 W3]. constructor; cbn.
    - unfold dense_wf in *. cbn. apply Forall_forall. intros r Hr. unfold select in Hr. apply in_map_iff in Hr as (k & <- & Hk).
      rewrite Forall_forall in W1, Hks. apply W1, nth_In. rewrite W3. auto.
    - auto.
    - now rewrite !select_length. }
  destruct (api_matrix _ ev' _ cutoffs xs' HC' HB' HS' Hcut Hx') as (r2 & E2 & M2); [rewrite E'; discriminate|].
  rewrite E in E1. rewrite E' in E2. injection E1 as <-. injection E2 as <-.
  set (us := g_users g (d_rows d)) in *. set (us' := g_users (g_select ks g) (d_rows (d_select ks d))) in *.
  set (d0 := mkUser [] [] (fun _ => NegInf)).
  pose proof (select_users g ev ks (d_rows d) HC HB Hks) as HR. fold us us' d0 in HR.
  assert (HV : valid_users (select d0 ks us) = valid_users us).
  { apply valid_select_filter. intros u Hu Hk. specialize (Hkeep u Hu Hk). unfold g_users, masked_users.
    set (f := fun u => masked_user (g_n_items g) (g_gt g) (g_recs g) u (nth u (g_hidden g) []) (fun i => nth i (nth u (d_rows d) []) NegInf)).
    rewrite (nth_indep _ _ (f 0)) by (now rewrite map_length, seq_length). rewrite map_nth, seq_nth by auto.
    unfold f. cbn [masked_user u_gt Nat.add].
    match goal with |- filter ?p ?l = [] => assert (G : forall x, In x l -> p x = false) end.
    { intros i _. destruct (relevant (nth u (g_gt g) []) i) eqn:Er; cbn; auto. apply Hkeep. now apply relevant_true. }
    clear -G. induction (seq 0 (g_n_items g)) as [|a l IH]; cbn in *; auto. rewrite G by now left. apply IH. intros; apply G. now right. }
  assert (HN : Forall (fun u => NoDup (u_elig u)) us') by (eapply users_ok_elig, masked_users_ok).
  assert (HN0 : Forall (fun u => NoDup (u_elig u)) us) by (eapply users_ok_elig, masked_users_ok).
  assert (Lus : length us = length (g_gt g)) by apply g_users_length.
  assert (Lus' : length us' = length ks) by (unfold us'; rewrite g_users_length; cbn; apply select_length).
  unfold means in M1, M2. cbn [g_select g_rwc g_n_items] in M2. revert M2. clear -M1 HR HV HN HN0 Lus Lus'.
  intros M2. revert rs' M2. induction M1 as [|c r cs rs Hr M1 IH]; intros rs' M2; inversion M2 as [|? r' ? rs'' Hr' M2']; subst; constructor; auto.
  clear IH M1 M2 M2'. destruct Hr as [(t & T & R) C], Hr' as [(t' & T' & R') C'].
  assert (Et : tops_of c us' t).
  { eapply tops_transfer; [exact HR|]. unfold tops_of in *. rewrite HV. exact T. }
  assert (t' = t) by (rewrite (tops_of_unique _ _ _ HN Et); now apply tops_of_unique). subst t'.
  assert (HA : forall f, (average f us t == average f us' t)%Q).
  { intros f. transitivity (average f (select d0 ks us) t); [unfold average; rewrite HV; reflexivity|now apply average_transfer]. }
  assert (Lv : length (valid_users us) = length (valid_users us')).
  { rewrite <- HV. now apply (forall2_length same_ranking), same_ranking_valid. }
  destruct R as [R1 R2 R3 R4 R5 R6 R7 R8 R9 R10 R11], R' as [S1 S2 S3 S4 S5 S6 S7 S8 S9 S10 S11].
  split; [|split; [congruence|split; [congruence|]]].
  - constructor; try congruence.
    + now rewrite R4, S4, HA.
    + now rewrite R5, S5, HA.
    + now rewrite R6, S6, HA.
    + now rewrite R7, S7, HA.
    + now rewrite R8, S8, HA.
    + now rewrite R10, S10.
    + eapply shares_unique; eauto.
  - intros Ep. assert (Er : g_recs (g_select ks g) = g_recs g) by (unfold g_recs; cbn [g_select g_rec g_per_user]; now rewrite Ep).
    rewrite Er in C'. unfold same_coverage.
    destruct (snd r) as [q|], (snd r') as [q'|]; try (destruct C; congruence); try (destruct C'; congruence); auto.
    destruct C as [_ C], C' as [_ C']. rewrite C, C', R9, S9. reflexivity.
Qed.
End Disc.
