(** Constructor, merge trees, cold users. *)
From Coq Require Import QArith Lqa.
From Verif Require Import Base Sched_Model Sort_Proofs Eval_Spec EvalPy_Spec Eval_Proofs Eval_Core_Proofs Eval_Main_Proofs Eval_Facts_Proofs EvalPy_Proofs Eval_Derived_Proofs EvalApi_Proofs.
Local Open Scope nat_scope.

(** ** C11 *)
Lemma build_iff g : (exists ev, build g = Ok ev) <-> args_ok g.
Proof.
  unfold build, make_evaluator, args_ok, g_recs.
  assert (H : forall recs, (exists c, make_core (g_gt g) (g_n_items g) recs = Ok c) <-> recs_ok (length (g_gt g)) (g_n_items g) recs).
  { intros recs. split; [intros (c & E); now apply make_core_iff in E|].
    intros HR. exists (mkCore (g_gt g) (g_n_items g) (map (sort_by Nat.ltb) recs)). now apply make_core_iff. }
  assert (HM : forall c arg, (exists ev,
     (let mk m := mkEvaluator c (n_recommendable (g_n_items g) arg) (g_offset g) (length (g_gt g)) (g_n_items g) (g_threads g) (g_mb g) m (g_rwc g) in
      match g_masked g with
      | None => Ok (mk None)
      | Some m => if (length (sp_nz m) =? length (g_gt g)) && (sp_cols m =? g_n_items g) then Ok (mk (Some (sp_nz m))) else Fail ValueError
      end) = Ok ev) <-> (forall m, g_masked g = Some m -> length (sp_nz m) = length (g_gt g) /\ sp_cols m = g_n_items g)).
  { intros c arg. destruct (g_masked g) as [m|]; cbn zeta.
    - destruct (Nat.eqb_spec (length (sp_nz m)) (length (g_gt g))), (Nat.eqb_spec (sp_cols m) (g_n_items g)); cbn [andb];
        (split; [intros (ev & E); try discriminate; intros ? [= <-]; auto|intros HX; specialize (HX m eq_refl); try (eexists; reflexivity); exfalso; tauto]).
    - split; [intros _ m [=]|eexists; reflexivity]. }
  assert (HA : forall recs, (length recs = 0 \/ length recs = 1 \/ length recs = length (g_gt g)) ->
     (recs_ok (length (g_gt g)) (g_n_items g) recs <-> Forall (fun r => NoDup r /\ Forall (fun i => i < g_n_items g) r) recs)).
  { intros recs Hl. unfold recs_ok. tauto. }
  assert (G : forall recs, (length recs = 0 \/ length recs = 1 \/ length recs = length (g_gt g)) ->
    ((exists ev, obind (make_core (g_gt g) (g_n_items g) recs) (fun c =>
       let mk m := mkEvaluator c (n_recommendable (g_n_items g) recs) (g_offset g) (length (g_gt g)) (g_n_items g) (g_threads g) (g_mb g) m (g_rwc g) in
       match g_masked g with
       | None => Ok (mk None)
       | Some m => if (length (sp_nz m) =? length (g_gt g)) && (sp_cols m =? g_n_items g) then Ok (mk (Some (sp_nz m))) else Fail ValueError
       end) = Ok ev) <->
     Forall (fun r => NoDup r /\ Forall (fun i => i < g_n_items g) r) recs /\
     (forall m, g_masked g = Some m -> length (sp_nz m) = length (g_gt g) /\ sp_cols m = g_n_items g))).
  { intros recs Hl. rewrite <- (HA recs Hl), <- (H recs). destruct (make_core (g_gt g) (g_n_items g) recs) as [c| | |] eqn:Ec; cbn [obind].
    - rewrite (HM c recs). split; [intros; split; eauto|tauto].
    - split; [intros (? & ?); discriminate|intros [(? & ?) _]; discriminate].
    - split; [intros (? & ?); discriminate|intros [(? & ?) _]; discriminate].
    - split; [intros (? & ?); discriminate|intros [(? & ?) _]; discriminate]. }
  unfold recommendable_arg. destruct (g_rec g) as [r|].
  - cbn [obind]. rewrite (G [r]) by (cbn; auto). split; [intros [A B]; repeat split; auto; try discriminate; now apply B|tauto].
  - destruct (g_per_user g) as [p|].
    + destruct (Nat.eqb_spec (length p) (length (g_gt g))) as [E|E]; cbn [obind].
      * rewrite (G p) by auto. split; [intros [A B]; repeat split; auto; try (intros; congruence); now apply B|tauto].
      * split; [intros (? & ?); discriminate|]. intros [A _]. exfalso. apply E. now apply A.
    + cbn [obind]. rewrite (G []) by (cbn; auto). split; [intros [A B]; repeat split; auto; try discriminate; now apply B|tauto].
Qed.
Lemma build_error g : (exists ev, build g = Ok ev) \/ build g = Fail InvalidArgument \/ build g = Fail ValueError.
Proof.
  unfold build, make_evaluator, recommendable_arg.
  assert (G : forall recs, let x := obind (make_core (g_gt g) (g_n_items g) recs) (fun c =>
       let mk m := mkEvaluator c (n_recommendable (g_n_items g) recs) (g_offset g) (length (g_gt g)) (g_n_items g) (g_threads g) (g_mb g) m (g_rwc g) in
       match g_masked g with
       | None => Ok (mk None)
       | Some m => if (length (sp_nz m) =? length (g_gt g)) && (sp_cols m =? g_n_items g) then Ok (mk (Some (sp_nz m))) else Fail ValueError
       end) in (exists ev, x = Ok ev) \/ x = Fail InvalidArgument \/ x = Fail ValueError).
  { intros recs. cbn zeta. destruct (make_core (g_gt g) (g_n_items g) recs) as [c| | |] eqn:Ec.
    - cbn [obind]. destruct (g_masked g) as [m|]; [|left; eauto]. destruct (_ && _); [left; eauto|auto].
    - right; left. rewrite <- Ec. rewrite make_core_fails; [reflexivity|now rewrite Ec].
    - exfalso. assert (E : make_core (g_gt g) (g_n_items g) recs = Fail InvalidArgument) by (apply make_core_fails; now rewrite Ec). congruence.
    - exfalso. assert (E : make_core (g_gt g) (g_n_items g) recs = Fail InvalidArgument) by (apply make_core_fails; now rewrite Ec). congruence. }
  destruct (g_rec g) as [r|]; [apply (G [r])|]. destruct (g_per_user g) as [p|]; [|apply (G [])].
  destruct (_ =? _); [apply (G p)|auto].
Qed.

(** ** C13 *)
Lemma as_dict_meq a b : meq a b -> same_report (as_dict a) (as_dict b).
Proof.
  intros [E1 E2 E3 E4 E5 E6 E7 E8 E9]. unfold as_dict. rewrite E9.
  destruct (gini_loop _ _ _) as [ap gi]. rewrite E1, E2, E8.
  constructor; cbn [r_total_user r_valid_user r_n_items r_hit r_recall r_ndcg r_map r_precision r_appeared_item r_gini_index r_probs]; auto;
    try reflexivity; now rewrite ?E3, ?E4, ?E5, ?E6, ?E7.
Qed.
Lemma run_tree_msum n t : Forall (wf_metrics n) (parts t) -> meq (run_tree n t) (msum n (parts t)) /\ wf_metrics n (run_tree n t).
Proof.
  induction t as [|m|l IHl r IHr]; cbn [run_tree parts]; intros H.
  - split; [reflexivity|apply wf_empty].
  - inversion H; subst. split; auto. cbn. symmetry. now apply merge_empty_r.
  - apply Forall_app in H as [Hl Hr]. destruct (IHl Hl) as [E1 W1], (IHr Hr) as [E2 W2]. split; [|now apply wf_merge].
    rewrite E1, E2. symmetry. now apply msum_app.
Qed.
Lemma merge_trees n t1 t2 : Forall (wf_metrics n) (parts t1) -> Permutation (parts t1) (parts t2) ->
  meq (run_tree n t1) (run_tree n t2) /\ same_report (as_dict (run_tree n t1)) (as_dict (run_tree n t2)).
Proof.
  intros H HP. assert (H2 : Forall (wf_metrics n) (parts t2)) by (eapply Permutation_Forall; eauto).
  assert (E : meq (run_tree n t1) (run_tree n t2)).
  { rewrite (proj1 (run_tree_msum n t1 H)), (proj1 (run_tree_msum n t2 H2)). now apply msum_perm. }
  split; auto. now apply as_dict_meq.
Qed.

(** ** C16 *)
Section Cold.
Variable disc : nat -> Q.

Lemma build_cold_ok h ce : cold_config_ok h -> build_cold h = Ok ce ->
  let ev := ce_base ce in
  ev_ok ev (h_gt h) (h_recs h) (h_cols h) /\ e_n_rec ev = n_recommendable (h_cols h) (h_recs h) /\
  e_rwc ev = h_rwc h /\ e_mb_size ev = h_mb h /\ e_offset ev = 0 /\
  length (sp_nz (h_input h)) = length (h_gt h) /\
  ce_input ce = h_input h /\ ce_n_warm ce = h_warm h /\
  ce_n_cold ce = (match h_features h with None => 0 | Some k => k end) /\
  ce_features ce = (match h_features h with None => false | Some _ => true end) /\
  cold_mask ce = h_hidden h /\ mask_ok (h_cols h) (h_hidden h) /\
  h_cols h = h_warm h + (match h_features h with None => 0 | Some k => k end).
Proof.
  intros [Hr Hi Hm Hc Ht Hmb] HB. unfold build_cold, make_cold_evaluator in HB.
  destruct (Nat.eqb_spec (length (sp_nz (h_input h))) (length (h_gt h))) as [EL|]; [|discriminate]. cbn [negb] in HB.
  set (k := match h_features h with None => 0 | Some k => k end) in *.
  assert (Hcols : h_cols h = h_warm h + k /\ (match h_features h with None => false | Some k => negb (h_cols h =? sp_cols (h_input h) + k) end) = false).
  { unfold k in *. destruct (h_features h) as [k'|]; [|split; auto; rewrite Hc; auto].
    destruct (Nat.eqb_spec (h_cols h) (sp_cols (h_input h) + k')); [cbn; auto|discriminate]. }
  destruct Hcols as [Hcols E0]. rewrite E0 in HB.
  match type of HB with context[make_evaluator _ _ _ _ _ ?x] => set (mk := x) in * end.
  destruct (make_evaluator (h_gt h) (h_cols h) 0 (h_rec h) (h_per_user h) mk (h_threads h) (h_rwc h) (h_mb h)) as [ev| | |] eqn:EE; try discriminate.
  cbn [omap obind] in HB. injection HB as <-. cbn zeta. cbn [ce_base ce_input ce_n_warm ce_n_cold ce_features].
  set (g := mkConfig (h_gt h) (h_cols h) 0 (h_rec h) (h_per_user h) mk (h_threads h) (h_rwc h) (h_mb h)).
  assert (Emk : option_map sp_nz mk = option_map sp_nz (h_masked h)).
  { unfold mk. destruct (h_features h), (h_masked h); auto. destruct (_ && _); auto. }
  assert (Hmk : forall m, mk = Some m -> mask_ok (sp_cols m) (sp_nz m)).
  { intros m. unfold mk. destruct (h_features h) as [k'|]; [|apply Hm]. destruct (h_masked h) as [m'|] eqn:Em; [|discriminate].
    destruct (_ && _); [|apply Hm]. intros [= <-]. cbn. specialize (Hm m' eq_refl). unfold mask_ok in *.
    eapply Forall_impl; [|exact Hm]. intros r Hr'. eapply Forall_impl; [|exact Hr']. cbn. intros; lia. }
  assert (HC : config_ok g) by (constructor; cbn; auto).
  destruct (build_ok g ev HC EE) as (Hev & Hrec & Hrwc & Hmb' & Hoff & Hmm & Hmask & _).
  assert (Eh : cold_mask (mkCold ev (h_input h) (sp_cols (h_input h)) k (match h_features h with None => false | Some _ => true end) (sp_nz (h_input h))) = h_hidden h).
  { unfold cold_mask, h_hidden. cbn [ce_base ce_input_mask]. rewrite Hmm. cbn [g g_masked]. rewrite Emk. now destruct (h_masked h). }
  split; [exact Hev|]. split; [exact Hrec|]. do 8 (split; [now auto|]). split; [exact Eh|]. split; [|exact Hcols].
  unfold h_hidden. destruct (h_masked h) as [m|] eqn:Em.
  - unfold g_hidden in Hmask. cbn [g g_masked] in Hmask. destruct mk as [m'|]; [|discriminate]. cbn in Emk. injection Emk as <-. exact Hmask.
  - unfold mask_ok in *. eapply Forall_impl; [|exact Hi]. intros r Hr'. eapply Forall_impl; [|exact Hr']. cbn. intros. unfold h_warm in Hcols. lia.
Qed.

Definition cold_means h us := Forall2 (evaluation_means disc (h_rwc h) (h_cols h) (h_recs h) us).

Lemma api_cold_features h ce md F cutoffs xs :
  cold_config_ok h -> build_cold h = Ok ce -> cm_n_items md = h_warm h -> scores_features h md F ->
  cutoffs_ok (h_cols h) cutoffs -> launched xs -> cold_scores_from_model disc ce md cutoffs xs <> Pending ->
  exists rs, cold_scores_from_model disc ce md cutoffs xs = Ok rs /\ cold_means h (cold_users h F) cutoffs rs.
Proof.
  intros HC HB Hn (Hf & HL & f & Ef & HF) Hcut Hx Hp.
  destruct (build_cold_ok h ce HC HB) as (Hev & Hrec & Hrwc & Hmb & Hoff & Hin & E1 & E2 & E3 & E4 & E5 & Hmask & Hcols).
  destruct (cold_scores_spec disc ce (h_gt h) (h_recs h) (h_cols h) md F cutoffs xs) as (rs & E & H); auto.
  - rewrite Hmb. apply HC.
  - congruence.
  - now rewrite E1.
  - rewrite E4. destruct (h_features h) as [k|]; [|congruence]. rewrite Ef. right. intros l. eexists; split; [apply HF|].
    unfold pad_cold. cbn [d_cols d_rows]. rewrite E2, E3. destruct (Nat.eqb_spec (h_cols h) (h_warm h)), (Nat.eqb_spec k 0); cbn [andb negb]; auto. lia.
  - now rewrite E5.
  - exists rs. split; auto. unfold cold_means, cold_users. rewrite <- E5, <- E1, <- Hrwc. exact H.
Qed.

Lemma api_cold_warm h ce md W cutoffs xs :
  cold_config_ok h -> build_cold h = Ok ce -> cm_n_items md = h_warm h -> scores_warm h md W ->
  (h_features h = None \/ no_item_features md) ->
  cutoffs_ok (h_cols h) cutoffs -> launched xs -> cold_scores_from_model disc ce md cutoffs xs <> Pending ->
  exists rs, cold_scores_from_model disc ce md cutoffs xs = Ok rs /\ cold_means h (cold_users h (padded h W)) cutoffs rs.
Proof.
  intros HC HB Hn (HL & HW) Hf Hcut Hx Hp.
  destruct (build_cold_ok h ce HC HB) as (Hev & Hrec & Hrwc & Hmb & Hoff & Hin & E1 & E2 & E3 & E4 & E5 & Hmask & Hcols).
  assert (HP : forall l, pad_cold ce (cm_cold md l) = mkDense (h_cols h) (map (padded h W) l)).
  { intros l. rewrite HW. unfold pad_cold. cbn [d_cols d_rows]. rewrite E2, E3, Nat.eqb_refl. cbn [andb]. rewrite Hcols.
    unfold padded. destruct (h_features h) as [k|]; cbn [Nat.eqb negb].
    - destruct (Nat.eqb_spec k 0) as [->|]; cbn [negb].
      + rewrite Nat.add_0_r. f_equal. apply map_ext. intros r. cbn. now rewrite app_nil_r.
      + f_equal. rewrite map_map. reflexivity.
    - rewrite Nat.add_0_r. f_equal. apply map_ext. intros r. cbn. now rewrite app_nil_r. }
  destruct (cold_scores_spec disc ce (h_gt h) (h_recs h) (h_cols h) md (padded h W) cutoffs xs) as (rs & E & H); auto.
  - rewrite Hmb. apply HC.
  - congruence.
  - now rewrite E1.
  - intros r. unfold padded. rewrite app_length, repeat_length, HL. lia.
  - rewrite E4. unfold no_item_features in Hf. destruct (h_features h) as [k|]; [|exact HP].
    destruct Hf as [|Hf]; [discriminate|]. destruct (cm_feature md) as [f|]; [left; auto|exact HP].
  - now rewrite E5.
  - exists rs. split; auto. unfold cold_means, cold_users. rewrite <- E5, <- E1, <- Hrwc. exact H.
Qed.

(** A fair schedule: the evaluation answers. *)
Lemma cold_loop_returns ce md cutoffs xs be starts :
  (forall i j, fair_exec (length (c_rows (e_core (ce_base ce)))) (e_n_threads (ce_base ce)) (xs i j)) ->
  forall scorer ci ms, cold_loop disc ce md cutoffs xs scorer be ci starts ms <> Pending.
Proof.
  intros H. induction starts as [|s starts IH]; intros scorer ci ms; cbn [cold_loop]; [discriminate|].
  destruct (match scorer with Some _ => _ | None => _ end) as [d scorer'].
  apply obind_returns; [apply apply_mask_returns|]. intros d' _.
  apply obind_returns; [now apply merge_cutoffs_returns|auto].
Qed.
Lemma cold_returns h ce md cutoffs xs : cold_config_ok h -> build_cold h = Ok ce ->
  (forall i k, fair_exec (length (h_gt h)) (h_threads h) (xs i k)) -> cold_scores_from_model disc ce md cutoffs xs <> Pending.
Proof.
  intros HC HB HF.
  destruct (build_cold_ok h ce HC HB) as (Hev & _). destruct Hev as [_ Hc _ _ _]. apply make_core_iff in Hc as [Ec _].
  assert (e_n_threads (ce_base ce) = h_threads h) as Et.
  { clear -HB. unfold build_cold, make_cold_evaluator in HB. destruct (negb _); [discriminate|].
    destruct (match h_features h with None => false | Some _ => _ end); [discriminate|].
    destruct (make_evaluator _ _ _ _ _ _ _ _ _) as [ev| | |] eqn:E; try discriminate. cbn in HB. injection HB as <-. cbn [ce_base].
    apply make_evaluator_ok in E. destruct E as (recs & E). decompose [and] E. congruence. }
  unfold cold_scores_from_model. destruct (negb _); [discriminate|]. apply obind_returns.
  - unfold chunk_starts. destruct (_ =? 0)%Z; [discriminate|]. destruct (_ <? 0)%Z; discriminate.
  - intros starts _. apply obind_returns; [|discriminate]. apply cold_loop_returns. rewrite Et, Ec. exact HF.
Qed.

(** Feature-only items are never recommended. *)
Lemma cold_never h W c tops l i : (forall r, length (W r) = h_warm h) ->
  tops_of c (cold_users h (padded h W)) tops -> In l tops -> In i l -> i < h_warm h.
Proof.
  intros HL HT Hl Hi.
  assert (H : Forall (fun l => forall i, In i l -> i < h_warm h) tops).
  { unfold tops_of in HT.
    assert (G : forall us ts, (forall u, In u us -> forall i, In i (u_elig u) -> i < h_warm h) ->
       Forall2 (fun u l => is_top (u_score u) (u_elig u) c l) us ts -> Forall (fun l => forall i, In i l -> i < h_warm h) ts).
    { intros us ts Hus H. induction H as [|u t us ts Ht H IH]; constructor.
      - intros j Hj. apply (Hus u (or_introl eq_refl)). apply Ht, Hj.
      - apply IH. intros; eapply Hus; [right|]; eauto. }
    refine (G _ _ _ HT). intros u Hu j Hj. apply valid_in in Hu as [Hu _].
    apply in_map_iff in Hu as (k & <- & Hk). cbn in Hj. apply filter_In in Hj as [_ Hj]. apply andb_true_iff in Hj as [_ Hj].
    destruct (Nat.lt_ge_cases j (h_warm h)) as [|Hge]; auto. exfalso.
    assert (E : nth j (nth k (map (padded h W) (sp_nz (h_input h))) []) NegInf = NegInf).
    { destruct (Nat.lt_ge_cases k (length (sp_nz (h_input h)))) as [Hlt|Hge'].
      - rewrite (nth_indep _ [] (padded h W [])) by (now rewrite map_length). rewrite map_nth. unfold padded.
        rewrite app_nth2 by (rewrite HL; auto). apply nth_repeat.
      - rewrite (nth_overflow (map _ _)) by (now rewrite map_length). now destruct j. }
    rewrite E in Hj. discriminate. }
  rewrite Forall_forall in H. eapply H; eauto.
Qed.

Lemma filter_seq_extend (p : nat -> bool) n k : (forall i, n <= i -> p i = false) ->
  filter p (seq 0 (n + k)) = filter p (seq 0 n).
Proof.
  intros H. rewrite seq_app, filter_app. assert (E : filter p (seq (0 + n) k) = []).
  { cbn. assert (G : forall i, In i (seq n k) -> p i = false) by (intros i Hi; apply in_seq in Hi; apply H; lia).
    induction (seq n k) as [|a l IH]; cbn; auto. rewrite G by now left. apply IH. intros; apply G; now right. }
  now rewrite E, app_nil_r.
Qed.

Lemma report_extend rwc n k us tops r r' : Forall (Forall (fun i => i < n)) tops ->
  report_means disc rwc (n + k) us tops r -> report_means disc rwc n us tops r' -> same_accuracy r r'.
Proof.
  intros HB [A1 A2 A3 A4 A5 A6 A7 A8 A9 A10 A11] [B1 B2 B3 B4 B5 B6 B7 B8 B9 B10 B11].
  assert (HZ : forall i, n <= i -> times_recommended tops i = 0).
  { intros i Hi. unfold times_recommended. rewrite Forall_forall in HB.
    enough (filter (fun l => relevant l i) tops = []) as -> by reflexivity.
    assert (G : forall l, In l tops -> relevant l i = false).
    { intros l Hl. apply relevant_false. intros Hin. specialize (HB l Hl). rewrite Forall_forall in HB. specialize (HB i Hin). lia. }
    clear -G. induction tops as [|l tops IH]; cbn; auto. rewrite G by now left. apply IH. intros; apply G; now right. }
  assert (ES : map (times_recommended tops) (seq 0 (n + k)) = map (times_recommended tops) (seq 0 n) ++ repeat 0 k).
  { rewrite seq_app, map_app. f_equal. cbn. clear -HZ. assert (G : forall i, In i (seq n k) -> times_recommended tops i = 0) by (intros i Hi; apply in_seq in Hi; apply HZ; lia).
    revert G. generalize n. induction k as [|k IH]; intros n0 G; cbn; auto. rewrite G by now left. f_equal. apply IH. intros; apply G. now right. }
  constructor; try congruence.
  - now rewrite A4, B4.
  - now rewrite A5, B5.
  - now rewrite A6, B6.
  - now rewrite A7, B7.
  - now rewrite A8, B8.
  - rewrite A9, B9. now rewrite filter_seq_extend by (intros i Hi; rewrite (HZ i Hi); reflexivity).
  - rewrite ES in A11. apply (shares_unique _ _ _ ) with (2 := B11).
    destruct A11 as (cs & S1 & S2 & S3). exists cs. split; auto. split.
    + rewrite filter_app in S2. assert (E : filter (fun c => negb (c =? 0)) (repeat 0 k) = []) by (clear; induction k; cbn; auto).
      rewrite E, app_nil_r in S2. exact S2.
    + rewrite S3. apply map_ext. intros c. rewrite fold_right_app.
      assert (E : fold_right Nat.add 0 (repeat 0 k) = 0) by (clear; induction k; cbn; auto). now rewrite E.
Qed.

Lemma cold_accuracy h ce ce0 md W cutoffs xs xs' rs rs' :
  cold_config_ok h -> build_cold h = Ok ce -> cold_config_ok (without_features h) -> build_cold (without_features h) = Ok ce0 ->
  cm_n_items md = h_warm h -> scores_warm h md W -> no_item_features md ->
  Forall (Forall (fun i => i < h_warm h)) (h_gt h) ->
  cutoffs_ok (h_warm h) cutoffs -> launched xs -> launched xs' ->
  cold_scores_from_model disc ce md cutoffs xs = Ok rs ->
  cold_scores_from_model disc ce0 md cutoffs xs' = Ok rs' ->
  Forall2 (fun r r' => same_accuracy (fst r) (fst r')) rs rs'.
Proof.
  intros HC HB HC0 HB0 Hn HW Hf Hgt Hcut Hx Hx' E E'.
  destruct (build_cold_ok h ce HC HB) as (_ & _ & _ & _ & _ & _ & _ & _ & _ & _ & _ & _ & Hcols).
  set (k := match h_features h with None => 0 | Some k => k end) in *.
  assert (Hcut' : cutoffs_ok (h_cols h) cutoffs) by (unfold cutoffs_ok in *; eapply Forall_impl; [|exact Hcut]; cbn; intros; lia).
  destruct (api_cold_warm h ce md W cutoffs xs HC HB Hn HW (or_intror Hf) Hcut' Hx) as (r1 & E1 & M1); [rewrite E; discriminate|].
  destruct (api_cold_warm (without_features h) ce0 md W cutoffs xs' HC0 HB0 Hn HW (or_intror Hf) Hcut Hx') as (r2 & E2 & M2); [rewrite E'; discriminate|].
  rewrite E in E1. rewrite E' in E2. injection E1 as <-. injection E2 as <-.
  set (us := cold_users h (padded h W)) in *.
  set (us0 := cold_users (without_features h) (padded (without_features h) W)) in *.
  assert (HR : Forall2 same_ranking us us0).
  { unfold us, us0, cold_users, masked_users. cbn [without_features h_cols h_gt h_input h_hidden]. 
    change (h_recs (without_features h)) with (h_recs h). change (h_hidden (without_features h)) with (h_hidden h).
    rewrite Hcols. destruct HW as [HL _].
    induction (seq 0 (length (h_gt h))) as [|u l IH]; cbn [map]; constructor; auto.
    assert (ES : forall i, nth i (nth u (map (padded h W) (sp_nz (h_input h))) []) NegInf =
                           nth i (nth u (map (padded (without_features h) W) (sp_nz (h_input h))) []) NegInf).
    { intros i. destruct (Nat.lt_ge_cases u (length (sp_nz (h_input h)))) as [Hlt|Hge].
      - rewrite (nth_indep _ [] (padded h W [])) by (now rewrite map_length).
        rewrite (nth_indep (map (padded (without_features h) W) _) [] (padded (without_features h) W [])) by (now rewrite map_length).
        rewrite !map_nth. unfold padded. cbn [without_features h_features repeat]. rewrite app_nil_r.
        set (r := nth u (sp_nz (h_input h)) []). destruct (Nat.lt_ge_cases i (length (W r))).
        + now rewrite app_nth1.
        + rewrite app_nth2, nth_repeat by auto. now rewrite nth_overflow.
      - rewrite !(nth_overflow (map _ _)) by (now rewrite map_length). reflexivity. }
    assert (EN : forall i, h_warm h <= i -> nth i (nth u (map (padded h W) (sp_nz (h_input h))) []) NegInf = NegInf).
    { intros i Hi. rewrite ES. destruct (Nat.lt_ge_cases u (length (sp_nz (h_input h)))) as [Hlt|Hge].
      - rewrite (nth_indep _ [] (padded (without_features h) W [])) by (now rewrite map_length). rewrite map_nth.
        unfold padded. cbn [without_features h_features repeat]. rewrite app_nil_r. apply nth_overflow. rewrite HL. auto.
      - rewrite (nth_overflow (map _ _)) by (now rewrite map_length). now destruct i. }
    split; [|split].
    - cbn. apply filter_seq_extend. intros i Hi. apply andb_false_iff. left. apply relevant_false. intros Hin.
      rewrite Forall_forall in Hgt. destruct (Nat.lt_ge_cases u (length (h_gt h))) as [Hlt|Hge].
      + specialize (Hgt _ (nth_In _ [] Hlt)). rewrite Forall_forall in Hgt. specialize (Hgt i Hin). lia.
      + rewrite nth_overflow in Hin by auto. destruct Hin.
    - cbn. rewrite filter_seq_extend.
      + apply filter_ext. intros i. now rewrite ES.
      + intros i Hi. rewrite EN by auto. apply andb_false_r.
    - intros i j _ _. unfold better. cbn [u_score masked_user]. rewrite !ES. tauto. }
  assert (HN0 : Forall (user_ok (h_warm h)) us0) by (unfold us0, cold_users; apply masked_users_ok).
  unfold cold_means in *. cbn [without_features h_rwc h_cols] in M2. change (h_recs (without_features h)) with (h_recs h) in M2.
  revert M2. clear -M1 HR HN0 Hcols. intros M2. revert rs' M2.
  induction M1 as [|c r cs rs Hr M1 IH]; intros rs' M2; inversion M2 as [|? r' ? rs'' Hr' M2']; subst; constructor; auto.
  clear IH M1 M2 M2'. destruct Hr as [(t & T & R) _], Hr' as [(t' & T' & R') _].
  apply (tops_transfer _ _ _ _ HR) in T. apply (report_transfer disc _ _ _ _ _ _ HR) in R.
  assert (t' = t).
  { rewrite (tops_of_unique _ _ _ (users_ok_elig _ _ HN0) T). apply tops_of_unique; auto. eapply users_ok_elig; eauto. }
  subst t'. rewrite Hcols in R. refine (report_extend (h_rwc h) (h_warm h) k us0 t _ _ _ R R').
  assert (HT := tops_wf (h_warm h) c us0 t HN0 T). eapply Forall_impl; [|exact HT]. now intros l [_ H].
Qed.
End Cold.
