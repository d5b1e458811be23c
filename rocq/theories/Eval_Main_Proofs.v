(** get_metrics and as_dict against the textbook report. *)
From Coq Require Import Setoid Morphisms Lqa.
From Verif Require Import Base Sched_Model Sched_Proofs Eval_Model Eval_Spec Sort_Proofs Eval_Proofs Eval_Core_Proofs.
Local Open Scope nat_scope.

(** * Dependence on the ground truth as a set only *)
Lemma relevant_ext l l' i : (In i l <-> In i l') -> relevant l i = relevant l' i.
Proof. intros H. unfold relevant. destruct (in_dec _ i l), (in_dec _ i l'); tauto. Qed.
Lemma relevant_perm l l' i : Permutation l l' -> relevant l i = relevant l' i.
Proof. intros HP. apply relevant_ext. split; apply Permutation_in; auto. now symmetry. Qed.
Lemma n_hits_perm recs gt gt' : Permutation gt gt' -> n_hits recs gt = n_hits recs gt'.
Proof. intros HP. unfold n_hits. f_equal. apply filter_ext. intros; now apply relevant_perm. Qed.
Lemma dcg_perm disc recs gt gt' : Permutation gt gt' -> dcg_of disc recs gt = dcg_of disc recs gt'.
Proof.
  intros HP. unfold dcg_of, sum_upto. f_equal. apply map_ext. intros i. now rewrite (relevant_perm _ _ _ HP).
Qed.
Lemma contrib_perm disc n rwc recs gt gt' : Permutation gt gt' ->
  contrib disc n rwc recs gt = contrib disc n rwc recs gt'.
Proof.
  intros HP. unfold contrib, hit_of, recall_of, ndcg_of, precision_of, idcg_of, ap_of.
  rewrite (n_hits_perm recs _ _ HP), (dcg_perm disc recs _ _ HP), (Permutation_length HP).
  f_equal. f_equal. unfold sum_upto. f_equal. apply map_ext. intros i.
  now rewrite (relevant_perm _ _ _ HP), (n_hits_perm _ _ _ HP).
Qed.

Lemma concat_nth {X} n (ls : list (list X)) k i d :
  Forall (fun r => length r = n) ls -> k < length ls -> i < n ->
  nth (n * k + i) (concat ls) d = nth i (nth k ls []) d.
Proof.
  intros HF; revert k; induction HF as [|l ls Hl HF IH]; intros k Hk Hi; cbn [length] in Hk; [lia|].
  cbn [concat]. destruct k as [|k].
  - rewrite Nat.mul_0_r, app_nth1 by lia. reflexivity.
  - rewrite app_nth2 by (rewrite Hl; lia). cbn [nth]. rewrite <- IH by lia. f_equal. rewrite Hl. lia.
Qed.
Lemma concat_length_const {X} n (ls : list (list X)) :
  Forall (fun r => length r = n) ls -> length (concat ls) = n * length ls.
Proof. induction 1 as [|l ls Hl HF IH]; cbn; [lia|]. rewrite app_length, IH, Hl. lia. Qed.

Section Main.
Variable disc : nat -> Q.
Variable rwc : bool.
Variable cutoff : nat.

Definition u_top (u : user) : list nat := top_list (u_score u) (u_elig u) cutoff.
Definition u_contrib (n : nat) (u : user) : metrics :=
  if has_gt u then contrib disc n rwc (u_top u) (u_gt u) else contrib0 n.

Lemma wf_u_contrib n u : wf_metrics n (u_contrib n u).
Proof. unfold u_contrib. destruct (has_gt u); [apply wf_contrib|apply wf_contrib0]. Qed.
Lemma wf_u_contribs n us : Forall (wf_metrics n) (map (u_contrib n) us).
Proof. apply Forall_forall. intros m Hm. apply in_map_iff in Hm as (u & <- & _). apply wf_u_contrib. Qed.

Lemma top_list_ext sc sc' elig k : (forall i, In i elig -> sc i = sc' i) -> top_list sc elig k = top_list sc' elig k.
Proof.
  intros H. unfold top_list. f_equal. apply sort_by_ext. intros x y Hx Hy.
  unfold better_b, sc_pair. now rewrite (H x Hx), (H y Hy).
Qed.

Lemma elig_nodup n rows recs u sc : NoDup (u_elig (user_of n rows recs u sc)).
Proof. cbn. apply NoDup_filter, seq_NoDup. Qed.

(** One fetched row. *)
Lemma row_work_contrib n rows recs (Hrows : rows_ok n rows) (Hrecs : recs_ok (length rows) n recs)
   table scores offset k m :
  let c := mkCore rows n (map (sort_by Nat.ltb) recs) in
  let us := users_of n rows recs offset scores in
  0 < cutoff -> 
  Forall (fun r => length r = n) scores ->
  k < length scores -> offset + k < length rows ->
  nth_error table (offset + k) = Some (gt_set c (offset + k)) ->
  wf_metrics n m ->
  exists m', row_work disc c table (concat scores) cutoff offset rwc k (Ok m) = Ok m' /\
    meq m' (merge m (u_contrib n (nth k us (mkUser [] [] (fun _ => NegInf))))).
Proof.
  intros c us Hcut Hsc Hk Hu Ht Hwf.
  set (sc := fun i => nth i (nth k scores []) NegInf).
  assert (Hus : nth k us (mkUser [] [] (fun _ => NegInf)) = user_of n rows recs (offset + k) sc).
  { unfold us, users_of. rewrite (nth_indep _ _ (user_of n rows recs (offset + 0) (fun i => nth i (nth 0 scores []) NegInf)))
      by (now rewrite map_length, seq_length).
    rewrite (map_nth (fun k => user_of n rows recs (offset + k) (fun i => nth i (nth k scores []) NegInf))).
    rewrite seq_nth by auto. reflexivity. }
  rewrite Hus. set (u := user_of n rows recs (offset + k) sc).
  unfold row_work. cbn [obind]. rewrite (Nat.add_comm k offset), Ht.
  pose proof (gt_set_perm rows n recs (offset + k) sc Hrows) as HP. fold c u in HP.
  destruct (gt_set c (offset + k)) as [|g gs] eqn:Eg.
  - assert (E : has_gt u = false).
    { unfold has_gt. rewrite <- (Permutation_length HP). reflexivity. }
    unfold u_contrib. rewrite E. eexists; split; [reflexivity|]. now apply increment_contrib0.
  - assert (E : has_gt u = true).
    { unfold has_gt. rewrite <- (Permutation_length HP). reflexivity. }
    unfold u_contrib. rewrite E.
    destruct (offered_items_spec rows n recs (offset + k) Hrecs) as [HoN HoI]. fold c in HoN, HoI.
    rewrite ranking_top; auto.
    2:{ apply Forall_forall. intros i Hi. apply HoI in Hi. cbn [c c_n_items].
        rewrite (concat_length_const n) by auto. nia. }
    cbn [obind]. cbn [c c_n_items].
    set (sc' := fun i => nth (n * k + i) (concat scores) NegInf).
    set (elig' := filter _ _).
    assert (Hsc' : forall i, i < n -> sc' i = sc i).
    { intros i Hi. unfold sc', sc. apply concat_nth; auto. }
    assert (Helig : Permutation elig' (u_elig u)).
    { apply NoDup_Permutation.
      - unfold elig'. now apply NoDup_filter.
      - apply elig_nodup.
      - intros i. unfold elig'. cbn [u u_elig user_of]. rewrite !filter_In, HoI, in_seq, andb_true_iff.
        split.
        + intros [[H1 H2] H3]. change (not_neginf (sc' i) = true) in H3. rewrite Hsc' in H3 by auto. repeat split; auto; lia.
        + intros [[_ H1] [H2 H3]]. change (((i < n /\ allowed recs (offset + k) i = true) /\ not_neginf (sc' i) = true)). rewrite Hsc' by lia. repeat split; auto. }
    assert (Htop : top_list sc' elig' cutoff = u_top u).
    { unfold u_top. rewrite (top_list_perm sc' elig' (u_elig u)).
      - apply top_list_ext. intros i Hi. cbn [u u_elig user_of u_score] in *. apply filter_In in Hi as [Hi _].
        apply in_seq in Hi. apply Hsc'. lia.
      - unfold elig'. now apply NoDup_filter.
      - auto. }
    rewrite Htop. rewrite <- (contrib_perm disc n rwc (u_top u) _ _ HP).
    pose proof (top_list_is_top (u_score u) (u_elig u) cutoff (elig_nodup _ _ _ _ _)) as HT. fold (u_top u) in HT.
    assert (HF : Forall (fun r => r < n) (u_top u)).
    { apply Forall_forall. intros i Hi. apply (top_incl _ _ _ _ HT) in Hi. cbn [u u_elig user_of] in Hi.
      apply filter_In in Hi as [Hi _]. apply in_seq in Hi. lia. }
    apply update_contrib; auto; [discriminate|].
    rewrite <- (seq_length n 0). apply NoDup_incl_length.
    + eapply is_top_nodup; eauto.
    + intros i Hi. apply in_seq. rewrite Forall_forall in HF. specialize (HF _ Hi). lia.
Qed.

Lemma fold_work n (lw : nat -> outcome metrics -> outcome metrics) (f : nat -> metrics) N :
  (forall k, wf_metrics n (f k)) ->
  (forall k m, k < N -> wf_metrics n m -> exists m', lw k (Ok m) = Ok m' /\ meq m' (merge m (f k))) ->
  forall log m, Forall (fun k => k < N) log -> wf_metrics n m ->
  exists m', fold_left (fun a r => lw r a) log (Ok m) = Ok m' /\ meq m' (merge m (msum n (map f log))).
Proof.
  intros Hf Hlw log; induction log as [|k log IH]; intros m HF Hwf; cbn [fold_left map].
  - exists m; split; auto. symmetry. now apply merge_empty_r.
  - inversion HF as [|? ? Hk HF']; subst. destruct (Hlw k m Hk Hwf) as (m1 & E1 & Hm1). rewrite E1.
    assert (Hwf1 : wf_metrics n m1) by (eapply wf_meq; [symmetry; exact Hm1|]; now apply wf_merge).
    destruct (IH m1 HF' Hwf1) as (m2 & E2 & Hm2). exists m2; split; auto.
    rewrite Hm2, Hm1. rewrite merge_assoc_l. reflexivity.
Qed.

Lemma merge_workers_msum n (ws : list (worker (outcome metrics))) (ms : list metrics) :
  Forall (wf_metrics n) ms ->
  Forall2 (fun w m => exists m', w_acc w = Ok m' /\ meq m' m) ws ms ->
  exists m, merge_workers n ws = Ok m /\ meq m (msum n ms).
Proof.
  intros Hwf H. unfold merge_workers.
  enough (G : forall m0, wf_metrics n m0 ->
     exists m, ofold (fun acc w => omap (merge acc) (w_acc w)) ws m0 = Ok m /\ meq m (merge m0 (msum n ms))).
  { destruct (G (empty_metrics n) (wf_empty n)) as (m & E & Hm). exists m; split; auto.
    rewrite Hm. apply merge_empty_l. now apply wf_msum. }
  induction H as [|w m1 ws ms (m' & E & Hm) H IH]; intros m0 Hm0; cbn [ofold].
  - exists m0; split; auto. symmetry; now apply merge_empty_r.
  - inversion Hwf as [|? ? Hw1 Hws]; subst. rewrite E. cbn [omap obind].
    destruct (IH Hws (merge m0 m')) as (m2 & E2 & Hm2).
    { apply wf_merge; auto. eapply wf_meq; [symmetry|]; eauto. }
    exists m2; split; auto. rewrite Hm2, merge_assoc_l, Hm. reflexivity.
Qed.

(** A completed pool whose work is a contribution per index. *)
Lemma pool_msum n N (lw : nat -> outcome metrics -> outcome metrics) (f : nat -> metrics) k sched :
  1 <= k ->
  (forall i, wf_metrics n (f i)) ->
  (forall i m, i < N -> wf_metrics n m -> exists m', lw i (Ok m) = Ok m' /\ meq m' (merge m (f i))) ->
  let p := run_pool N 1 lw (fun _ x => x) sched (init_pool k (Ok (empty_metrics n)) tt) in
  completed p = true ->
  exists m, merge_workers n (p_workers p) = Ok m /\ meq m (msum n (map f (seq 0 N))).
Proof.
  intros Hk Hf Hlw p Hc. unfold p in *.
  destruct (pool_exactly_once _ _ _ _ _ _ _ _ (le_n 1) Hk Hc) as (logs & _ & _ & HP & _ & Hacc & _).
  set (p0 := run_pool _ _ _ _ _ _) in *. clearbody p0. clear p Hc.
  assert (HB : Forall (Forall (fun i => i < N)) logs).
  { apply Forall_forall. intros log Hl. apply Forall_forall. intros i Hi.
    assert (Hin : In i (seq 0 N)) by (eapply Permutation_in; [exact HP|]; apply in_concat; eauto).
    apply in_seq in Hin. lia. }
  set (ms := map (fun log => msum n (map f log)) logs).
  assert (Hwfs : forall log, Forall (wf_metrics n) (map f log)).
  { intros log. apply Forall_forall. intros m Hm. apply in_map_iff in Hm as (i & <- & _); auto. }
  assert (Hms : Forall (wf_metrics n) ms).
  { apply Forall_forall. intros m Hm. unfold ms in Hm. apply in_map_iff in Hm as (log & <- & _).
    apply wf_msum, Hwfs. }
  destruct (merge_workers_msum n (p_workers p0) ms Hms) as (m & E & Hm).
  { unfold ms. clear -Hacc HB Hlw Hf. revert logs Hacc HB. induction (p_workers p0) as [|w ws IH]; intros logs Hacc HB.
    - destruct logs; [constructor|discriminate].
    - destruct logs as [|log logs]; [discriminate|]. cbn [map] in *. injection Hacc as Hw Hws.
      inversion HB as [|? ? HB1 HB2]; subst. constructor; [|apply IH; auto].
      rewrite Hw. destruct (fold_work n lw f N Hf Hlw log (empty_metrics n) HB1 (wf_empty n)) as (m' & E & Hm).
      exists m'; split; auto. rewrite Hm. apply merge_empty_l. apply wf_msum.
      apply Forall_forall. intros x Hx. apply in_map_iff in Hx as (i & <- & _); auto. }
  exists m; split; auto. rewrite Hm. unfold ms.
  rewrite <- map_map with (f := map f) (g := msum n).
  rewrite <- msum_concat.
  - rewrite concat_map with (f := f) || rewrite <- concat_map. apply msum_perm; auto.
    now apply Permutation_map.
  - apply Forall_forall. intros l Hl. apply in_map_iff in Hl as (log & <- & _). apply Hwfs.
Qed.

Lemma users_of_length n rows recs offset scores : length (users_of n rows recs offset scores) = length scores.
Proof. unfold users_of. now rewrite map_length, seq_length. Qed.

Lemma map_nth_seq {X Y} (f : X -> Y) (l : list X) d : map (fun k => f (nth k l d)) (seq 0 (length l)) = map f l.
Proof.
  induction l as [|a l IH]; cbn [length seq map nth]; auto. f_equal. rewrite <- seq_shift, map_map. exact IH.
Qed.

Record valid_call (n : nat) (rows : list (list nat)) (offset n_threads : nat) (scores : list (list score)) : Prop := {
  vc_shape : Forall (fun r => length r = n) scores;
  vc_offset : offset < length rows;
  vc_end : offset + length scores <= length rows;
  vc_cut : 0 < cutoff <= n;
  vc_thr : 1 <= n_threads }.

Definition buffer_of (scores : list (list score)) : score_buffer := mkBuffer (length scores) (concat scores).

(** get_metrics, every execution. *)
Lemma get_metrics_msum n rows recs c scores offset n_threads x :
  rows_ok n rows -> make_core rows n recs = Ok c ->
  valid_call n rows offset n_threads scores ->
  1 <= x_launched x ->
  get_metrics disc c (buffer_of scores) cutoff offset n_threads rwc x <> Pending ->
  exists m, get_metrics disc c (buffer_of scores) cutoff offset n_threads rwc x = Ok m /\
    meq m (msum n (map (u_contrib n) (users_of n rows recs offset scores))).
Proof.
  intros Hrows Hmk [Hsh Hoff Hend Hcut Hthr] Hx Hfin.
  apply make_core_iff in Hmk as [Hc Hrecs].
  revert Hfin. unfold get_metrics, check_arg, await. subst c. cbn [c_rows c_n_items b_rows b_data buffer_of] in *.
  destruct (Nat.ltb_spec 0 n_threads); [|lia].
  destruct (completed (cache_pool _ _ _)) eqn:Hf1; [|congruence].
  destruct (cache_table _ _ _ Hx Hf1) as [Htl Htn]. cbn [c_rows] in *.
  destruct (Nat.ltb_spec offset (length rows)); [|lia].
  destruct (Nat.leb_spec (offset + length scores) (length rows)); [|lia].
  destruct (Nat.ltb_spec 0 cutoff); [|lia].
  destruct (Nat.leb_spec cutoff n); [|lia].
  destruct (completed (metric_pool _ _ _ _ _ _ _ _ _)) eqn:Hf2; [|congruence].
  intros _. unfold metric_pool in *. cbn [c_rows c_n_items b_rows b_data buffer_of] in *.
  set (us := users_of n rows recs offset scores).
  set (d := mkUser [] [] (fun _ => NegInf)).
  destruct (pool_msum n (length scores) (row_work disc (mkCore rows n (map (sort_by Nat.ltb) recs))
      (cache_X_map (mkCore rows n (map (sort_by Nat.ltb) recs)) (x_launched x) (x_cache_sched x))
      (concat scores) cutoff offset rwc) (fun k => u_contrib n (nth k us d)) n_threads (x_sched x))
    as (m & E & Hm); auto.
  - intros; apply wf_u_contrib.
  - intros i m Hi Hwf. apply row_work_contrib; auto; try lia. apply Htn. lia.
  - exists m; split; [exact E|]. rewrite Hm. rewrite <- (users_of_length n rows recs offset scores). fold us.
    rewrite (map_nth_seq (u_contrib n)). reflexivity.
Qed.

(** * The sums *)
Lemma msum_field n (fld : metrics -> Q) (g : user -> Q) us :
  (forall a b, fld (merge a b) == fld a + fld b)%Q -> (fld (empty_metrics n) == 0)%Q ->
  (forall u, has_gt u = true -> fld (u_contrib n u) == g u)%Q ->
  (forall u, has_gt u = false -> fld (u_contrib n u) == 0)%Q ->
  (fld (msum n (map (u_contrib n) us)) == total g (valid_users us))%Q.
Proof.
  intros H1 H2 H3 H4. induction us as [|u us IH]; [exact H2|].
  change (msum n (map (u_contrib n) (u :: us))) with (merge (u_contrib n u) (msum n (map (u_contrib n) us))).
  rewrite H1, IH. cbn [valid_users filter]. destruct (has_gt u) eqn:E.
  - rewrite H3 by auto. reflexivity.
  - rewrite H4 by auto. fold (valid_users us). ring.
Qed.

Lemma msum_users n us :
  m_valid_user (msum n (map (u_contrib n) us)) = length (valid_users us) /\
  m_total_user (msum n (map (u_contrib n) us)) = length us /\
  m_n_item (msum n (map (u_contrib n) us)) = n.
Proof.
  induction us as [|u us (IH1 & IH2 & IH3)]; [repeat split|].
  change (msum n (map (u_contrib n) (u :: us))) with (merge (u_contrib n u) (msum n (map (u_contrib n) us))).
  cbn [merge m_valid_user m_total_user m_n_item]. rewrite IH1, IH2. cbn [valid_users filter length]. fold (valid_users us).
  unfold u_contrib. destruct (has_gt u); cbn; auto.
Qed.

Lemma count_occ_nodup l i : NoDup l -> count_occ Nat.eq_dec l i = if relevant l i then 1 else 0.
Proof.
  intros H. unfold relevant. destruct (in_dec _ i l) as [Hi|Hi].
  - now apply NoDup_count_occ'.
  - now apply count_occ_not_In.
Qed.

Lemma u_top_nodup u : NoDup (u_elig u) -> NoDup (u_top u).
Proof. intros H. eapply is_top_nodup, top_list_is_top, H. Qed.

Lemma msum_counts n us : Forall (fun u => NoDup (u_elig u)) us ->
  m_item_cnt (msum n (map (u_contrib n) us)) =
  map (times_recommended (map u_top (valid_users us))) (seq 0 n).
Proof.
  intros HN. apply nth_ext0.
  { destruct (wf_msum n (map (u_contrib n) us)) as [_ ->]; [apply wf_u_contribs|]. now rewrite map_length, seq_length. }
  intros j. rewrite nth_map_seq0. induction HN as [|u us Hu HN IH].
  - cbn [map msum fold_right empty_metrics m_item_cnt]. rewrite nth_repeat. destruct (j <? n); reflexivity.
  - change (msum n (map (u_contrib n) (u :: us))) with (merge (u_contrib n u) (msum n (map (u_contrib n) us))).
    cbn [merge m_item_cnt]. rewrite nth_map2_add.
    2:{ destruct (wf_msum n (map (u_contrib n) us)) as [_ ->]; [apply wf_u_contribs|].
        now destruct (wf_u_contrib n u) as [_ ->]. }
    rewrite IH. cbn [valid_users filter]. fold (valid_users us). unfold u_contrib. destruct (has_gt u).
    + cbn [contrib m_item_cnt map]. rewrite nth_map_seq0. destruct (j <? n); [|reflexivity].
      rewrite count_occ_nodup by (now apply u_top_nodup).
      unfold times_recommended. cbn [filter]. destruct (relevant (u_top u) j); reflexivity.
    + cbn [contrib0 m_item_cnt]. rewrite nth_repeat. reflexivity.
Qed.

(** * Gini and the number of distinct recommended items *)
Local Open Scope Z_scope.
Definition zsum (l : list nat) : Z := fold_right Z.add 0 (map Z.of_nat l).
Fixpoint wsum (l : list nat) : Z := match l with [] => 0 | a :: l' => wsum l' + zsum l' end.

Lemma gini_loop_snd rows l : forall i, snd (gini_loop rows i l) = 2 * wsum l + (2 * i - rows + 1) * zsum l.
Proof.
  induction l as [|c l IH]; intros i; cbn [gini_loop].
  - cbn. lia.
  - destruct (gini_loop rows (i + 1) l) as [a g] eqn:E.
    assert (Hg : g = 2 * wsum l + (2 * (i + 1) - rows + 1) * zsum l) by (rewrite <- IH, E; reflexivity).
    change (zsum (c :: l)) with (Z.of_nat c + zsum l). change (wsum (c :: l)) with (wsum l + zsum l).
    destruct (Nat.eqb_spec c 0) as [->|Hc]; cbn [snd]; rewrite Hg; lia.
Qed.
Lemma gini_loop_fst rows l : forall i, fst (gini_loop rows i l) = length (filter (fun c => negb (c =? 0)%nat) l).
Proof.
  induction l as [|c l IH]; intros i; cbn [gini_loop filter]; auto.
  specialize (IH (i + 1)). destruct (gini_loop rows (i + 1) l) as [a g].
  destruct (c =? 0)%nat; cbn [fst negb length] in *; auto.
Qed.

Definition absum (a : nat) (l : list nat) : Z := fold_right Z.add 0 (map (fun b => Z.abs (Z.of_nat a - Z.of_nat b)) l).
Definition diffsum (l l' : list nat) : Z := fold_right Z.add 0 (map (fun a => absum a l') l).

Lemma zadd_perm l l' : Permutation l l' -> fold_right Z.add 0 l = fold_right Z.add 0 l'.
Proof. induction 1; cbn; lia. Qed.
Lemma diffsum_perm l l' : Permutation l l' -> diffsum l l = diffsum l' l'.
Proof.
  intros HP. unfold diffsum. rewrite (zadd_perm _ (map (fun a => absum a l) l')) by (now apply Permutation_map).
  f_equal. apply map_ext. intros a. unfold absum. apply zadd_perm. now apply Permutation_map.
Qed.
Lemma absum_low a l : Forall (fun b => (a <= b)%nat) l -> absum a l = zsum l - Z.of_nat (length l) * Z.of_nat a.
Proof.
  induction 1 as [|b l Hb HF IH]; [reflexivity|].
  change (absum a (b :: l)) with (Z.abs (Z.of_nat a - Z.of_nat b) + absum a l).
  change (zsum (b :: l)) with (Z.of_nat b + zsum l). cbn [length]. rewrite IH. lia.
Qed.
Lemma diffsum_cons a l l' : diffsum l (a :: l') = absum a l + diffsum l l'.
Proof.
  induction l as [|b l IH]; [reflexivity|].
  change (diffsum (b :: l) (a :: l')) with (Z.abs (Z.of_nat b - Z.of_nat a) + absum b l' + diffsum l (a :: l')).
  change (diffsum (b :: l) l') with (absum b l' + diffsum l l').
  change (absum a (b :: l)) with (Z.abs (Z.of_nat a - Z.of_nat b) + absum a l). lia.
Qed.
Lemma diffsum_sorted l : StronglySorted le l ->
  diffsum l l = 2 * (2 * wsum l - (Z.of_nat (length l) - 1) * zsum l).
Proof.
  induction 1 as [|a l HS IH HF]; [reflexivity|].
  change (diffsum (a :: l) (a :: l)) with (Z.abs (Z.of_nat a - Z.of_nat a) + absum a l + diffsum l (a :: l)).
  rewrite diffsum_cons, IH, absum_low by auto.
  change (zsum (a :: l)) with (Z.of_nat a + zsum l). change (wsum (a :: l)) with (wsum l + zsum l).
  cbn [length]. nia.
Qed.
Local Close Scope Z_scope.

Lemma wsum_zero l : list_nat_sum l = 0 -> zsum l = 0%Z /\ wsum l = 0%Z.
Proof.
  induction l as [|a l IH]; intros H; [split; reflexivity|]. unfold list_nat_sum in *. cbn [fold_right] in H.
  destruct IH as [H1 H2]; [lia|]. change (zsum (a :: l)) with (Z.of_nat a + zsum l)%Z. cbn [wsum]. lia.
Qed.

Lemma list_nat_sum_perm l l' : Permutation l l' -> list_nat_sum l = list_nat_sum l'.
Proof. induction 1; unfold list_nat_sum in *; cbn; lia. Qed.

Lemma filter_length_perm {X} (f : X -> bool) l l' : Permutation l l' -> length (filter f l) = length (filter f l').
Proof. induction 1; cbn; auto; repeat match goal with |- context[f ?x] => destruct (f x) end; cbn; lia. Qed.

Lemma filter_map_length {X Y} (f : X -> Y) (p : Y -> bool) l :
  length (filter p (map f l)) = length (filter (fun x => p (f x)) l).
Proof. induction l as [|a l IH]; cbn; auto. destruct (p (f a)); cbn; auto. Qed.

Lemma as_dict_appeared m : r_appeared_item (as_dict m) = length (filter (fun c => negb (c =? 0)) (m_item_cnt m)).
Proof.
  unfold as_dict. rewrite (surjective_pairing (gini_loop _ _ _)). cbn [r_appeared_item].
  rewrite gini_loop_fst. apply filter_length_perm, sort_by_perm.
Qed.

Lemma as_dict_gini m : (r_gini_index (as_dict m) == gini_of (m_item_cnt m))%Q.
Proof.
  unfold as_dict. rewrite (surjective_pairing (gini_loop _ _ _)). cbn [r_gini_index].
  set (cnt := m_item_cnt m). rewrite gini_loop_snd. unfold gini_of. fold (list_nat_sum cnt).
  set (s := sort_by Nat.ltb cnt).
  assert (HP : Permutation s cnt) by apply sort_by_perm.
  destruct (Nat.eqb_spec (list_nat_sum cnt) 0) as [E|E].
  - rewrite E. cbn [Nat.ltb Nat.leb]. destruct (wsum_zero s) as [H1 H2]; [now rewrite (list_nat_sum_perm _ _ HP)|].
    rewrite H1, H2. rewrite !Z.mul_0_r. reflexivity.
  - destruct (Nat.ltb_spec 0 (list_nat_sum cnt)); [|lia].
    change (fold_right Z.add 0%Z (map (fun a => fold_right Z.add 0%Z (map (fun b => Z.abs (Z.of_nat a - Z.of_nat b)) cnt)) cnt))
      with (diffsum cnt cnt).
    rewrite <- (diffsum_perm _ _ HP), (diffsum_sorted s) by apply sort_nat_sorted.
    rewrite (Permutation_length HP).
    assert (Hl : length cnt <> 0) by (intros E'; destruct cnt; [cbn in E; lia|discriminate]).
    assert (N1 : ~ (inject_Z (Z.of_nat (length cnt)) == 0)%Q) by (unfold Qeq; cbn; lia).
    assert (N2 : ~ (inject_Z (Z.of_nat (list_nat_sum cnt)) == 0)%Q) by (unfold Qeq; cbn; lia).
    unfold q_of_nat.
    replace (2 * wsum s + (2 * 0 - Z.of_nat (length cnt) + 1) * zsum s)%Z
      with (2 * wsum s - (Z.of_nat (length cnt) - 1) * zsum s)%Z by lia.
    rewrite inject_Z_mult. field. auto.
Qed.

Lemma sorted_filter (f : nat -> bool) l : StronglySorted le l -> StronglySorted le (filter f l).
Proof.
  induction 1 as [|a l HS IH HF]; cbn; [constructor|]. destruct (f a); auto. constructor; auto.
  rewrite Forall_forall in *. intros x Hx. apply filter_In in Hx as [Hx _]. auto.
Qed.
Lemma filter_perm {X} (f : X -> bool) l l' : Permutation l l' -> Permutation (filter f l) (filter f l').
Proof.
  induction 1; cbn; auto.
  - destruct (f x); auto.
  - destruct (f x), (f y); auto. apply perm_swap.
  - etransitivity; eauto.
Qed.
Lemma as_dict_probs m : shares_of (m_item_cnt m) (r_probs (as_dict m)).
Proof.
  unfold as_dict. rewrite (surjective_pairing (gini_loop _ _ _)). cbn [r_probs].
  eexists; split; [|split; [|reflexivity]].
  - apply sorted_filter, sort_nat_sorted.
  - apply filter_perm, sort_by_perm.
Qed.

Lemma total_combine {X Y} (f : X * Y -> Q) (g : X -> Y) l :
  total f (combine l (map g l)) = total (fun u => f (u, g u)) l.
Proof. unfold total. f_equal. induction l as [|a l IH]; cbn; auto. now rewrite IH. Qed.

(** Totals accumulated for the users [us] with recommendation lists [tops]. *)
Lemma report_of_msum n us m : Forall (fun u => NoDup (u_elig u)) us ->
  meq m (msum n (map (u_contrib n) us)) ->
  tops_of cutoff us (map u_top (valid_users us)) /\
  report_means disc rwc n us (map u_top (valid_users us)) (as_dict m).
Proof.
  intros HN Hm. split.
  - unfold tops_of. assert (HN' : Forall (fun u => NoDup (u_elig u)) (valid_users us)).
    { apply Forall_forall. intros u Hu. apply filter_In in Hu as [Hu _]. rewrite Forall_forall in HN; auto. }
    induction HN' as [|u l Hu HF IH]; cbn; constructor; auto. now apply top_list_is_top.
  - destruct (msum_users n us) as (Hv & Ht & Hni). destruct Hm as [Mv Mt Mh Mr Mn Mp Mm Mi Mc].
    assert (Hcnt : m_item_cnt m = map (times_recommended (map u_top (valid_users us))) (seq 0 n))
      by (rewrite Mc; now apply msum_counts).
    assert (Hden : inject_Z (Z.of_nat (max 1 (length (valid_users us)))) =
                   q_of_nat (if 0 <? m_valid_user m then m_valid_user m else 1)).
    { unfold q_of_nat. do 2 f_equal. rewrite Mv, Hv. destruct (length (valid_users us)); cbn; lia. }
    assert (HF : forall (fld : metrics -> Q) (f : list nat -> list nat -> Q),
       (forall a b, fld (merge a b) == fld a + fld b)%Q -> (fld (empty_metrics n) == 0)%Q ->
       (forall recs gt, fld (contrib disc n rwc recs gt) == f recs gt)%Q ->
       (fld (contrib0 n) == 0)%Q -> (fld m == fld (msum n (map (u_contrib n) us)))%Q ->
       (fld m / q_of_nat (if 0 <? m_valid_user m then m_valid_user m else 1) ==
        average f us (map u_top (valid_users us)))%Q).
    { intros fld f H1 H2 H3 H4 H5. unfold average. rewrite Hden, total_combine. cbn [fst snd].
      unfold Qdiv; apply Qmult_comp; [|reflexivity]. rewrite H5.
      apply msum_field; auto; intros u Hu; unfold u_contrib; rewrite Hu; auto. }
    pose proof (as_dict_gini m) as Hgini. pose proof (as_dict_appeared m) as Happ. pose proof (as_dict_probs m) as Hpr.
    rewrite Hcnt in Hgini, Happ, Hpr. rewrite filter_map_length in Happ.
    unfold as_dict in *. rewrite (surjective_pairing (gini_loop _ _ _)) in *.
    constructor; try assumption; cbn [r_total_user r_valid_user r_n_items r_hit r_ndcg r_recall r_map r_precision].
    + congruence.
    + congruence.
    + congruence.
    + apply (HF m_hit hit_of); auto; try reflexivity; intros; cbn; ring.
    + apply (HF m_recall (recall_of rwc)); auto; try reflexivity; intros; cbn; ring.
    + apply (HF m_ndcg (ndcg_of disc)); auto; try reflexivity; intros; cbn; ring.
    + apply (HF m_map ap_of); auto; try reflexivity; intros; cbn; ring.
    + apply (HF m_precision precision_of); auto; try reflexivity; intros; cbn; ring.
Qed.

Lemma users_of_nodup n rows recs offset scores :
  Forall (fun u => NoDup (u_elig u)) (users_of n rows recs offset scores).
Proof.
  apply Forall_forall. intros u Hu. unfold users_of in Hu. apply in_map_iff in Hu as (k & <- & _). apply elig_nodup.
Qed.

Lemma get_metrics_report n rows recs c scores offset n_threads x :
  rows_ok n rows -> make_core rows n recs = Ok c ->
  valid_call n rows offset n_threads scores ->
  1 <= x_launched x ->
  get_metrics disc c (buffer_of scores) cutoff offset n_threads rwc x <> Pending ->
  exists m tops, get_metrics disc c (buffer_of scores) cutoff offset n_threads rwc x = Ok m /\
    tops_of cutoff (users_of n rows recs offset scores) tops /\
    report_means disc rwc n (users_of n rows recs offset scores) tops (as_dict m).
Proof.
  intros H1 H2 H3 H4 H5. destruct (get_metrics_msum _ _ _ _ _ _ _ _ H1 H2 H3 H4 H5) as (m & E & Hm).
  exists m. eexists. split; [exact E|]. apply report_of_msum; auto. apply users_of_nodup.
Qed.
End Main.
