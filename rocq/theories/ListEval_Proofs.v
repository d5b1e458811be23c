(** evaluate_list_vs_list: meaning, ranges, agreement with the score evaluator. *)
From Coq Require Import QArith Lqa.
From Verif Require Import Base Sched_Model Sched_Proofs Sort_Proofs Eval_Spec EvalPy_Spec Eval_Proofs Eval_Core_Proofs Eval_Main_Proofs Eval_Facts_Proofs EvalPy_Proofs Eval_Derived_Proofs EvalApi_Proofs.
Local Open Scope nat_scope.

Lemma position_nth l k : NoDup l -> k < length l -> position l (nth k l 0) = k.
Proof.
  revert k. induction l as [|x l IH]; cbn [length]; intros k HN Hk; [lia|]. inversion HN; subst.
  destruct k as [|k]; cbn [nth position]; [now rewrite Nat.eqb_refl|].
  destruct (Nat.eqb_spec x (nth k l 0)) as [->|]; [exfalso; apply H1, nth_In; lia|]. rewrite IH; auto. lia.
Qed.

Lemma sorted_nth {X} (R : X -> X -> Prop) (l : list X) d :
  (forall a b, a < b < length l -> R (nth a l d) (nth b l d)) -> StronglySorted R l.
Proof.
  induction l as [|x l IH]; intros H; constructor.
  - apply IH. intros a b Hab. apply (H (S a) (S b)). cbn. lia.
  - apply Forall_forall. intros y Hy. apply (In_nth _ _ d) in Hy as (b & Hb & <-). apply (H 0 (S b)). cbn. lia.
Qed.

Lemma rank_is_top n l k : NoDup l -> Forall (fun i => i < n) l -> length l <= k ->
  is_top (rank_score l) (filter (relevant l) (seq 0 n)) k l.
Proof.
  intros HN HB Hk.
  assert (HP : Permutation l (filter (relevant l) (seq 0 n))).
  { apply NoDup_Permutation; auto; [apply NoDup_filter, seq_NoDup|]. intros i. rewrite filter_In, in_seq, relevant_true.
    rewrite Forall_forall in HB. split; [intros Hi; specialize (HB i Hi); split; auto; lia|tauto]. }
  apply (is_top_perm _ l); auto. constructor.
  - apply (sorted_nth _ l 0). intros a b [Hab Hb]. left. unfold rank_score.
    assert (Ha : In (nth a l 0) l) by (apply nth_In; lia). assert (Hb' : In (nth b l 0) l) by (apply nth_In; lia).
    apply relevant_true in Ha, Hb'. rewrite Ha, Hb', !position_nth by (auto; lia).
    cbn [scmp]. apply -> Qgt_alt. rewrite <- Zlt_Qlt. lia.
  - apply incl_refl.
  - lia.
  - tauto.
Qed.

Lemma map2_combine {X Y Z} (f : X -> Y -> Z) l l' : map (fun p => f (fst p) (snd p)) (combine l l') = map2 f l l'.
Proof. revert l'; induction l as [|a l IH]; intros [|b l']; cbn; auto. now rewrite IH. Qed.

Section Disc.
Variable disc : nat -> Q.

Lemma nodup_le_n n (l : list nat) : NoDup l -> Forall (fun i => i < n) l -> length l <= n.
Proof.
  intros HN HB. rewrite <- (seq_length n 0). apply NoDup_incl_length; auto. intros i Hi. rewrite Forall_forall in HB.
  specialize (HB i Hi). apply in_seq. lia.
Qed.
Lemma gt_filter_perm n gt : Forall (fun i => i < n) gt -> Permutation (nodup Nat.eq_dec gt) (filter (relevant gt) (seq 0 n)).
Proof.
  intros HB. apply NoDup_Permutation; [apply NoDup_nodup|apply NoDup_filter, seq_NoDup|].
  intros i. rewrite nodup_In, filter_In, in_seq, relevant_true. rewrite Forall_forall in HB.
  split; [intros Hi; specialize (HB i Hi); split; auto; lia|tauto].
Qed.

Lemma list_users_nth n recs gts i d : length recs = length gts -> i < length gts ->
  nth i (list_users n recs gts) d = list_user n (nth i gts []) (nth i recs []).
Proof.
  intros HL Hi. unfold list_users.
  rewrite (nth_indep _ d ((fun p : list nat * list nat => list_user n (fst p) (snd p)) ([],[]))) by (rewrite map_length, combine_length; lia).
  rewrite (map_nth (fun p => list_user n (fst p) (snd p))), combine_nth by auto. reflexivity.
Qed.
Lemma list_users_length n recs gts : length recs = length gts -> length (list_users n recs gts) = length gts.
Proof. intros H. unfold list_users. rewrite map_length, combine_length. lia. Qed.

Lemma list_users_valid n recs gts : lists_ok n recs gts -> valid_users (list_users n recs gts) = list_users n recs gts.
Proof.
  intros (HL & _ & HG). unfold list_users, valid_users.
  assert (H : Forall (fun u => has_gt u = true) (map (fun p => list_user n (fst p) (snd p)) (combine gts recs))).
  { apply Forall_forall. intros u Hu. apply in_map_iff in Hu as ([gt l] & <- & Hp). apply in_combine_l in Hp.
    rewrite Forall_forall in HG. destruct (HG gt Hp) as [Hne HB]. unfold has_gt, list_user. cbn [u_gt fst snd].
    rewrite <- (Permutation_length (gt_filter_perm n gt HB)).
    destruct gt as [|g gt]; [congruence|]. destruct (nodup Nat.eq_dec (g :: gt)) eqn:E; auto.
    assert (In g (nodup Nat.eq_dec (g :: gt))) by (apply nodup_In; now left). rewrite E in H. destruct H. }
  induction H as [|u us Hu H IH]; cbn; auto. rewrite Hu. now f_equal.
Qed.

Lemma list_users_nodup n recs gts : Forall (fun u => NoDup (u_elig u)) (list_users n recs gts).
Proof.
  apply Forall_forall. intros u Hu. apply in_map_iff in Hu as (p & <- & _). apply NoDup_filter, seq_NoDup.
Qed.

Lemma list_tops n recs gts k : lists_ok n recs gts -> Forall (fun l => length l <= k) recs ->
  tops_of k (list_users n recs gts) recs.
Proof.
  intros HO Hk. unfold tops_of. rewrite list_users_valid by auto. destruct HO as (HL & HR & _).
  unfold list_users. clear -HL HR Hk. revert gts HL. induction HR as [|l recs [HN HB] HR IH]; intros [|gt gts] HL; try discriminate; [constructor|].
  inversion Hk; subst. cbn [combine map]. constructor; [|apply IH; auto; now injection HL]. cbn. now apply rank_is_top.
Qed.

Lemma list_eval_msum n recs gts k sched : lists_ok n recs gts -> 1 <= k ->
  evaluate_list_vs_list disc recs gts n k sched <> Pending ->
  exists m, evaluate_list_vs_list disc recs gts n k sched = Ok m /\
    meq m (msum n (map (u_contrib disc false n n) (list_users n recs gts))).
Proof.
  intros HO Hk Hp. pose proof HO as (HL & HR & HG).
  unfold evaluate_list_vs_list in *.
  rewrite (proj2 (Nat.eqb_eq _ _) HL) in *. cbn [check_arg] in *.
  assert (E1 : forallb (forallb (fun i => i <? n)) recs = true).
  { apply forallb_forall. intros l Hl. apply forallb_forall. intros i Hi. rewrite Forall_forall in HR.
    destruct (HR l Hl) as [_ HB]. rewrite Forall_forall in HB. apply Nat.ltb_lt, HB, Hi. }
  assert (E2 : forallb (forallb (fun i => i <? n)) gts = true).
  { apply forallb_forall. intros l Hl. apply forallb_forall. intros i Hi. rewrite Forall_forall in HG.
    destruct (HG l Hl) as [_ HB]. rewrite Forall_forall in HB. apply Nat.ltb_lt, HB, Hi. }
  rewrite E1, E2 in *. cbn [check_arg] in *.
  destruct (completed (list_pool disc recs gts n k sched)) eqn:Ec; [|cbn in Hp; congruence].
  cbn [await] in *. unfold list_pool in *.
  destruct (pool_msum n (length recs) (list_work disc recs gts)
     (fun i => u_contrib disc false n n (nth i (list_users n recs gts) (mkUser [] [] (fun _ => NegInf)))) k sched) as (m & E & Hm); auto.
  - intros i. apply wf_u_contrib.
  - intros i m Hi Hm. rewrite (list_users_nth n recs gts i) by lia. unfold list_work. cbn [obind].
    rewrite (nth_error_nth' recs []) by lia. rewrite (nth_error_nth' gts []) by lia.
    set (l := nth i recs []). set (gt := nth i gts []).
    assert (Hl : In l recs) by (apply nth_In; lia). assert (Hgt : In gt gts) by (apply nth_In; lia).
    rewrite Forall_forall in HR, HG. destruct (HR l Hl) as [HN HB], (HG gt Hgt) as [Hne HB'].
    assert (Hne' : nodup Nat.eq_dec gt <> []).
    { intros E. destruct gt as [|g gt']; [congruence|]. assert (In g (nodup Nat.eq_dec (g :: gt'))) by (apply nodup_In; now left).
      rewrite E in H. destruct H. }
    destruct (update_contrib disc n m l (nodup Nat.eq_dec gt) false) as (m' & E & Hm'); auto.
    { now apply nodup_le_n. }
    exists m'. split; auto. rewrite Hm'.
    assert (Eu : meq (contrib disc n false l (nodup Nat.eq_dec gt)) (u_contrib disc false n n (list_user n gt l))).
    { assert (HT : u_top n (list_user n gt l) = l).
      { unfold u_top. cbn. symmetry. apply is_top_unique; [apply NoDup_filter, seq_NoDup|]. apply rank_is_top; auto. now apply nodup_le_n. }
      pose proof (gt_filter_perm n gt HB') as HP.
      assert (Hg : has_gt (list_user n gt l) = true).
      { unfold has_gt, list_user. cbn [u_gt]. rewrite <- (Permutation_length HP). now destruct (nodup Nat.eq_dec gt). }
      unfold u_contrib. rewrite Hg, HT. cbn [list_user u_gt]. now rewrite (contrib_perm disc n false l _ _ HP). }
    now rewrite Eu.
  - exists m. split; auto. rewrite Hm. rewrite HL. 
    rewrite <- (list_users_length n recs gts HL). rewrite (map_nth_seq (u_contrib disc false n n)). reflexivity.
Qed.

(** The returned dictionary. *)
Lemma list_eval_report n recs gts k sched : lists_ok n recs gts -> 1 <= k ->
  evaluate_list_vs_list disc recs gts n k sched <> Pending ->
  exists m, evaluate_list_vs_list disc recs gts n k sched = Ok m /\
    report_means disc false n (list_users n recs gts) recs (as_dict m).
Proof.
  intros HO Hk Hp. destruct (list_eval_msum n recs gts k sched HO Hk Hp) as (m & E & Hm).
  exists m; split; auto. destruct (report_of_msum disc false n n (list_users n recs gts) m) as [HT HR]; auto.
  { apply list_users_nodup. }
  assert (HK : Forall (fun l => length l <= n) recs).
  { destruct HO as (_ & H & _). eapply Forall_impl; [|exact H]. cbn. intros l [? ?]. now apply nodup_le_n. }
  assert (ET : map (u_top n) (valid_users (list_users n recs gts)) = recs).
  { symmetry. apply (tops_of_unique n); [apply list_users_nodup|now apply list_tops]. }
  rewrite ET in HR. exact HR.
Qed.
End Disc.

Section Agree.
Variable disc : nat -> Q.

(** A report for given lists is in range. *)
Lemma list_report_range n recs gts r : (forall i, 0 < disc i)%Q -> (forall i, disc (S i) <= disc i)%Q ->
  lists_ok n recs gts -> report_means disc false n (list_users n recs gts) recs r ->
  in01 (r_hit r) /\ in01 (r_recall r) /\ in01 (r_ndcg r) /\ in01 (r_map r) /\ in01 (r_precision r).
Proof.
  intros H1 H2 HO HR. eapply (report_range disc false n _ n); eauto. apply list_tops; auto.
  destruct HO as (_ & H & _). eapply Forall_impl; [|exact H]. cbn. intros l [? ?]. now apply nodup_le_n.
Qed.

Lemma nth_map_seq_score (f : nat -> score) n i : i < n -> nth i (map f (seq 0 n)) NegInf = f i.
Proof.
  intros H. rewrite (nth_indep _ NegInf (f 0)) by (now rewrite map_length, seq_length). now rewrite map_nth, seq_nth.
Qed.
Lemma rank_users g recs gts : length recs = length gts ->
  g_rec g = None -> g_per_user g = None -> g_masked g = None ->
  Forall2 (fun row gt => forall i, In i row <-> In i gt) (g_gt g) gts ->
  Forall2 same_ranking (g_users g (d_rows (rank_matrix (g_n_items g) recs))) (list_users (g_n_items g) recs gts).
Proof.
  intros HL E1 E2 E3 HF. unfold g_users, masked_users, g_recs, g_hidden. rewrite E1, E2, E3.
  pose proof (forall2_length _ _ _ HF) as HL'. set (n := g_n_items g).
  rewrite <- (map_id (list_users n recs gts)).
  rewrite <- (map_nth_seq (fun x => x) (list_users n recs gts) (mkUser [] [] (fun _ => NegInf))).
  rewrite list_users_length, <- HL' by auto.
  assert (G : forall l, (forall k, In k l -> k < length (g_gt g)) ->
    Forall2 same_ranking
     (map (fun u => masked_user n (g_gt g) [] u (nth u [] []) (fun i => nth i (nth u (d_rows (rank_matrix n recs)) []) NegInf)) l)
     (map (fun k => nth k (list_users n recs gts) (mkUser [] [] (fun _ => NegInf))) l)).
  2:{ apply G. intros k Hk. apply in_seq in Hk. lia. }
  induction l as [|k l IH]; intros Hl; cbn [map]; constructor; [|apply IH; intros; apply Hl; now right].
  specialize (Hl k (or_introl eq_refl)). rewrite list_users_nth by lia.
  set (row := nth k recs []).
  assert (ES : forall i, i < n -> nth i (nth k (d_rows (rank_matrix n recs)) []) NegInf = rank_score row i).
  { intros i Hi. cbn [rank_matrix d_rows].
    rewrite (nth_indep _ [] ((fun l => map (rank_score l) (seq 0 n)) [])) by (rewrite map_length; lia).
    rewrite (map_nth (fun l => map (rank_score l) (seq 0 n))). now apply nth_map_seq_score. }
  assert (EG : forall i, relevant (nth k (g_gt g) []) i = relevant (nth k gts []) i).
  { intros i. apply relevant_ext. clear -HF Hl. revert k Hl. induction HF as [|a b l l' H HF IH]; cbn; intros [|k] Hk; try lia; auto.
    apply IH. lia. }
  split; [|split].
  - cbn. apply filter_ext. intros i. rewrite EG. now rewrite andb_true_r.
  - cbn. apply filter_ext_in. intros i Hi. apply in_seq in Hi. rewrite ES by lia. unfold rank_score.
    replace (match k with 0 | _ => [] end) with (@nil nat) by (now destruct k). cbn.
    now destruct (relevant row i).
  - intros i j Hi Hj. cbn in Hi, Hj. apply filter_In in Hi as [Hi _], Hj as [Hj _]. apply in_seq in Hi, Hj.
    unfold better. cbn [masked_user list_user u_score]. rewrite !ES by lia. tauto.
Qed.

Lemma list_matrix_agree g ev recs gts k sched c xs rs m :
  config_ok g -> build g = Ok ev -> g_rec g = None -> g_per_user g = None -> g_masked g = None -> g_rwc g = false ->
  lists_ok (g_n_items g) recs gts ->
  Forall2 (fun row gt => forall i, In i row <-> In i gt) (g_gt g) gts ->
  0 < c <= g_n_items g -> Forall (fun l => length l <= c) recs -> launched xs -> 1 <= k ->
  matrix_scores disc ev (rank_matrix (g_n_items g) recs) [c] xs = Ok rs ->
  evaluate_list_vs_list disc recs gts (g_n_items g) k sched = Ok m ->
  exists r cov, rs = [(r, cov)] /\ same_report r (as_dict m).
Proof.
  intros HC HB E1 E2 E3 E4 HO HF Hc Hlen Hx Hk EM EL.
  pose proof (forall2_length _ _ _ HF) as HL'. pose proof HO as (HL & _ & _).
  assert (HS : scores_ok g (rank_matrix (g_n_items g) recs)).
  { constructor; cbn; auto.
    - unfold dense_wf. cbn. apply Forall_forall. intros r Hr. apply in_map_iff in Hr as (l & <- & _). now rewrite map_length, seq_length.
    - rewrite map_length. lia. }
  assert (Hcut : cutoffs_ok (g_n_items g) [c]) by (constructor; auto).
  destruct (api_matrix disc g ev _ [c] xs HC HB HS Hcut Hx) as (rs' & E & M); [rewrite EM; discriminate|].
  rewrite EM in E. injection E as <-.
  apply (means_transfer disc g _ _ [c] rs (rank_users g recs gts HL E1 E2 E3 HF)) in M.
  unfold means in M. inversion M as [|? r ? ? [(t & T & R) C] M']; subst. inversion M'; subst.
  destruct (list_eval_report disc (g_n_items g) recs gts k sched HO Hk) as (m' & E & HR); [rewrite EL; discriminate|].
  rewrite EL in E. injection E as <-. destruct r as [r cov]. exists r, cov. split; auto. cbn [fst] in *.
  assert (t = recs).
  { rewrite (tops_of_unique c _ t (list_users_nodup _ _ _) T). symmetry.
    apply (tops_of_unique c); [apply list_users_nodup|now apply list_tops]. }
  subst t. rewrite E4 in R. eapply report_means_unique; eauto.
Qed.

Lemma list_eval_returns n recs gts k sched : fair (length recs) k sched ->
  evaluate_list_vs_list disc recs gts n k sched <> Pending.
Proof.
  intros HF. unfold evaluate_list_vs_list.
  destruct (length recs =? length gts); [|discriminate]. cbn [check_arg].
  destruct (forallb (forallb (fun i => i <? n)) recs); [|discriminate]. cbn [check_arg].
  destruct (forallb (forallb (fun i => i <? n)) gts); [|discriminate]. cbn [check_arg].
  unfold list_pool. rewrite fair_completes by auto. cbn [await]. unfold merge_workers.
  assert (G : forall ws m, (forall w : worker (outcome metrics), In w ws -> w_acc w <> Pending) ->
     ofold (fun acc w => omap (merge acc) (w_acc w)) ws m <> Pending).
  { induction ws as [|w ws IH]; intros m Hw; cbn [ofold]; [discriminate|].
    pose proof (Hw w (or_introl eq_refl)). destruct (w_acc w); cbn [omap obind]; try discriminate; try congruence.
    apply IH. intros; apply Hw; now right. }
  apply G.
  assert (R : forall u a, a <> Pending -> list_work disc recs gts u a <> Pending).
  { intros u a Ha. unfold list_work. destruct a; cbn [obind]; try discriminate; try congruence.
    destruct (nth_error recs u); [|discriminate]. destruct (nth_error gts u); [|discriminate].
    unfold update. destruct (_ =? 0); [discriminate|]. destruct (_ <? _); [discriminate|].
    destruct (_ =? 0); [discriminate|].
    match goal with |- context[update_loop ?d ?a ?b ?i ?r ?s] =>
      pose proof (update_loop_returns d b r a i s) as U; destruct (update_loop d a b i r s) as [[[[? ?] ?] ?]| | |]; cbn [obind]; congruence end. }
  destruct (inv_run (length recs) 1 (list_work disc recs gts) (fun _ x => x) k (Ok (empty_metrics n)) tt sched (le_n 1)) as (logs & glog & HI).
  destruct HI as [_ Hacc _ _ _ _]. intros w Hw. apply (in_map w_acc) in Hw.
  rewrite Hacc in Hw. apply in_map_iff in Hw as (log & <- & _). unfold fold_acc.
  assert (Hok : Ok (empty_metrics n) <> Pending) by discriminate. revert Hok.
  generalize (Ok (empty_metrics n)) as a0. induction log as [|r log IH]; intros a0 Ha0; cbn [fold_left]; auto.
Qed.
End Agree.
