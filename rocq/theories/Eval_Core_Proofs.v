(** The evaluator core computes the textbook report for every schedule. *)
From Coq Require Import Setoid Morphisms Lqa.
From Verif Require Import Base Sched_Model Sched_Proofs Eval_Model Eval_Spec Sort_Proofs Eval_Proofs.
Local Open Scope nat_scope.

(** * Ranking *)
Definition sc_pair (sc : nat -> score) (i : nat) : score * nat := (sneg (sc i), i).
Definition better_b (sc : nat -> score) (i j : nat) : bool := pair_lt (sc_pair sc i) (sc_pair sc j).

Lemma better_b_spec sc i j : better_b sc i j = true <-> better sc i j.
Proof.
  unfold better_b, better, pair_lt, slt, sc_pair; cbn [fst snd]. rewrite !scmp_neg.
  rewrite (scmp_antisym (sc j) (sc i)).
  destruct (scmp (sc j) (sc i)) eqn:E; cbn [CompOpp negb orb andb].
  - rewrite Nat.ltb_lt. split; [auto|]. intros [H|[_ H]]; [discriminate|auto].
  - split; auto.
  - split; [discriminate|]. intros [H|[H _]]; discriminate.
Qed.

Lemma better_b_asym sc x y : better_b sc x y = true -> better_b sc y x = false.
Proof. apply pair_lt_asym. Qed.
Lemma better_b_negtrans sc x y z : better_b sc x y = false -> better_b sc y z = false -> better_b sc x z = false.
Proof. apply pair_lt_negtrans. Qed.
Lemma better_b_total sc x y : better_b sc x y = false -> better_b sc y x = false -> x = y.
Proof.
  unfold better_b, pair_lt, slt, sc_pair; cbn [fst snd]. rewrite !scmp_neg.
  rewrite (scmp_antisym (sc y) (sc x)).
  destruct (scmp (sc y) (sc x)); cbn [CompOpp negb orb andb]; try discriminate.
  destruct (Nat.ltb_spec x y), (Nat.ltb_spec y x); intros; try discriminate; lia.
Qed.
Lemma better_irrefl sc x : ~ better sc x x.
Proof. intros [H|[_ H]]; [rewrite scmp_refl in H; discriminate|lia]. Qed.
Lemma better_trans sc x y z : better sc x y -> better sc y z -> better sc x z.
Proof.
  rewrite <- !better_b_spec. intros H1 H2. destruct (better_b sc x z) eqn:E; auto.
  apply better_b_asym in H2. rewrite (better_b_negtrans _ _ _ _ E H2) in H1. discriminate.
Qed.

Definition top_list (sc : nat -> score) (elig : list nat) (k : nat) : list nat :=
  firstn (min k (length elig)) (sort_by (better_b sc) elig).

Lemma strongly_sorted_nodup_strict sc l :
  NoDup l -> StronglySorted (nle (better_b sc)) l -> StronglySorted (better sc) l.
Proof.
  intros HN HS. induction HS as [|a l HS IH HF]; constructor.
  - inversion HN; auto.
  - inversion HN as [|? ? Hni HN']; subst. rewrite Forall_forall in *. intros x Hx.
    apply better_b_spec. specialize (HF x Hx). unfold nle in HF.
    destruct (better_b sc a x) eqn:E; auto.
    pose proof (better_b_total _ _ _ E HF). subst; contradiction.
Qed.

Lemma sort_by_nodup {X} lt (l : list X) : NoDup l -> NoDup (sort_by lt l).
Proof. intros H. eapply Permutation_NoDup; [symmetry; apply sort_by_perm|auto]. Qed.

Lemma firstn_skipn_nodup {X} k (l : list X) : NoDup l -> NoDup (firstn k l).
Proof.
  rewrite <- (firstn_skipn k l) at 1. intros H.
  induction (firstn k l) as [|a f IH]; [constructor|]. cbn in H. inversion H as [|? ? Hni HN]; subst.
  constructor; [|apply IH; auto]. intros Hin; apply Hni, in_or_app; auto.
Qed.

Lemma top_list_is_top sc elig k : NoDup elig -> is_top sc elig k (top_list sc elig k).
Proof.
  intros HN. unfold top_list. set (m := min k (length elig)).
  pose proof (sort_by_partial_sorted (better_b sc) (better_b_asym sc) (better_b_negtrans sc) m elig) as [HP HS HR].
  constructor.
  - apply strongly_sorted_nodup_strict; auto using firstn_skipn_nodup, sort_by_nodup.
  - intros x Hx. apply firstn_in in Hx. now rewrite sort_by_in in Hx.
  - rewrite firstn_length, sort_by_length. lia.
  - intros i j Hi Hj Hnj.
    assert (Hs : In j (skipn m (sort_by (better_b sc) elig))).
    { assert (Hin : In j (sort_by (better_b sc) elig)) by (now rewrite sort_by_in).
      rewrite <- (firstn_skipn m (sort_by (better_b sc) elig)) in Hin. apply in_app_iff in Hin. tauto. }
    specialize (HR _ _ Hi Hs). unfold nle in HR. apply better_b_spec.
    destruct (better_b sc i j) eqn:E; auto. pose proof (better_b_total _ _ _ E HR). subst. contradiction.
Qed.

Lemma sorted_strict_nodup sc l : StronglySorted (better sc) l -> NoDup l.
Proof.
  induction 1 as [|a l HS IH HF]; constructor; auto. intros Hin.
  rewrite Forall_forall in HF. exact (better_irrefl _ _ (HF _ Hin)).
Qed.

Lemma is_top_nodup sc elig k l : is_top sc elig k l -> NoDup l.
Proof. intros [HS _ _ _]. eapply sorted_strict_nodup; eauto. Qed.

(** The list of the best items is unique. *)
Lemma is_top_unique sc elig k l : NoDup elig -> is_top sc elig k l -> l = top_list sc elig k.
Proof.
  intros HN H. pose proof (is_top_nodup _ _ _ _ H) as HNl. destruct H as [HS HI HL HB].
  set (rest := filter (fun i => negb (relevant l i)) elig).
  assert (HP : Permutation (l ++ rest) elig).
  { apply NoDup_Permutation; auto.
    - assert (Hr : NoDup rest) by (now apply NoDup_filter).
      assert (Hd : forall x, In x l -> ~ In x rest).
      { intros x Hx Hr'. apply filter_In in Hr' as [_ Hr']. apply relevant_true in Hx. rewrite Hx in Hr'. discriminate. }
      clearbody rest. clear -HNl Hr Hd. induction HNl; cbn; auto. constructor.
      + rewrite in_app_iff. intros [?|?]; [contradiction|]. eapply Hd; [now left|eauto].
      + apply IHHNl. intros y Hy. apply Hd. now right.
    - intros x. rewrite in_app_iff. split.
      + intros [Hx|Hx]; [now apply HI|]. now apply filter_In in Hx.
      + intros Hx. destruct (relevant l x) eqn:E; [left; now apply relevant_true|].
        right. apply filter_In. split; auto. now rewrite E. }
  unfold top_list. rewrite <- HL.
  rewrite <- (partial_sort_unique (better_b sc) (better_b_asym sc) (better_b_negtrans sc) (length l) elig (l ++ rest)).
  - rewrite firstn_app, Nat.sub_diag, firstn_all. cbn. now rewrite app_nil_r.
  - intros x y _ _. apply better_b_total.
  - constructor; auto.
    + rewrite firstn_app, Nat.sub_diag, firstn_all. cbn. rewrite app_nil_r.
      clear -HS. induction HS; constructor; auto. eapply Forall_impl; [|eassumption].
      intros b Hb. unfold nle. apply better_b_asym. now apply better_b_spec.
    + rewrite firstn_app, skipn_app, Nat.sub_diag, firstn_all, skipn_all. cbn. rewrite app_nil_r.
      intros x y Hx Hy. apply filter_In in Hy as [Hy1 Hy2]. unfold nle. apply better_b_asym.
      apply better_b_spec. apply HB; auto. apply relevant_false. now destruct (relevant l y).
Qed.

Lemma is_top_perm sc e1 e2 k l : Permutation e1 e2 -> is_top sc e1 k l -> is_top sc e2 k l.
Proof.
  intros HP [H1 H2 H3 H4]. constructor; auto.
  - intros x Hx. eapply Permutation_in; eauto.
  - now rewrite <- (Permutation_length HP).
  - intros i j Hi Hj. apply H4; auto. eapply Permutation_in; [symmetry|]; eauto.
Qed.

Lemma top_list_perm sc e1 e2 k : NoDup e1 -> Permutation e1 e2 -> top_list sc e1 k = top_list sc e2 k.
Proof.
  intros HN HP. apply is_top_unique.
  - eapply Permutation_NoDup; eauto.
  - eapply is_top_perm; eauto. now apply top_list_is_top.
Qed.

Lemma collect_ok data base items :
  Forall (fun i => base + i < length data) items ->
  let sc := fun i => nth (base + i) data NegInf in
  collect data base items = Ok (map (sc_pair sc) (filter (fun i => not_neginf (sc i)) items)).
Proof.
  intros H sc. induction H as [|i items Hi HF IH]; cbn [collect filter map]; auto.
  rewrite (nth_error_nth' _ NegInf Hi), IH. cbn [omap obind]. fold (sc i).
  destruct (not_neginf (sc i)); reflexivity.
Qed.

Lemma push_loop_firstn l : forall cnt n_rec, cnt < n_rec -> n_rec - cnt <= length l ->
  push_loop cnt n_rec l = map snd (firstn (n_rec - cnt) l).
Proof.
  induction l as [|p l IH]; intros cnt n_rec H1 H2; cbn [length] in H2; [lia|].
  cbn [push_loop]. replace (n_rec - cnt) with (S (n_rec - S cnt)) by lia. cbn [firstn map]. f_equal.
  destruct (Nat.leb_spec n_rec (S cnt)).
  - replace (n_rec - S cnt) with 0 by lia. reflexivity.
  - apply IH; lia.
Qed.

Lemma ranking_top c data u uo cutoff :
  0 < cutoff ->
  Forall (fun i => c_n_items c * u + i < length data) (offered_items c uo) ->
  let sc := fun i => nth (c_n_items c * u + i) data NegInf in
  ranking c data u uo cutoff =
  Ok (top_list sc (filter (fun i => not_neginf (sc i)) (offered_items c uo)) cutoff).
Proof.
  intros Hc HF sc. unfold ranking. rewrite collect_ok by assumption. cbn [omap obind]. f_equal.
  fold sc. set (elig := filter _ _). rewrite map_length. unfold top_list.
  rewrite (sort_by_map (sc_pair sc) (better_b sc) pair_lt) by reflexivity.
  destruct (length elig) as [|k] eqn:E.
  - destruct elig; [|discriminate]. rewrite Nat.min_0_r. reflexivity.
  - rewrite push_loop_firstn.
    + rewrite Nat.sub_0_r, firstn_map, map_map. cbn [sc_pair snd]. now rewrite map_id.
    + lia.
    + rewrite map_length, sort_by_length. lia.
Qed.

(** * Constructor *)
Lemma strictly_increasing_sorted l : strictly_increasing l = true -> StronglySorted lt l.
Proof.
  induction l as [|x l IH]; intros H; [constructor|].
  destruct l as [|y l]; [repeat constructor|].
  cbn [strictly_increasing] in H. apply andb_true_iff in H as [H1 H2]. apply Nat.ltb_lt in H1.
  specialize (IH H2). constructor; auto. constructor; auto.
  inversion IH as [|? ? HS HF]; subst. eapply Forall_impl; [|exact HF]. cbn; intros; lia.
Qed.
Lemma sorted_strictly_increasing l : StronglySorted lt l -> strictly_increasing l = true.
Proof.
  induction 1 as [|a l HS IH HF]; auto. destruct l as [|b l]; auto.
  cbn [strictly_increasing] in *. rewrite IH, andb_true_r. apply Nat.ltb_lt. now inversion HF.
Qed.
Lemma sorted_lt_nodup l : StronglySorted lt l -> NoDup l.
Proof.
  induction 1 as [|a l HS IH HF]; constructor; auto. intros Hin. rewrite Forall_forall in HF.
  specialize (HF _ Hin). lia.
Qed.
Lemma sorted_nat_le l : StronglySorted (nle Nat.ltb) l -> StronglySorted le l.
Proof. induction 1; constructor; auto. eapply Forall_impl; [|eassumption]. intros b Hb. unfold nle in Hb.
  destruct (Nat.ltb_spec b a); [discriminate|lia]. Qed.
Lemma sort_nat_sorted l : StronglySorted le (sort_by Nat.ltb l).
Proof. apply sorted_nat_le, sort_by_sorted; [apply nat_ltb_asym|apply nat_ltb_negtrans]. Qed.
Lemma sorted_le_nodup_lt l : NoDup l -> StronglySorted le l -> StronglySorted lt l.
Proof.
  intros HN HS; induction HS as [|a l HS IH HF]; constructor; inversion HN as [|? ? Hni HN']; subst; auto.
  rewrite Forall_forall in *. intros x Hx. specialize (HF x Hx).
  assert (a <> x) by (intros ->; contradiction). lia.
Qed.

Lemma last_max l d : StronglySorted le l -> forall x, In x l -> x <= last l d.
Proof.
  induction 1 as [|a l HS IH HF]; intros x Hx; [destruct Hx|].
  destruct l as [|b l]; [destruct Hx as [<-|[]]; cbn; lia|].
  change (last (a :: b :: l) d) with (last (b :: l) d).
  destruct Hx as [<-|Hx]; [|now apply IH].
  rewrite Forall_forall in HF. pose proof (HF b (or_introl eq_refl)). pose proof (IH b (or_introl eq_refl)). lia.
Qed.
Lemma last_in (l : list nat) d : l <> [] -> In (last l d) l.
Proof. induction l as [|a l IH]; intros H; [congruence|]. destruct l as [|b l]; [now left|]. right. apply IH. discriminate. Qed.

Lemma check_recommendable_iff n urec s :
  check_recommendable n urec = Ok s <->
  s = sort_by Nat.ltb urec /\ NoDup urec /\ Forall (fun i => i < n) urec.
Proof.
  unfold check_recommendable.
  destruct (sort_by Nat.ltb urec) as [|a l] eqn:E.
  - assert (urec = []).
    { apply Permutation_nil. symmetry. rewrite <- E. symmetry. apply sort_by_perm. }
    subst. split; [intros [= <-]; repeat split; constructor|]. intros (-> & _); reflexivity.
  - rewrite <- E. set (s0 := sort_by Nat.ltb urec) in *.
    assert (Hne : s0 <> []) by (rewrite E; discriminate). unfold check_arg. split.
    + destruct (Nat.ltb_spec (last s0 0) n) as [Hl|]; [|discriminate].
      destruct (strictly_increasing s0) eqn:Es; [|discriminate]. intros [= <-].
      apply strictly_increasing_sorted in Es. split; auto. split.
      * eapply Permutation_NoDup; [apply (sort_by_perm Nat.ltb)|]. now apply sorted_lt_nodup.
      * apply Forall_forall. intros x Hx. rewrite <- (sort_by_in Nat.ltb) in Hx.
        pose proof (last_max s0 0 (sort_nat_sorted urec) x Hx). lia.
    + intros (-> & HN & HF).
      destruct (Nat.ltb_spec (last s0 0) n) as [Hl|Hl].
      * rewrite sorted_strictly_increasing; auto. apply sorted_le_nodup_lt; [now apply sort_by_nodup|apply sort_nat_sorted].
      * pose proof (last_in s0 0 Hne) as Hin. unfold s0 in Hin at 2. rewrite sort_by_in in Hin.
        rewrite Forall_forall in HF. specialize (HF _ Hin). lia.
Qed.

Lemma check_all_iff n recs s :
  check_all_recommendable n recs = Ok s <->
  s = map (sort_by Nat.ltb) recs /\ Forall (fun r => NoDup r /\ Forall (fun i => i < n) r) recs.
Proof.
  revert s; induction recs as [|r recs IH]; intros s; cbn [check_all_recommendable map].
  - split; [intros [= <-]; auto|]. intros [-> _]; reflexivity.
  - split.
    + destruct (check_recommendable n r) as [s1| | |] eqn:E1; cbn [obind]; try discriminate.
      destruct (check_all_recommendable n recs) as [s2| | |] eqn:E2; cbn [obind]; try discriminate.
      intros [= <-]. apply check_recommendable_iff in E1 as (-> & H1 & H2).
      destruct (IH s2) as [IH1 _]. destruct (IH1 eq_refl) as (-> & H3). split; auto.
    + intros (-> & HF). inversion HF as [|? ? [H1 H2] HF']; subst.
      destruct (check_recommendable_iff n r (sort_by Nat.ltb r)) as [_ H3].
      rewrite H3 by auto. cbn [obind].
      destruct (IH (map (sort_by Nat.ltb) recs)) as [_ H4]. rewrite H4 by auto. reflexivity.
Qed.


Lemma make_core_iff rows n recs c :
  make_core rows n recs = Ok c <-> c = mkCore rows n (map (sort_by Nat.ltb) recs) /\ recs_ok (length rows) n recs.
Proof.
  unfold make_core, recs_ok, check_arg.
  destruct (Nat.eqb_spec (length recs) 0), (Nat.eqb_spec (length recs) 1), (Nat.eqb_spec (length rows) (length recs));
    cbn [orb]; try (split; [|intros (-> & H & HF)];
    [destruct (check_all_recommendable n recs) as [s| | |] eqn:E; cbn [obind]; try discriminate;
     intros [= <-]; apply check_all_iff in E as (-> & HF); split; auto
    |destruct (check_all_iff n recs (map (sort_by Nat.ltb) recs)) as [_ H']; rewrite H' by auto; reflexivity]).
  split; [discriminate|]. intros (_ & [H|[H|H]] & _); congruence.
Qed.

Lemma make_core_fails rows n recs : is_ok (make_core rows n recs) = false -> make_core rows n recs = Fail InvalidArgument.
Proof.
  unfold make_core, check_arg. destruct (_ || _); auto.
  assert (H : forall r, check_recommendable n r = Fail InvalidArgument \/ exists s, check_recommendable n r = Ok s).
  { intros r. unfold check_recommendable. destruct (sort_by Nat.ltb r); [eauto|]. unfold check_arg.
    destruct (_ <? _); auto. destruct (strictly_increasing _); eauto. }
  assert (G : check_all_recommendable n recs = Fail InvalidArgument \/ exists s, check_all_recommendable n recs = Ok s).
  { induction recs as [|r recs IH]; cbn; [eauto|]. destruct (H r) as [->|[s ->]]; cbn; auto.
    destruct IH as [->|[s' ->]]; cbn; eauto. }
  destruct G as [->|[s ->]]; cbn; auto. discriminate.
Qed.

(** * Ground truth sets *)
Lemma set_intersection_in l1 : forall l2, StronglySorted le l1 -> StronglySorted le l2 ->
  forall x, In x (set_intersection l1 l2) <-> In x l1 /\ In x l2.
Proof.
  induction l1 as [|a l1 IH1]; intros l2 H1 H2.
  { destruct l2; cbn; tauto. }
  induction l2 as [|b l2 IH2]; intros x; [cbn; tauto|].
  inversion H1 as [|? ? HS1 HF1]; subst. inversion H2 as [|? ? HS2 HF2]; subst.
  rewrite Forall_forall in HF1, HF2. specialize (IH2 HS2 x).
  change (set_intersection (a :: l1) (b :: l2)) with
    (if a <? b then set_intersection l1 (b :: l2)
     else if b <? a then set_intersection (a :: l1) l2 else a :: set_intersection l1 l2).
  destruct (Nat.ltb_spec a b).
  - rewrite IH1 by auto. split; [cbn [In]; tauto|]. intros [[->|Hx] Hy]; auto.
    exfalso. destruct Hy as [->|Hy]; [lia|]. specialize (HF2 _ Hy). lia.
  - destruct (Nat.ltb_spec b a).
    + rewrite IH2. split; [cbn [In]; tauto|]. intros [Hx [->|Hy]]; auto.
      exfalso. destruct Hx as [->|Hx]; [lia|]. specialize (HF1 _ Hx). lia.
    + assert (a = b) by lia. subst b. cbn [In]. rewrite IH1 by auto. split; [tauto|].
      intros [[->|Hx] Hy]; auto. destruct Hy as [->|Hy]; auto.
Qed.

Lemma allowed_sort recs u i : allowed (map (sort_by Nat.ltb) recs) u i = allowed recs u i.
Proof.
  assert (H : forall r, relevant (sort_by Nat.ltb r) i = relevant r i).
  { intros r. destruct (relevant r i) eqn:E.
    - apply relevant_true. rewrite sort_by_in. now apply relevant_true.
    - apply relevant_false. rewrite sort_by_in. now apply relevant_false. }
  destruct recs as [|r [|r' recs]]; cbn [map allowed]; auto.
  change (sort_by Nat.ltb r :: sort_by Nat.ltb r' :: map (sort_by Nat.ltb) recs)
    with (map (sort_by Nat.ltb) (r :: r' :: recs)).
  change [] with (sort_by Nat.ltb []) at 1. rewrite map_nth. apply H.
Qed.


Lemma rows_ok_nth n rows u : rows_ok n rows ->
  StronglySorted le (nth u rows []) /\ Forall (fun i => i < n) (nth u rows []).
Proof.
  intros H. destruct (Nat.lt_ge_cases u (length rows)).
  - unfold rows_ok in H. rewrite Forall_forall in H. apply H. now apply nth_In.
  - rewrite nth_overflow by lia. split; constructor.
Qed.

Lemma gt_set_in rows n recs u x : rows_ok n rows ->
  (In x (gt_set (mkCore rows n (map (sort_by Nat.ltb) recs)) u) <->
   In x (nth u rows []) /\ allowed recs u x = true).
Proof.
  intros HR. destruct (rows_ok_nth n rows u HR) as [HS HF].
  rewrite <- allowed_sort. unfold gt_set; cbn [c_recs c_rows].
  destruct recs as [|r [|r' recs]]; cbn [map].
  - rewrite nodup_In. cbn; tauto.
  - rewrite nodup_In, set_intersection_in by (auto using sort_nat_sorted). cbn [allowed].
    now rewrite relevant_true.
  - rewrite nodup_In. cbn [allowed]. rewrite relevant_true.
    set (rs := sort_by Nat.ltb r :: sort_by Nat.ltb r' :: map (sort_by Nat.ltb) recs).
    rewrite set_intersection_in; [reflexivity|auto|].
    assert (E : rs = map (sort_by Nat.ltb) (r :: r' :: recs)) by reflexivity. rewrite E.
    change [] with (sort_by Nat.ltb []) at 1. rewrite map_nth. apply sort_nat_sorted.
Qed.

Lemma gt_set_perm rows n recs u sc : rows_ok n rows ->
  Permutation (gt_set (mkCore rows n (map (sort_by Nat.ltb) recs)) u) (u_gt (user_of n rows recs u sc)).
Proof.
  intros HR. apply NoDup_Permutation.
  - unfold gt_set. destruct (c_recs _) as [|? [|? ?]]; apply NoDup_nodup.
  - cbn. apply NoDup_filter, seq_NoDup.
  - intros x. rewrite gt_set_in by auto. cbn [u_gt user_of]. rewrite filter_In, in_seq, andb_true_iff, relevant_true.
    split; [|tauto]. intros [H1 H2]. destruct (rows_ok_nth n rows u HR) as [_ HF].
    rewrite Forall_forall in HF. specialize (HF _ H1). repeat split; auto; lia.
Qed.

Lemma offered_items_spec rows n recs u : recs_ok (length rows) n recs ->
  let o := offered_items (mkCore rows n (map (sort_by Nat.ltb) recs)) u in
  NoDup o /\ (forall x, In x o <-> x < n /\ allowed recs u x = true).
Proof.
  intros [_ HR]. cbn zeta. unfold offered_items; cbn [c_recs c_n_items].
  destruct recs as [|r [|r' recs]]; cbn [map].
  - split; [apply seq_NoDup|]. intros x. rewrite in_seq. cbn. intuition lia.
  - inversion HR as [|? ? [H1 H2] _]; subst. split; [now apply sort_by_nodup|].
    intros x. rewrite sort_by_in. cbn [allowed]. rewrite relevant_true. rewrite Forall_forall in H2.
    split; [|tauto]. intros H; split; auto.
  - set (rs := sort_by Nat.ltb r :: sort_by Nat.ltb r' :: map (sort_by Nat.ltb) recs).
    assert (E : rs = map (sort_by Nat.ltb) (r :: r' :: recs)) by reflexivity. rewrite E.
    change [] with (sort_by Nat.ltb []) at 1 2. rewrite map_nth. cbn [allowed].
    set (l := nth u (r :: r' :: recs) []).
    assert (Hl : NoDup l /\ Forall (fun i => i < n) l).
    { destruct (Nat.lt_ge_cases u (length (r :: r' :: recs))).
      - rewrite Forall_forall in HR. apply HR. now apply nth_In.
      - unfold l. rewrite nth_overflow by lia. split; constructor. }
    destruct Hl as [H1 H2]. split; [now apply sort_by_nodup|].
    intros x. rewrite sort_by_in, relevant_true. rewrite Forall_forall in H2. fold l. split; [|tauto].
    intros H; split; auto.
Qed.

(** * The cache *)
Lemma update_nth_comm {X} (l : list X) a b x y : a <> b ->
  update_nth (update_nth l a x) b y = update_nth (update_nth l b y) a x.
Proof. revert a b; induction l as [|c l IH]; intros [|a] [|b] H; cbn; auto; try congruence. f_equal. apply IH; lia. Qed.

Lemma fold_update_table {X} (f : nat -> X) (log : list nat) : forall table,
  length (fold_left (fun t r => update_nth t r (f r)) log table) = length table /\
  (forall j d, j < length table -> (In j log \/ nth j table d = f j) ->
     nth j (fold_left (fun t r => update_nth t r (f r)) log table) d = f j).
Proof.
  induction log as [|r log IH]; intros table; cbn [fold_left].
  - split; auto. intros j d Hj [[]|H]; auto.
  - destruct (IH (update_nth table r (f r))) as [IHl IHn]. rewrite update_nth_length in *. split; auto.
    intros j d Hj H. apply IHn; auto. destruct (Nat.eq_dec r j) as [->|Hne].
    + right. assert (E : nth_error (update_nth table j (f j)) j = Some (f j)).
      { destruct (nth_error table j) eqn:E; [|apply nth_error_None in E; lia].
        eapply nth_error_update_nth_same; eauto. }
      now apply nth_error_nth with (d := d) in E.
    + destruct H as [[H|H]|H]; [congruence|auto|]. right.
      destruct (nth_error table j) as [y|] eqn:E; [|apply nth_error_None in E; lia].
      pose proof (nth_error_update_nth_other table r j (f r) ltac:(auto)) as E2.
      rewrite E in E2. apply nth_error_nth with (d := d) in E. apply nth_error_nth with (d := d) in E2. congruence.
Qed.

Lemma cache_table c launched sched :
  1 <= launched -> completed (cache_pool c launched sched) = true ->
  length (cache_X_map c launched sched) = length (c_rows c) /\
  forall u, u < length (c_rows c) -> nth_error (cache_X_map c launched sched) u = Some (gt_set c u).
Proof.
  intros Hl Hc. unfold cache_X_map, cache_pool in *.
  destruct (pool_exactly_once _ _ _ _ _ _ _ _ (le_n 1) Hl Hc) as (logs & glog & _ & _ & HP & _ & Hs).
  rewrite Hs. destruct (fold_update_table (gt_set c) glog (repeat [] (length (c_rows c)))) as [H1 H2].
  rewrite repeat_length in *. split; [exact H1|]. intros u Hu.
  rewrite (nth_error_nth' _ []) by (unfold fold_sh; rewrite H1; lia). f_equal.
  apply H2; auto. left. eapply Permutation_in; [symmetry; exact HP|]. apply in_seq. lia.
Qed.
