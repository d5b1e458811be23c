(** evaluate_recommendation_df. *)
From Coq Require Import QArith Lqa.
From Verif Require Import Base Sched_Model Sched_Proofs Sort_Proofs Eval_Spec EvalPy_Spec EvalDf_Spec Eval_Proofs Eval_Core_Proofs Eval_Main_Proofs Eval_Facts_Proofs EvalPy_Proofs Eval_Derived_Proofs EvalApi_Proofs ListEval_Proofs.
Local Open Scope nat_scope.

Lemma zmem_true x l : zmem x l = true <-> In x l.
Proof.
  unfold zmem. rewrite existsb_exists. split.
  - intros (y & Hy & E). apply Z.eqb_eq in E. now subst.
  - intros H. exists x. split; auto. apply Z.eqb_refl.
Qed.
Lemma isin_users_in df other u i : In (u, i) (isin_users df other) <-> In (u, i) df /\ exists j, In (u, j) other.
Proof.
  unfold isin_users. rewrite filter_In, zmem_true. cbn. rewrite in_map_iff. split; intros [H1 H2]; split; auto.
  - destruct H2 as ([u' j] & E & Hj). cbn in E. subst. eauto.
  - destruct H2 as (j & Hj). now exists (u, j).
Qed.
Lemma sorted_ids_in l x : In x (sorted_ids l) <-> In x l.
Proof. unfold sorted_ids. rewrite sort_by_in. apply nodup_In. Qed.
Lemma sorted_ids_nodup l : NoDup (sorted_ids l).
Proof. apply sort_by_nodup, NoDup_nodup. Qed.

Lemma id_index_spec ids x : In x ids -> id_index ids x = Some (zposition ids x).
Proof.
  induction ids as [|y ids IH]; cbn; [tauto|]. intros H. destruct (Z.eqb_spec x y) as [|Hne]; auto.
  rewrite IH; auto. destruct H; [congruence|auto].
Qed.
Lemma zposition_lt ids x : In x ids -> zposition ids x < length ids.
Proof.
  induction ids as [|y ids IH]; cbn; [tauto|]. intros H. destruct (Z.eqb_spec x y); [lia|].
  destruct H; [congruence|]. specialize (IH H). lia.
Qed.
Lemma zposition_inj ids x y : In x ids -> In y ids -> zposition ids x = zposition ids y -> x = y.
Proof.
  induction ids as [|a ids IH]; cbn; [tauto|]. intros Hx Hy.
  destruct (Z.eqb_spec x a), (Z.eqb_spec y a); try congruence; try discriminate.
  intros [= E]. apply IH; auto; [destruct Hx|destruct Hy]; auto; congruence.
Qed.

(** Grouping keeps the row order and the order of first appearance. *)
Definition keys (df : frame) : list Z := rev (nodup Z.eq_dec (rev (map fst df))).
Lemma keys_in df u : In u (keys df) <-> exists i, In (u, i) df.
Proof.
  unfold keys. rewrite <- in_rev, nodup_In, <- in_rev, in_map_iff. split.
  - intros ([u' i] & E & H). cbn in E; subst. eauto.
  - intros (i & H). now exists (u, i).
Qed.
Lemma keys_nodup df : NoDup (keys df).
Proof. unfold keys. apply NoDup_rev, NoDup_nodup. Qed.
Lemma keys_snoc df u i : keys (df ++ [(u, i)]) = if zmem u (map fst df) then keys df else keys df ++ [u].
Proof.
  unfold keys. rewrite map_app, rev_app_distr. cbn [map fst rev app nodup].
  destruct (in_dec Z.eq_dec u (rev (map fst df))) as [H|H].
  - rewrite <- in_rev in H. apply zmem_true in H. now rewrite H.
  - cbn [rev]. destruct (zmem u (map fst df)) eqn:E; auto. apply zmem_true in E. rewrite <- in_rev in H. tauto.
Qed.

Definition grouped (users items : list Z) (df : frame) : list (nat * list nat) :=
  map (fun u => (zposition users u, map (zposition items) (items_of df u))) (keys df).

Lemma items_of_snoc df u i v : items_of (df ++ [(u, i)]) v = items_of df v ++ (if (u =? v)%Z then [i] else []).
Proof.
  unfold items_of. rewrite filter_app, map_app. cbn. destruct (u =? v)%Z; reflexivity.
Qed.

Lemma dict_push_in users items df u i ks : NoDup ks -> (forall v, In v ks -> In v users) -> In u users -> In u ks ->
  dict_push (map (fun v => (zposition users v, map (zposition items) (items_of df v))) ks) (zposition users u) (zposition items i) =
  map (fun v => (zposition users v, map (zposition items) (items_of (df ++ [(u, i)]) v))) ks.
Proof.
  intros HN Hks Hu. induction ks as [|v ks IH]; [cbn; tauto|]. inversion HN as [|? ? Hv HN']; subst.
  intros [->|Hin]; cbn [map dict_push].
  - rewrite Nat.eqb_refl. f_equal.
    + rewrite items_of_snoc, Z.eqb_refl, map_app. reflexivity.
    + apply map_ext_in. intros w Hw. rewrite items_of_snoc. destruct (Z.eqb_spec u w); [congruence|]. now rewrite app_nil_r.
  - destruct (Nat.eqb_spec (zposition users v) (zposition users u)) as [E|Hne].
    + apply zposition_inj in E; auto; [congruence|apply Hks; now left].
    + rewrite IH; auto; [|intros; apply Hks; now right]. f_equal. rewrite items_of_snoc.
      destruct (Z.eqb_spec u v); [congruence|]. now rewrite app_nil_r.
Qed.
Lemma dict_push_new (d : list (nat * list nat)) k v : ~ In k (map fst d) -> dict_push d k v = d ++ [(k, [v])].
Proof.
  induction d as [|[k' l] d IH]; cbn; auto. intros H. destruct (Nat.eqb_spec k' k); [tauto|]. rewrite IH; auto.
Qed.

Lemma group_rows_spec users items df' : forall df,
  (forall u i, In (u, i) (df ++ df') -> In u users /\ In i items) ->
  group_rows users items df' (grouped users items df) = Ok (grouped users items (df ++ df')).
Proof.
  induction df' as [|[u i] df' IH]; intros df H; cbn [group_rows]; [now rewrite app_nil_r|].
  destruct (H u i) as [Hu Hi]; [apply in_or_app; right; now left|].
  rewrite !id_index_spec by auto.
  assert (E : dict_push (grouped users items df) (zposition users u) (zposition items i) = grouped users items (df ++ [(u, i)])).
  { unfold grouped. rewrite keys_snoc. destruct (zmem u (map fst df)) eqn:E.
    - apply dict_push_in; auto; [apply keys_nodup| |].
      + intros v Hv. apply keys_in in Hv as (j & Hj). apply (H v j). apply in_or_app. now left.
      + apply keys_in. apply zmem_true, in_map_iff in E as ([u' j] & E & Hj). cbn in E; subst. eauto.
    - rewrite dict_push_new.
      + rewrite map_app. cbn [map]. f_equal.
        * apply map_ext_in. intros v Hv. rewrite items_of_snoc. destruct (Z.eqb_spec u v) as [<-|]; [|now rewrite app_nil_r].
          apply keys_in in Hv as (j & Hj). exfalso. apply Bool.not_true_iff_false in E. apply E, zmem_true, in_map_iff. now exists (u, j).
        * rewrite items_of_snoc, Z.eqb_refl. 
          assert (E0 : items_of df u = []).
          { unfold items_of. enough (filter (fun r => (fst r =? u)%Z) df = []) as -> by reflexivity.
            apply Bool.not_true_iff_false in E. clear -E. induction df as [|[v j] df IH]; cbn in *; auto.
            destruct (Z.eqb_spec v u) as [->|]; [exfalso; apply E; now rewrite Z.eqb_refl|].
            apply IH. intros H. apply E. unfold zmem in H. rewrite H. apply orb_true_r. }
          now rewrite E0.
      + rewrite map_map. cbn. rewrite in_map_iff. intros (v & E1 & Hv). apply keys_in in Hv as (j & Hj).
        apply zposition_inj in E1; auto; [|apply (H v j), in_or_app; now left]. subst v.
        apply Bool.not_true_iff_false in E. apply E, zmem_true, in_map_iff. now exists (u, j). }
  rewrite E, IH; rewrite <- app_assoc; auto.
Qed.

Lemma dict_get_grouped users items df u : (forall v j, In (v, j) df -> In v users) -> In u users -> (exists i, In (u, i) df) ->
  dict_get (grouped users items df) (zposition users u) = map (zposition items) (items_of df u).
Proof.
  intros H Hu Hd. apply keys_in in Hd. unfold grouped.
  assert (HK : forall v, In v (keys df) -> In v users) by (intros v Hv; apply keys_in in Hv as (j & Hj); eauto).
  induction (keys df) as [|v ks IH]; [destruct Hd|]. cbn [map dict_get].
  destruct (Nat.eqb_spec (zposition users v) (zposition users u)) as [E|Hne].
  - apply zposition_inj in E; auto; [now subst|apply HK; now left].
  - destruct Hd as [->|Hd]; [congruence|]. apply IH; auto. intros; apply HK; now right.
Qed.

Lemma items_of_isin df other u : (exists j, In (u, j) other) -> items_of (isin_users df other) u = items_of df u.
Proof.
  intros (j & Hj). unfold items_of, isin_users. f_equal. induction df as [|[v i] df IH]; [reflexivity|].
  cbn [filter fst]. destruct (Z.eqb_spec v u) as [->|Hne].
  - assert (E : zmem u (map fst other) = true) by (apply zmem_true, in_map_iff; now exists (u, j)).
    rewrite E. cbn [filter fst]. rewrite Z.eqb_refl. now f_equal.
  - destruct (zmem v (map fst other)); cbn [filter fst]; auto. destruct (Z.eqb_spec v u); [congruence|auto].
Qed.

Lemma items_of_nodup df u : NoDup df -> NoDup (items_of df u).
Proof.
  intros HN. unfold items_of. apply (NoDup_filter (fun r => (fst r =? u)%Z)) in HN.
  assert (H : forall r, In r (filter (fun r => (fst r =? u)%Z) df) -> fst r = u)
    by (intros r Hr; apply filter_In in Hr as [_ E]; now apply Z.eqb_eq).
  induction (filter _ df) as [|[v i] l IH]; cbn; constructor.
  - inversion HN; subst. rewrite in_map_iff. intros ([w k] & E & Hk). cbn in E. subst k.
    pose proof (H (v, i) (or_introl eq_refl)) as E1. pose proof (H (w, i) (or_intror Hk)) as E2. cbn in E1, E2. subst. tauto.
  - inversion HN; subst. apply IH; auto. intros; apply H; now right.
Qed.
Lemma items_of_in df u i : In i (items_of df u) <-> In (u, i) df.
Proof.
  unfold items_of. rewrite in_map_iff. split.
  - intros ([v j] & E & H). apply filter_In in H as [H E']. cbn in *. apply Z.eqb_eq in E'. now subst.
  - intros H. exists (u, i). split; auto. apply filter_In. split; auto. apply Z.eqb_refl.
Qed.
Lemma map_zposition_nodup ids l : NoDup l -> (forall x, In x l -> In x ids) -> NoDup (map (zposition ids) l).
Proof.
  induction 1 as [|x l Hx HN IH]; intros H; cbn; constructor.
  - rewrite in_map_iff. intros (y & E & Hy). apply zposition_inj in E; [congruence|apply H; now right|apply H; now left].
  - apply IH. intros; apply H; now right.
Qed.

Section Disc.
Variable disc : nat -> Q.

Lemma df_eval_report rec gt k sched : 1 <= k -> no_repeats rec ->
  evaluate_recommendation_df disc rec gt k sched <> Pending ->
  exists r, evaluate_recommendation_df disc rec gt k sched = Ok r /\ df_report_means disc rec gt r.
Proof.
  intros Hk HN Hp. unfold evaluate_recommendation_df in *.
  set (rd := isin_users rec gt) in *. set (gd := isin_users gt rd) in *.
  set (us := sorted_ids (map fst rd)) in *. set (ids := sorted_ids (map snd rd ++ map snd gd)) in *.
  assert (HR : forall u i, In (u, i) rd -> In u us /\ In i ids).
  { intros u i H. unfold us, ids. rewrite !sorted_ids_in, in_app_iff, !in_map_iff. split; [now exists (u, i)|left; now exists (u, i)]. }
  assert (HG : forall u i, In (u, i) gd -> In u us /\ In i ids).
  { intros u i H. split.
    - apply isin_users_in in H as [_ (j & Hj)]. now apply (HR u j).
    - unfold ids. rewrite sorted_ids_in, in_app_iff, !in_map_iff. right; now exists (u, i). }
  change (@nil (nat * list nat)) with (grouped us ids []) in Hp |- *.
  rewrite !group_rows_spec in Hp |- * by auto. cbn [app obind] in *.
  assert (HB : forall u, In u (keys rd) <-> in_both rec gt u).
  { intros u. rewrite keys_in. unfold in_both. split.
    - intros (i & Hi). apply isin_users_in in Hi as [H1 H2]. split; eauto.
    - intros [(i & Hi) H2]. exists i. apply isin_users_in. auto. }
  assert (HB' : forall u, in_both rec gt u -> exists i, In (u, i) gd).
  { intros u Hu. pose proof (proj2 (HB u) Hu) as Hkk. apply keys_in in Hkk as (j & Hj). destruct Hu as [_ (i & Hi)]. exists i. apply isin_users_in. eauto. }
  set (tops := map (fun u => map (zposition ids) (items_of rec u)) (keys rd)).
  set (gts := map (fun u => map (zposition ids) (items_of gt u)) (keys rd)).
  assert (ET : map snd (grouped us ids rd) = tops).
  { unfold grouped, tops. rewrite map_map. cbn. apply map_ext_in. intros u Hu. unfold rd. rewrite items_of_isin; auto.
    apply HB in Hu. apply Hu. }
  assert (EG : map (fun p => dict_get (grouped us ids gd) (fst p)) (grouped us ids rd) = gts).
  { unfold grouped at 2, gts. rewrite map_map. cbn. apply map_ext_in. intros u Hu. rewrite dict_get_grouped.
    - unfold gd. rewrite items_of_isin; auto. now apply keys_in.
    - intros v j Hj. now apply (HG v j).
    - apply keys_in in Hu as (j & Hj). now apply (HR u j).
    - apply HB', HB, Hu. }
  rewrite ET, EG in *.
  assert (HO : lists_ok (length ids) tops gts).
  { repeat split.
    - unfold tops, gts. now rewrite !map_length.
    - apply Forall_forall. intros l Hl. apply in_map_iff in Hl as (u & <- & Hu). apply HB in Hu.
      assert (HI : forall x, In x (items_of rec u) -> In x ids).
      { intros x Hx. apply items_of_in in Hx. apply (HR u x). apply isin_users_in. split; auto. apply Hu. }
      split; [apply map_zposition_nodup; auto; now apply items_of_nodup|].
      apply Forall_forall. intros k' Hk'. apply in_map_iff in Hk' as (x & <- & Hx). apply zposition_lt; auto.
    - apply Forall_forall. intros l Hl. apply in_map_iff in Hl as (u & <- & Hu). apply HB in Hu.
      destruct (HB' u Hu) as (j & Hj). apply isin_users_in in Hj as [Hj Hj']. split.
      + apply items_of_in in Hj. destruct (items_of gt u); [destruct Hj|discriminate].
      + apply Forall_forall. intros k' Hk'. apply in_map_iff in Hk' as (x & <- & Hx). apply zposition_lt.
        apply items_of_in in Hx. apply (HG u x). apply isin_users_in. split; auto. }
  destruct (list_eval_report disc (length ids) tops gts k sched HO Hk) as (m & E & Hm).
  { intros E. rewrite E in Hp. now cbn in Hp. }
  exists (as_dict m). rewrite E. split; [reflexivity|].
  exists (keys rd), ids. split; [apply keys_nodup|]. split; [exact HB|]. split; [apply sorted_ids_nodup|]. split; [|exact Hm].
  intros i. unfold ids. rewrite sorted_ids_in, in_app_iff, !in_map_iff. split.
  - intros [([u j] & E1 & H)|([u j] & E1 & H)]; cbn in E1; subst j; exists u.
    + split; [apply HB, keys_in; eauto|]. left. now apply isin_users_in in H.
    + apply isin_users_in in H as [H1 (j & Hj)]. split; [apply HB, keys_in; eauto|]. now right.
  - intros (u & Hu & [H|H]).
    + left. exists (u, i). split; auto. apply isin_users_in. split; auto. apply Hu.
    + right. exists (u, i). split; auto. apply isin_users_in. split; auto. apply keys_in. now apply HB.
Qed.
End Disc.
