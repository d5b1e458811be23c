(** Proofs about the evaluator core: the model computes the textbook metrics
    of Eval_Spec for every schedule. *)
From Coq Require Import Setoid Morphisms Lqa.
From Verif Require Import Base Sched_Model Sched_Proofs Eval_Model Eval_Spec Sort_Proofs.
Local Open Scope nat_scope.

(** * Metrics as a commutative monoid *)
Global Instance meq_equiv : Equivalence meq.
Proof.
  split.
  - intros a; split; reflexivity.
  - intros a b []; split; symmetry; assumption.
  - intros a b c [] []; split; etransitivity; eassumption.
Qed.

Global Instance merge_proper : Proper (meq ==> meq ==> meq) merge.
Proof.
  intros a a' [] b b' []; split; cbn; try congruence;
  match goal with H1 : (_ ?x == _)%Q |- (?f ?x + _ == _)%Q => idtac | _ => idtac end;
  try (apply Qplus_comp; assumption).
Qed.

Lemma map2_comm (l l' : list nat) : map2 Nat.add l l' = map2 Nat.add l' l.
Proof. revert l'; induction l as [|a l IH]; intros [|b l']; cbn; auto. f_equal; auto; lia. Qed.
Lemma map2_assoc (l1 l2 l3 : list nat) :
  map2 Nat.add (map2 Nat.add l1 l2) l3 = map2 Nat.add l1 (map2 Nat.add l2 l3).
Proof. revert l2 l3; induction l1 as [|a l IH]; intros [|b l2] [|c l3]; cbn; auto. f_equal; auto; lia. Qed.
Lemma map2_repeat0_r l n : length l = n -> map2 Nat.add l (repeat 0 n) = l.
Proof. revert n; induction l as [|a l IH]; intros [|n]; cbn; auto; try discriminate. intros [= H]. f_equal; auto. Qed.
Lemma map2_length {A B C} (f : A -> B -> C) l l' : length (map2 f l l') = min (length l) (length l').
Proof. revert l'; induction l as [|a l IH]; intros [|b l']; cbn; auto. Qed.


Lemma wf_empty n : wf_metrics n (empty_metrics n).
Proof. split; cbn; auto. apply repeat_length. Qed.
Lemma wf_merge n a b : wf_metrics n a -> wf_metrics n b -> wf_metrics n (merge a b).
Proof. intros [Ha1 Ha2] [Hb1 Hb2]; split; cbn; auto. rewrite map2_length. lia. Qed.
Lemma wf_meq n a b : meq a b -> wf_metrics n a -> wf_metrics n b.
Proof. intros [] []; split; congruence. Qed.

Lemma merge_assoc_l a b c : meq (merge (merge a b) c) (merge a (merge b c)).
Proof. split; cbn; try lia; try ring; auto. apply map2_assoc. Qed.
Lemma merge_comm_l n a b : wf_metrics n a -> wf_metrics n b -> meq (merge a b) (merge b a).
Proof. intros [] []; split; cbn; try lia; try ring; try congruence. apply map2_comm. Qed.
Lemma merge_empty_r n a : wf_metrics n a -> meq (merge a (empty_metrics n)) a.
Proof. intros []; split; cbn; try lia; try ring; auto. now apply map2_repeat0_r. Qed.
Lemma merge_empty_l n a : wf_metrics n a -> meq (merge (empty_metrics n) a) a.
Proof. intros H. rewrite (merge_comm_l n); auto using wf_empty. now apply merge_empty_r. Qed.

Definition msum (n : nat) (l : list metrics) : metrics := fold_right merge (empty_metrics n) l.

Lemma wf_msum n l : Forall (wf_metrics n) l -> wf_metrics n (msum n l).
Proof. induction 1; cbn; auto using wf_empty, wf_merge. Qed.
Lemma msum_app n l1 l2 : Forall (wf_metrics n) l1 -> Forall (wf_metrics n) l2 ->
  meq (msum n (l1 ++ l2)) (merge (msum n l1) (msum n l2)).
Proof.
  intros H1 H2; induction H1; cbn.
  - symmetry; apply merge_empty_l. now apply wf_msum.
  - rewrite merge_assoc_l. apply merge_proper; [reflexivity|assumption].
Qed.
Lemma msum_perm n l1 l2 : Forall (wf_metrics n) l1 -> Permutation l1 l2 -> meq (msum n l1) (msum n l2).
Proof.
  intros H HP; revert H; induction HP; intros H; cbn.
  - reflexivity.
  - inversion H; subst. apply merge_proper; [reflexivity|auto].
  - inversion H as [|? ? Hy H']; subst. inversion H' as [|? ? Hx H'']; subst.
    rewrite <- !merge_assoc_l. apply merge_proper; [|reflexivity]. eapply merge_comm_l; eauto.
  - rewrite IHHP1 by auto. apply IHHP2. now rewrite <- HP1.
Qed.
Lemma msum_concat n ls : Forall (Forall (wf_metrics n)) ls ->
  meq (msum n (concat ls)) (msum n (map (msum n) ls)).
Proof.
  induction 1 as [|l ls Hl Hls IH]; [reflexivity|].
  change (meq (msum n (l ++ concat ls)) (merge (msum n l) (msum n (map (msum n) ls)))).
  rewrite msum_app; auto.
  - apply merge_proper; [reflexivity|auto].
  - clear -Hls. induction Hls; cbn; auto. apply Forall_app; auto.
Qed.

(** * Sums *)
Lemma sum_upto_S n f : (sum_upto (S n) f == f 0%nat + sum_upto n (fun i => f (S i)))%Q.
Proof. unfold sum_upto. cbn. rewrite <- seq_shift, map_map. reflexivity. Qed.
Lemma sum_upto_ext n f g : (forall i, i < n -> (f i == g i)%Q) -> (sum_upto n f == sum_upto n g)%Q.
Proof.
  revert f g; induction n as [|n IH]; intros f g H; [reflexivity|].
  rewrite !sum_upto_S. rewrite (H 0%nat) by lia. rewrite (IH (fun i => f (S i)) (fun i => g (S i))); [reflexivity|].
  intros; apply H; lia.
Qed.
Lemma sum_upto_0 f : sum_upto 0 f = 0%Q.
Proof. reflexivity. Qed.
Lemma sum_upto_nonneg n f : (forall i, i < n -> (0 <= f i)%Q) -> (0 <= sum_upto n f)%Q.
Proof.
  revert f; induction n as [|n IH]; intros f H; [apply Qle_refl|].
  rewrite sum_upto_S. specialize (IH (fun i => f (S i))). 
  assert (0 <= f 0%nat)%Q by (apply H; lia).
  assert (0 <= sum_upto n (fun i => f (S i)))%Q by (apply IH; intros; apply H; lia). lra.
Qed.
Lemma sum_upto_last n f : (sum_upto (S n) f == sum_upto n f + f n)%Q.
Proof.
  revert f; induction n as [|n IH]; intros f; [rewrite sum_upto_S; cbn; ring|].
  rewrite sum_upto_S, IH, (sum_upto_S n). ring.
Qed.

Lemma fold_left_qplus l a : (fold_left Qplus l a == a + fold_right Qplus 0 l)%Q.
Proof. revert a; induction l as [|x l IH]; intros a; cbn; [ring|]. rewrite IH. ring. Qed.

Lemma nat_mem_relevant x l : nat_mem x l = relevant l x.
Proof.
  unfold nat_mem, relevant. destruct (in_dec Nat.eq_dec x l) as [H|H].
  - apply existsb_exists. exists x; split; auto. apply Nat.eqb_refl.
  - destruct (existsb (Nat.eqb x) l) eqn:E; auto. apply existsb_exists in E as (y & Hy & E).
    apply Nat.eqb_eq in E. congruence.
Qed.
Lemma relevant_true x l : relevant l x = true <-> In x l.
Proof. unfold relevant. destruct in_dec; split; auto; discriminate. Qed.
Lemma relevant_false x l : relevant l x = false <-> ~ In x l.
Proof. unfold relevant. destruct in_dec; split; auto; try discriminate; tauto. Qed.

(** * The update loop in closed form *)
Section Disc.
Variable disc : nat -> Q.

Lemma dcg_discount_nth n i : i < n -> nth_error (dcg_discount disc n) i = Some (disc i).
Proof.
  intros H. unfold dcg_discount. rewrite nth_error_map.
  assert (E : nth_error (seq 0 n) i = Some i).
  { rewrite (nth_error_nth' _ 0) by (now rewrite seq_length). now rewrite seq_nth. }
  now rewrite E.
Qed.

Lemma nth_update_nth (l : list nat) k x j d :
  nth j (update_nth l k x) d = if (j =? k) && (k <? length l) then x else nth j l d.
Proof.
  revert k j; induction l as [|a l IH]; intros k j; cbn [update_nth].
  - cbn. rewrite andb_false_r. reflexivity.
  - destruct k as [|k], j as [|j]; cbn [nth length]; try reflexivity.
    + rewrite IH. cbn [Nat.eqb]. replace (S k <? S (length l)) with (k <? length l); auto.
Qed.

Lemma count_occ_cons_eq (r j : nat) recs :
  count_occ Nat.eq_dec (r :: recs) j = (if j =? r then 1 else 0) + count_occ Nat.eq_dec recs j.
Proof. cbn. destruct (Nat.eq_dec r j) as [->|H]; [now rewrite Nat.eqb_refl|].
  destruct (Nat.eqb_spec j r); [congruence|reflexivity]. Qed.

Lemma update_loop_closed n gt recs : forall i dcg h ap cnt,
  i + length recs <= n -> Forall (fun r => r < length cnt) recs ->
  exists dcg' ap' cnt',
    update_loop disc n gt i recs (dcg, h, ap, cnt) = Ok (dcg', h + n_hits recs gt, ap', cnt') /\
    (dcg' == dcg + sum_upto (length recs) (fun k => if relevant gt (nth k recs 0%nat) then disc (i + k)%nat else 0))%Q /\
    (ap' == ap + sum_upto (length recs) (fun k =>
        if relevant gt (nth k recs 0%nat)
        then q_of_nat (h + n_hits (firstn (S k) recs) gt)%nat / q_of_nat (i + S k)%nat else 0))%Q /\
    length cnt' = length cnt /\
    (forall j, nth j cnt' 0 = nth j cnt 0 + (if j <? length cnt then count_occ Nat.eq_dec recs j else 0)).
Proof.
  induction recs as [|r recs IH]; intros i dcg h ap cnt Hlen Hr.
  - cbn [update_loop]. exists dcg, ap, cnt. change (n_hits [] gt) with 0. rewrite Nat.add_0_r.
    repeat split; auto; try (unfold sum_upto; cbn; ring). cbn [count_occ].
    intros j. destruct (j <? length cnt); lia.
  - inversion Hr as [|? ? Hr0 Hr']; subst. cbn [length] in Hlen.
    cbn [update_loop].
    destruct (nth_error cnt r) as [c|] eqn:Ec; [|apply nth_error_None in Ec; lia].
    assert (Hnth : nth r cnt 0 = c) by (now apply nth_error_nth).
    rewrite nat_mem_relevant.
    set (cnt1 := update_nth cnt r (S c)).
    assert (Hl1 : length cnt1 = length cnt) by apply update_nth_length.
    assert (Hr1 : Forall (fun r => r < length cnt1) recs) by (now rewrite Hl1).
    assert (Hcnt : forall j, nth j cnt1 0 + (if j <? length cnt1 then count_occ Nat.eq_dec recs j else 0) =
                    nth j cnt 0 + (if j <? length cnt then count_occ Nat.eq_dec (r :: recs) j else 0)).
    { intros j. rewrite Hl1. unfold cnt1. rewrite nth_update_nth, count_occ_cons_eq.
      destruct (Nat.ltb_spec r (length cnt)); [|lia]. rewrite andb_true_r.
      destruct (Nat.eqb_spec j r) as [->|Hne].
      - destruct (Nat.ltb_spec r (length cnt)); lia.
      - destruct (j <? length cnt); lia. }
    assert (Hh : n_hits (r :: recs) gt = (if relevant gt r then 1 else 0) + n_hits recs gt).
    { unfold n_hits; cbn. destruct (relevant gt r); reflexivity. }
    destruct (relevant gt r) eqn:Er.
    + rewrite dcg_discount_nth by lia.
      destruct (IH (S i) (dcg + disc i)%Q (S h) (ap + q_of_nat (S h) / q_of_nat (i + 1))%Q cnt1)
        as (dcg' & ap' & cnt' & E & Hd & Ha & Hl & Hc); [lia|assumption|].
      exists dcg', ap', cnt'. split; [|split; [|split; [|split]]].
      * rewrite E. f_equal. rewrite Hh. replace (h + (1 + n_hits recs gt)) with (S h + n_hits recs gt) by lia. reflexivity.
      * rewrite Hd. cbn [length]. rewrite sum_upto_S. cbn [nth]. rewrite Er, Nat.add_0_r.
        rewrite <- Qplus_assoc. do 2 (apply Qplus_comp; [reflexivity|]).
        apply sum_upto_ext. intros k Hk. replace (S i + k) with (i + S k) by lia. reflexivity.
      * rewrite Ha. cbn [length]. rewrite sum_upto_S. cbn [nth]. rewrite Er. cbn [firstn].
        unfold n_hits at 2; cbn [filter]. rewrite Er. cbn [length].
        rewrite <- Qplus_assoc. apply Qplus_comp; [reflexivity|]. apply Qplus_comp.
        { replace (h + 1) with (S h) by lia. reflexivity. }
        apply sum_upto_ext. intros k Hk. unfold n_hits; cbn [firstn filter]; rewrite Er; cbn [length].
        destruct (relevant gt (nth k recs 0)); [|reflexivity].
        replace (S i + S k) with (i + S (S k)) by lia.
        match goal with |- (q_of_nat ?x / _ == q_of_nat ?y / _)%Q => replace y with x; [reflexivity|cbn [firstn]; lia] end.
      * congruence.
      * intros j. rewrite Hc. apply Hcnt.
    + destruct (IH (S i) dcg h ap cnt1)
        as (dcg' & ap' & cnt' & E & Hd & Ha & Hl & Hc); [lia|assumption|].
      exists dcg', ap', cnt'. split; [|split; [|split; [|split]]].
      * rewrite E. f_equal. rewrite Hh. reflexivity.
      * rewrite Hd. cbn [length]. rewrite sum_upto_S. cbn [nth]. rewrite Er, Qplus_0_l.
        apply Qplus_comp; [reflexivity|].
        apply sum_upto_ext. intros k Hk. replace (S i + k) with (i + S k) by lia. reflexivity.
      * rewrite Ha. cbn [length]. rewrite sum_upto_S. cbn [nth]. rewrite Er. rewrite Qplus_0_l.
        apply Qplus_comp; [reflexivity|].
        apply sum_upto_ext. intros k Hk. unfold n_hits; cbn [firstn filter]; rewrite Er; cbn [length].
        replace (S i + S k) with (i + S (S k)) by lia. reflexivity.
      * congruence.
      * intros j. rewrite Hc. apply Hcnt.
Qed.

(** Contribution of one valid user with recommendations [recs]. *)
Definition contrib (n : nat) (rwc : bool) (recs gt : list nat) : metrics :=
  mkMetrics 1 1 (hit_of recs gt) (recall_of rwc recs gt) (ndcg_of disc recs gt)
            (precision_of recs gt) (ap_of recs gt) n
            (map (count_occ Nat.eq_dec recs) (seq 0 n)).
(** Contribution of a user without ground truth. *)
Definition contrib0 (n : nat) : metrics := mkMetrics 0 1 0 0 0 0 0 n (repeat 0 n).

Lemma wf_contrib n rwc recs gt : wf_metrics n (contrib n rwc recs gt).
Proof. split; cbn; auto. now rewrite map_length, seq_length. Qed.
Lemma wf_contrib0 n : wf_metrics n (contrib0 n).
Proof. split; cbn; auto. apply repeat_length. Qed.

Lemma nth_ext0 (l l' : list nat) : length l = length l' -> (forall j, nth j l 0 = nth j l' 0) -> l = l'.
Proof. intros H1 H2. apply (nth_ext l l' 0 0); auto. Qed.

Lemma nth_map2_add l l' j : length l = length l' ->
  nth j (map2 Nat.add l l') 0 = nth j l 0 + nth j l' 0.
Proof.
  revert l' j; induction l as [|a l IH]; intros [|b l'] [|j]; cbn; try discriminate; auto.
Qed.

Lemma nth_map_seq0 (f : nat -> nat) n j : nth j (map f (seq 0 n)) 0 = if j <? n then f j else 0.
Proof.
  destruct (Nat.ltb_spec j n).
  - rewrite (nth_indep _ 0 (f 0)) by (now rewrite map_length, seq_length).
    rewrite map_nth, seq_nth; auto.
  - apply nth_overflow. now rewrite map_length, seq_length.
Qed.

Lemma update_contrib n m recs gt rwc :
  gt <> [] -> wf_metrics n m -> Forall (fun r => r < n) recs -> length recs <= n ->
  exists m', update disc (increment_total_user m) recs gt rwc = Ok m' /\ meq m' (merge m (contrib n rwc recs gt)).
Proof.
  intros Hg [Hn Hcl] Hr Hlen. unfold update. cbn [increment_total_user m_valid_user m_total_user m_hit m_recall m_ndcg m_precision m_map m_n_item m_item_cnt].
  destruct (Nat.eqb_spec (length recs) 0) as [E0|E0].
  - destruct recs; [|discriminate]. eexists; split; [reflexivity|].
    split; cbn; try lia; try (unfold sum_upto; cbn); auto; try ring.
    + unfold ap_of, sum_upto; cbn. unfold Qdiv. ring.
    + transitivity (map2 Nat.add (m_item_cnt m) (repeat 0 n)); [now rewrite map2_repeat0_r|].
      f_equal. apply nth_ext0; [now rewrite map_length, seq_length, repeat_length|].
      intros j. rewrite nth_map_seq0. rewrite nth_repeat. destruct (j <? n); auto.
  - destruct (Nat.ltb_spec (m_n_item m) (min (length gt) (length recs))) as [Hbad|_]; [lia|].
    destruct (Nat.eqb_spec (length gt) 0) as [Eg|_]; [destruct gt; [congruence|discriminate]|].
    destruct (update_loop_closed (m_n_item m) gt recs 0 0%Q 0 0%Q (m_item_cnt m))
      as (dcg' & ap' & cnt' & E & Hd & Ha & Hl & Hc); [lia|now rewrite Hcl|].
    rewrite E. cbn [obind]. eexists; split; [reflexivity|].
    assert (Hhit : (0 <? 0 + n_hits recs gt) = negb (n_hits recs gt =? 0)) by (destruct (n_hits recs gt); reflexivity).
    split; cbn -[q_of_nat Qdiv Qplus Nat.ltb]; try lia; auto.
    + change (0 <? n_hits recs gt) with (0 <? 0 + n_hits recs gt). rewrite Hhit. unfold hit_of.
      destruct (n_hits recs gt =? 0); cbn -[Qplus]; [ring|reflexivity].
    + unfold recall_of. destruct (Nat.eqb_spec (length recs) 0); [lia|].
      apply Qplus_comp; [reflexivity|]. unfold q_of_nat.
      replace (if length recs <? length gt then length recs else length gt) with (min (length gt) (length recs)); [reflexivity|].
      destruct (Nat.ltb_spec (length recs) (length gt)); lia.
    + apply Qplus_comp; [reflexivity|]. unfold ndcg_of.
      destruct (Nat.eqb_spec (length recs) 0); [lia|]. unfold Qdiv. apply Qmult_comp.
      * rewrite Hd, Qplus_0_l. unfold dcg_of. reflexivity.
      * apply Qinv_comp. rewrite fold_left_qplus, Qplus_0_l. unfold idcg_of, sum_upto, dcg_discount.
        rewrite firstn_map. rewrite <- (firstn_skipn (min (length gt) (length recs)) (seq 0 (m_n_item m))) at 1.
        replace (firstn (min (length gt) (length recs)) (seq 0 (m_n_item m))) with (seq 0 (min (length gt) (length recs))).
        { rewrite firstn_app, seq_length, Nat.sub_diag, firstn_all2 by (now rewrite seq_length).
          cbn [firstn]. rewrite app_nil_r. reflexivity. }
        replace (m_n_item m) with (min (length gt) (length recs) + (m_n_item m - min (length gt) (length recs))) by lia.
        rewrite seq_app, firstn_app, seq_length, Nat.sub_diag, firstn_all2 by (now rewrite seq_length).
        cbn [firstn]. now rewrite app_nil_r.
    + unfold precision_of. destruct (Nat.eqb_spec (length recs) 0); [lia|]. reflexivity.
    + apply Qplus_comp; [reflexivity|]. unfold ap_of. apply Qdiv_comp || (unfold Qdiv; apply Qmult_comp); [|reflexivity].
      rewrite Ha, Qplus_0_l. unfold q_of_nat. reflexivity.
    + apply nth_ext0.
      { rewrite map2_length, map_length, seq_length. lia. }
      intros j. rewrite Hc, nth_map2_add by (now rewrite map_length, seq_length).
      rewrite nth_map_seq0, Hcl. reflexivity.
Qed.

Lemma increment_contrib0 n m : wf_metrics n m -> meq (increment_total_user m) (merge m (contrib0 n)).
Proof.
  intros [Hn Hl]. split; cbn; try lia; try ring; auto. symmetry. now apply map2_repeat0_r.
Qed.
End Disc.
