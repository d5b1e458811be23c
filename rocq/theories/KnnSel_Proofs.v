(** The selection of the best neighbours of one row. *)
From Verif Require Import Base Knn_Model Knn_Spec Knn_Proofs Rec_Proofs SplitDf_Proofs Sort_Proofs.
From Coq Require Import QArith Reals Lra.
Local Open Scope nat_scope.

Section Sel.
Context {V : Type}.
Variable v0 : V.
Variable vadd : V -> V -> V.
Variables vneqb vgtb : V -> V -> bool.
Variable nth_element : (nat -> nat -> bool) -> nat -> list nat -> list nat.
Variable sort_nat : list nat -> list nat.
Hypothesis lin : linear_values vneqb vgtb.
Hypothesis ne_ok : nth_element_ok nth_element.
Hypothesis so_ok : sort_nat_ok sort_nat.

Let sel := sel v0 vneqb vgtb nth_element sort_nat.

Definition rb (a b : nat * V) : bool :=
  if vneqb (snd a) (snd b) then vgtb (snd a) (snd b) else fst a <? fst b.

Lemma rb_iff a b : rb a b = true <->
  vgtb (snd a) (snd b) = true \/ (vgtb (snd b) (snd a) = false /\ fst a < fst b).
Proof.
  destruct lin as (L0 & L1 & L2 & L3 & L4). unfold rb.
  destruct (vneqb (snd a) (snd b)) eqn:E.
  - apply L1 in E. split; [tauto|]. intros [H|[H _]]; [assumption|]. destruct E; congruence.
  - assert (vgtb (snd a) (snd b) = false /\ vgtb (snd b) (snd a) = false) as [Ha Hb].
    { destruct (vgtb (snd a) (snd b)) eqn:G1.
      - assert (vneqb (snd a) (snd b) = true) by (apply L1; left; assumption). congruence.
      - destruct (vgtb (snd b) (snd a)) eqn:G2; [|tauto].
        assert (vneqb (snd a) (snd b) = true) by (apply L1; right; assumption). congruence. }
    rewrite Nat.ltb_lt. split; [intros; right; tauto|]. intros [H|[_ H]]; [congruence|assumption].
Qed.

Lemma rb_trans a b c : rb a b = true -> rb b c = true -> rb a c = true.
Proof.
  destruct lin as (L0 & L1 & L2 & L3 & L4). rewrite !rb_iff. intros [H|[H Hl]] [G|[G Gl]].
  - left. eapply L2; eassumption.
  - left. destruct (L3 _ _ (snd c) H) as [K|K]; [assumption|congruence].
  - left. destruct (L3 _ _ (snd a) G) as [K|K]; [congruence|assumption].
  - right. split; [|lia]. destruct (vgtb (snd c) (snd a)) eqn:K; [|reflexivity].
    destruct (L3 _ _ (snd b) K); congruence.
Qed.

Lemma rb_negtrans a b c : rb a b = true -> rb a c = true \/ rb c b = true.
Proof.
  destruct lin as (L0 & L1 & L2 & L3 & L4). rewrite !rb_iff. intros [H|[H Hl]].
  - destruct (L3 _ _ (snd c) H); tauto.
  - destruct (vgtb (snd a) (snd c)) eqn:G; [tauto|].
    destruct (vgtb (snd c) (snd a)) eqn:K.
    + right. destruct (L3 _ _ (snd b) K) as [J|J]; [tauto|congruence].
    + destruct (vgtb (snd c) (snd b)) eqn:J; [tauto|].
      destruct (vgtb (snd b) (snd c)) eqn:J2.
      * destruct (L3 _ _ (snd a) J2); congruence.
      * destruct (Nat.lt_ge_cases (fst a) (fst c)); [left; right; tauto|].
        right; right. split; [auto|lia].
Qed.

Lemma rb_irrefl a : rb a a = false.
Proof.
  destruct lin as (L0 & _). unfold rb. rewrite L0. apply Nat.ltb_irrefl.
Qed.

Lemma comp_rb r d i j : score_descending vneqb vgtb r d i j = rb (nth i r d) (nth j r d).
Proof. reflexivity. Qed.

Lemma comp_weak r d : strict_weak (score_descending vneqb vgtb r d).
Proof.
  repeat split; intros *; rewrite !comp_rb.
  - apply rb_irrefl.
  - apply rb_trans.
  - apply rb_negtrans.
Qed.

Lemma map_nth_all (r : srow V) d : map (fun i => nth i r d) (seq 0 (length r)) = r.
Proof.
  induction r as [|e r IH]; [reflexivity|]. cbn [length seq map nth]. f_equal.
  rewrite <- seq_shift, map_map. exact IH.
Qed.

Lemma sel_spec k r : NoDup (map fst r) -> exists rest,
  Permutation (sel k r ++ rest) r /\ length (sel k r) = min k (length r) /\
  forall e d, In e (sel k r) -> In d rest -> rb e d = true.
Proof.
  intros Hnd. unfold sel, Knn_Proofs.sel, row_triples. rewrite map_map. cbn [fst snd].
  set (col := min (length r) k). set (d := (0, v0)).
  set (B := if col <? length r then _ else _).
  assert (HB : Permutation B (seq 0 (length r)) /\
               forall a b, In a (firstn col B) -> In b (skipn col B) ->
                           score_descending vneqb vgtb r d b a = false).
  { unfold B. destruct (Nat.ltb_spec col (length r)).
    - apply ne_ok; [apply comp_weak|]. rewrite seq_length. lia.
    - split; [reflexivity|]. intros a b _ Hb. rewrite skipn_all2 in Hb; [destruct Hb|].
      rewrite seq_length. lia. }
  destruct HB as [HB Hrank].
  destruct (so_ok (firstn col B)) as [Hsp _].
  assert (HlB : length B = length r) by (rewrite (Permutation_length HB); apply seq_length).
  rewrite (map_ext _ (fun i => nth i r d)) by (intros i; destruct (nth i r d); reflexivity).
  exists (map (fun i => nth i r d) (skipn col B)).
  assert (Hin : forall a, In a B -> a < length r).
  { intros a Ha. apply (Permutation_in _ HB) in Ha. apply in_seq in Ha. lia. }
  split; [|split].
  - rewrite <- map_app. rewrite Hsp, firstn_skipn, HB, map_nth_all. reflexivity.
  - rewrite map_length, (Permutation_length Hsp), firstn_length. lia.
  - intros e x He Hx. apply in_map_iff in He. destruct He as [i [<- Hi]].
    apply in_map_iff in Hx. destruct Hx as [j [<- Hj]].
    apply (Permutation_in _ Hsp) in Hi.
    pose proof (Hrank i j Hi Hj) as Hc. rewrite comp_rb in Hc.
    assert (Hij : i <> j).
    { intros ->. assert (HnB : NoDup B) by (eapply Permutation_NoDup; [symmetry; exact HB|apply seq_NoDup]).
      rewrite <- (firstn_skipn col B) in HnB. apply nodup_app_iff in HnB.
      destruct HnB as (_ & _ & Hd). exact (Hd _ Hi Hj). }
    assert (Hil : i < length r) by (apply Hin; eapply firstn_in; eassumption).
    assert (Hjl : j < length r) by (apply Hin; eapply skipn_in; eassumption).
    assert (Hf : fst (nth i r d) <> fst (nth j r d)).
    { rewrite <- !(map_nth fst). intros E. apply Hij.
      eapply (NoDup_nth (map fst r)); try (rewrite map_length); eassumption. }
    destruct (rb (nth i r d) (nth j r d)) eqn:E; [reflexivity|].
    exfalso. revert E Hc. destruct lin as (_ & L1 & _). unfold rb.
    destruct (vneqb (snd (nth i r d)) (snd (nth j r d))) eqn:E1;
    destruct (vneqb (snd (nth j r d)) (snd (nth i r d))) eqn:E2.
    + intros E Hc. apply L1 in E1. destruct E1; congruence.
    + intros E _. apply L1 in E1. rewrite or_comm in E1. apply L1 in E1. congruence.
    + intros _ _. apply L1 in E2. rewrite or_comm in E2. apply L1 in E2. congruence.
    + intros E Hc. apply Nat.ltb_ge in E, Hc. lia.
Qed.

Lemma at_col_in c v (s : srow V) : In v (at_col c s) <-> In (c, v) s.
Proof.
  unfold at_col. rewrite in_map_iff. split.
  - intros [[c' v'] [E H]]. cbn in E. subst. apply filter_In in H. destruct H as [H E].
    cbn in E. apply Nat.eqb_eq in E. subst. assumption.
  - intros H. exists (c, v). split; [reflexivity|]. apply filter_In. split; [assumption|].
    apply Nat.eqb_refl.
Qed.

Lemma at_col_unique c v (s : srow V) : NoDup (map fst s) -> In (c, v) s -> at_col c s = [v].
Proof.
  induction s as [|[c' v'] s IH]; intros Hnd Hin; [destruct Hin|].
  cbn [map fst] in Hnd. inversion_clear Hnd as [|? ? Hni Hnd']. unfold at_col. cbn [filter fst].
  destruct Hin as [E|Hin].
  - inversion E; subst. rewrite Nat.eqb_refl. cbn [map snd]. f_equal.
    rewrite filter_none; [reflexivity|]. apply Forall_forall. intros e He.
    apply Nat.eqb_neq. intros E'. apply Hni. rewrite <- E'. apply in_map. assumption.
  - destruct (Nat.eqb_spec c' c) as [->|_].
    + exfalso. apply Hni. apply (in_map fst) in Hin. exact Hin.
    + apply IH; assumption.
Qed.

Lemma at_col_none c (s : srow V) : ~ In c (map fst s) -> at_col c s = [].
Proof.
  intros H. unfold at_col. rewrite filter_none; [reflexivity|]. apply Forall_forall. intros e He.
  apply Nat.eqb_neq. intros E. apply H. rewrite <- E. apply in_map. assumption.
Qed.

Lemma seq_sorted n : forall s, StronglySorted lt (seq s n).
Proof.
  induction n as [|n IH]; intros s; constructor; [apply IH|].
  apply Forall_forall. intros x Hx. apply in_seq in Hx. lia.
Qed.

Lemma sorted_nodup (l : list nat) : StronglySorted lt l -> NoDup l.
Proof.
  induction 1 as [|x l Hs IH Hf]; constructor; [|assumption].
  intros Hin. rewrite Forall_forall in Hf. apply Hf in Hin. lia.
Qed.

Lemma normal_fst N (s : srow V) :
  map fst (normal_row v0 vadd N s)
  = filter (fun c => match at_col c s with [] => false | _ => true end) (seq 0 N).
Proof.
  unfold normal_row. induction (seq 0 N) as [|c l IH]; [reflexivity|]. cbn [flat_map filter].
  rewrite map_app, IH. destruct (at_col c s); reflexivity.
Qed.

Lemma normal_sorted N s : StronglySorted lt (map fst (normal_row v0 vadd N s)).
Proof. rewrite normal_fst. apply sorted_filter, seq_sorted. Qed.

Lemma normal_perm N s : good_row N s -> Permutation (normal_row v0 vadd N s) s.
Proof.
  intros [Hnd Hlt]. apply NoDup_Permutation.
  - eapply NoDup_map_inv. apply sorted_nodup, normal_sorted.
  - eapply NoDup_map_inv. exact Hnd.
  - intros [c v]. unfold normal_row. rewrite in_flat_map. split.
    + intros [c' [Hc' H]]. destruct (at_col c' s) as [|w l] eqn:E; [destruct H|].
      destruct H as [H|[]]. assert (Hw : In w (at_col c' s)) by (rewrite E; left; reflexivity).
      apply at_col_in in Hw. rewrite (at_col_unique c' w s Hnd Hw) in E. injection E as <-.
      cbn [vsum1 fold_left] in H. congruence.
    + intros H. exists c. split.
      * apply in_seq. split; [lia|]. apply Hlt. apply (in_map fst) in H. exact H.
      * rewrite (at_col_unique c v s Hnd H). left. reflexivity.
Qed.

Theorem normal_sel_top_k N k r : good_row N r ->
  top_k_of vneqb vgtb k r (normal_row v0 vadd N (sel k r)).
Proof.
  intros [Hnd Hlt]. destruct (sel_spec k r Hnd) as (rest & Hp & Hlen & Hrk).
  assert (Hg : good_row N (sel k r)).
  { split.
    - assert (NoDup (map fst (sel k r ++ rest))).
      { eapply Permutation_NoDup; [|exact Hnd]. apply Permutation_map. symmetry. exact Hp. }
      rewrite map_app in H. apply nodup_app_iff in H. tauto.
    - intros c Hc. apply Hlt. eapply Permutation_in; [apply Permutation_map, Hp|].
      rewrite map_app. apply in_or_app. left. assumption. }
  pose proof (normal_perm N _ Hg) as HN.
  repeat split.
  - apply normal_sorted.
  - rewrite (Permutation_length HN). exact Hlen.
  - intros e He. apply (Permutation_in _ HN) in He. eapply Permutation_in; [exact Hp|].
    apply in_or_app. left. assumption.
  - intros e d He Hd Hnd'. apply (Permutation_in _ HN) in He.
    assert (Hdr : In d rest).
    { apply (Permutation_in _ (Permutation_sym Hp)) in Hd. apply in_app_or in Hd.
      destruct Hd as [Hd|Hd]; [|assumption]. exfalso. apply Hnd'.
      apply (Permutation_in _ (Permutation_sym HN)). assumption. }
    pose proof (Hrk e d He Hdr) as H. unfold rb in H. unfold ranks_before.
    destruct (vneqb (snd e) (snd d)); [left; assumption|right].
    split; [reflexivity|]. apply Nat.ltb_lt. assumption.
Qed.

(** The best entries are determined: two rows that list the same entries in
    different orders give the same result. *)
Lemma top_k_unique k full full' r r' : NoDup (map fst full) -> Permutation full full' ->
  top_k_of vneqb vgtb k full r -> top_k_of vneqb vgtb k full' r' -> r = r'.
Proof.
  intros Hnd Hp (S1 & L1 & I1 & R1) (S2 & L2 & I2 & R2).
  assert (HI2 : incl r' full) by (intros e He; eapply Permutation_in; [symmetry; exact Hp|apply I2; assumption]).
  assert (Hn1 : NoDup r) by (eapply NoDup_map_inv, sorted_nodup; exact S1).
  assert (Hn2 : NoDup r') by (eapply NoDup_map_inv, sorted_nodup; exact S2).
  rewrite <- (Permutation_length Hp) in L2.
  assert (Hdec : forall x y : nat * V, In x full -> In y full -> {x = y} + {x <> y}).
  { intros x y Hx Hy. destruct (Nat.eq_dec (fst x) (fst y)) as [E|E]; [left|right; congruence].
    destruct x as [c v], y as [c' v']. cbn in E. subst c'.
    pose proof (at_col_unique c v full Hnd Hx) as A1. pose proof (at_col_unique c v' full Hnd Hy) as A2.
    congruence. }
  assert (Hind : forall x l, In x full -> incl l full -> In x l \/ ~ In x l).
  { intros x l Hx. induction l as [|y l IH]; intros Hl; [right; intros []|].
    destruct (Hdec x y Hx (Hl y (or_introl eq_refl))) as [->|Hne]; [left; left; reflexivity|].
    destruct IH as [H|H]; [intros z Hz; apply Hl; right; assumption|left; right; assumption|].
    right. intros [E|H']; [congruence|contradiction]. }
  assert (Hincl : incl r r' \/ exists e, In e r /\ ~ In e r').
  { clear - I1 HI2 Hind. induction r as [|x r IH]; [left; intros ? []|].
    destruct (Hind x r' (I1 x (or_introl eq_refl)) HI2) as [H|H].
    - destruct IH as [IH|(e & He & Hn)]; [intros z Hz; apply I1; right; assumption| |].
      + left. intros z [<-|Hz]; [assumption|apply IH; assumption].
      + right. exists e. split; [right|]; assumption.
    - right. exists x. split; [left; reflexivity|assumption]. }
  assert (Heq : incl r r').
  { destruct Hincl as [H|(e & He & Hne)]; [assumption|]. exfalso.
    assert (exists d, In d r' /\ ~ In d r) as (d & Hd & Hnd').
    { assert (Hx : incl r' r \/ exists d, In d r' /\ ~ In d r).
      { clear - I1 HI2 Hind. revert HI2. induction r' as [|x l IH]; intros HI2; [left; intros ? []|].
        destruct (Hind x r (HI2 x (or_introl eq_refl)) I1) as [H|H].
        - destruct IH as [IH|(d & Hd & Hn)]; [intros z Hz; apply HI2; right; assumption| |].
          + left. intros z [<-|Hz]; [assumption|apply IH; assumption].
          + right. exists d. split; [right|]; assumption.
        - right. exists x. split; [left; reflexivity|assumption]. }
      destruct Hx as [Hx|Hx]; [|exact Hx]. exfalso. apply Hne.
      assert (Hll : length r <= length r') by lia.
      exact (NoDup_length_incl Hn2 Hll Hx e He). }
    assert (H1 : ranks_before vneqb vgtb e d) by (apply R1; auto).
    assert (H2 : ranks_before vneqb vgtb d e).
    { apply R2; auto. eapply Permutation_in; [exact Hp|]. apply I1. assumption. }
    assert (B1 : rb e d = true). { unfold rb. destruct H1 as [H1|[H1 H1']].
      - destruct lin as (_ & Ln & _). replace (vneqb (snd e) (snd d)) with true; [assumption|].
        symmetry. apply Ln. left. assumption.
      - rewrite H1. apply Nat.ltb_lt. assumption. }
    assert (B2 : rb d e = true). { unfold rb. destruct H2 as [H2|[H2 H2']].
      - destruct lin as (_ & Ln & _). replace (vneqb (snd d) (snd e)) with true; [assumption|].
        symmetry. apply Ln. left. assumption.
      - rewrite H2. apply Nat.ltb_lt. assumption. }
    pose proof (rb_trans _ _ _ B1 B2). rewrite rb_irrefl in H. discriminate. }
  assert (Hperm : Permutation r r').
  { apply NoDup_Permutation_bis; [assumption|lia|assumption]. }
  (* two sorted permutations *)
  clear - S1 S2 Hperm. revert r' S2 Hperm. induction r as [|x r IH]; intros r' S2 Hperm.
  - apply Permutation_nil in Hperm. congruence.
  - destruct r' as [|y r']; [symmetry in Hperm; apply Permutation_nil in Hperm; discriminate|].
    cbn [map] in S1, S2. apply StronglySorted_inv in S1, S2. destruct S1 as [S1 F1], S2 as [S2 F2].
    assert (x = y).
    { assert (Hx : In x (y :: r')) by (eapply Permutation_in; [exact Hperm|left; reflexivity]).
      assert (Hy : In y (x :: r)) by (eapply Permutation_in; [symmetry; exact Hperm|left; reflexivity]).
      destruct Hx as [Hx|Hx]; [congruence|]. destruct Hy as [Hy|Hy]; [congruence|]. exfalso.
      rewrite Forall_forall in F1, F2. apply (in_map fst) in Hx, Hy.
      apply F1 in Hy. apply F2 in Hx. lia. }
    subst y. f_equal. apply IH; [assumption|assumption|]. eapply Permutation_cons_inv. exact Hperm.
Qed.
End Sel.

Lemma linear_Q : linear_values qneqb qgtb.
Proof.
  unfold linear_values, qneqb, qgtb.
  assert (G : forall a b, negb (Qle_bool a b) = true <-> (b < a)%Q).
  { intros a b. rewrite negb_true_iff. split; intros H.
    - apply Qnot_le_lt. intros Hle. apply Qle_bool_iff in Hle. congruence.
    - destruct (Qle_bool a b) eqn:E; [|reflexivity]. apply Qle_bool_iff in E.
      exfalso. eapply Qlt_not_le; eassumption. }
  repeat split; intros *; rewrite ?G.
  - apply negb_false_iff, Qeq_bool_iff. reflexivity.
  - rewrite negb_true_iff. intros H. destruct (Q_dec a b) as [[L|L]|E]; [right|left|]; try assumption.
    apply Qeq_bool_iff in E. congruence.
  - rewrite negb_true_iff. intros H. destruct (Qeq_bool a b) eqn:E; [|reflexivity].
    apply Qeq_bool_iff in E. rewrite E in H. destruct H as [H|H]; exfalso; eapply Qlt_irrefl; exact H.
  - intros H K. eapply Qlt_trans; eassumption.
  - intros H. destruct (Qlt_le_dec c a) as [L|L]; [left; assumption|right].
    eapply Qlt_le_trans; eassumption.
  - apply negb_false_iff, Qle_bool_iff, Qle_refl.
Qed.

Lemma linear_R : linear_values rneqb rgtb.
Proof.
  unfold linear_values, rneqb, rgtb. repeat split; intros *.
  - destruct (Req_EM_T a a); congruence.
  - destruct (Req_EM_T a b), (Rlt_dec b a), (Rlt_dec a b); auto; try discriminate. exfalso. lra.
  - destruct (Req_EM_T a b), (Rlt_dec b a), (Rlt_dec a b); intros [H|H]; try discriminate; try reflexivity; exfalso; lra.
  - destruct (Rlt_dec b a), (Rlt_dec c b), (Rlt_dec c a); intros; try discriminate; try reflexivity; exfalso; lra.
  - destruct (Rlt_dec b a), (Rlt_dec b c), (Rlt_dec c a); intros; try discriminate; auto; exfalso; lra.
  - destruct (Rlt_dec a a); [exfalso; lra|reflexivity].
Qed.
