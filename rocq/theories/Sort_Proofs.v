(** Sorting by a boolean comparison; contracts of std::sort, std::partial_sort
    and std::nth_element and uniqueness of their results. *)
From Verif Require Import Base Sched_Model Eval_Model.
Local Open Scope nat_scope.

Section Sort.
Context {X : Type}.
Variable lt : X -> X -> bool.

Lemma insert_by_perm x l : Permutation (insert_by lt x l) (x :: l).
Proof.
  induction l as [|y l IH]; cbn; auto. destruct (lt y x); auto.
  rewrite IH. apply perm_swap.
Qed.
Lemma sort_by_perm l : Permutation (sort_by lt l) l.
Proof. induction l as [|x l IH]; cbn; auto. now rewrite insert_by_perm, IH. Qed.
Lemma sort_by_length l : length (sort_by lt l) = length l.
Proof. apply Permutation_length, sort_by_perm. Qed.
Lemma sort_by_in l x : In x (sort_by lt l) <-> In x l.
Proof. split; apply Permutation_in; [|symmetry]; apply sort_by_perm. Qed.

(** Not-greater relation. *)
Definition nle (x y : X) : Prop := lt y x = false.

Hypothesis asym : forall x y, lt x y = true -> lt y x = false.
Hypothesis negtrans : forall x y z, lt x y = false -> lt y z = false -> lt x z = false.

Lemma insert_by_sorted x l : StronglySorted nle l -> StronglySorted nle (insert_by lt x l).
Proof.
  induction l as [|y l IH]; cbn; intros HS.
  - repeat constructor.
  - inversion HS as [|? ? HS' HF]; subst. destruct (lt y x) eqn:E.
    + constructor; [auto|]. rewrite Forall_forall in *. intros z Hz.
      apply (Permutation_in _ (insert_by_perm x l)) in Hz. destruct Hz as [<-|Hz]; auto.
      unfold nle; auto.
    + constructor; [constructor; auto|]. constructor; [exact E|].
      rewrite Forall_forall in *. intros z Hz. specialize (HF z Hz). unfold nle in *.
      eapply negtrans; eauto.
Qed.
Lemma sort_by_sorted l : StronglySorted nle (sort_by lt l).
Proof. induction l; cbn; [constructor|now apply insert_by_sorted]. Qed.

(** ** Contracts *)
(** std::partial_sort (first, first + m, last). *)
Record partial_sorted (m : nat) (l l' : list X) : Prop := {
  psc_perm : Permutation l' l;
  psc_sorted : StronglySorted nle (firstn m l');
  psc_rest : forall x y, In x (firstn m l') -> In y (skipn m l') -> nle x y }.

(** std::nth_element (first, first + m, last) as used in knn.hpp 126-129: the
    first [m] positions are not greater than the rest, in any order. *)
Record nth_elemented (m : nat) (l l' : list X) : Prop := {
  nec_perm : Permutation l' l;
  nec_rest : forall x y, In x (firstn m l') -> In y (skipn m l') -> nle x y }.

Lemma strongly_sorted_app_inv (R : X -> X -> Prop) l1 l2 :
  StronglySorted R (l1 ++ l2) ->
  StronglySorted R l1 /\ StronglySorted R l2 /\ (forall x y, In x l1 -> In y l2 -> R x y).
Proof.
  induction l1 as [|a l1 IH]; cbn; intros H.
  - repeat split; auto; [constructor|intros ? ? []].
  - inversion H as [|? ? HS HF]; subst. destruct (IH HS) as (H1 & H2 & H3).
    rewrite Forall_forall in HF. repeat split; auto.
    + constructor; auto. apply Forall_forall. intros; apply HF, in_or_app; auto.
    + intros x y [<-|Hx] Hy; auto. apply HF, in_or_app; auto.
Qed.

Lemma strongly_sorted_app (R : X -> X -> Prop) l1 l2 :
  StronglySorted R l1 -> StronglySorted R l2 -> (forall x y, In x l1 -> In y l2 -> R x y) ->
  StronglySorted R (l1 ++ l2).
Proof.
  induction l1 as [|a l1 IH]; cbn; intros H1 H2 H3; auto.
  inversion H1 as [|? ? HS HF]; subst. constructor.
  - apply IH; auto.
  - apply Forall_app; split; auto. apply Forall_forall; auto.
Qed.

(** On lists without order-equivalent elements the sorted list is unique. *)
Lemma sorted_unique (l1 l2 : list X) :
  (forall x y, In x l1 -> In y l1 -> lt x y = false -> lt y x = false -> x = y) ->
  Permutation l1 l2 -> StronglySorted nle l1 -> StronglySorted nle l2 -> l1 = l2.
Proof.
  revert l2; induction l1 as [|a l1 IH]; intros l2 Htot HP H1 H2.
  - apply Permutation_nil in HP. now subst.
  - destruct l2 as [|b l2]; [symmetry in HP; apply Permutation_nil in HP; discriminate|].
    inversion H1 as [|? ? HS1 HF1]; subst. inversion H2 as [|? ? HS2 HF2]; subst.
    rewrite Forall_forall in HF1, HF2.
    assert (a = b).
    { assert (Hb : In b (a :: l1)) by (eapply Permutation_in; [symmetry; exact HP|now left]).
      assert (Ha : In a (b :: l2)) by (eapply Permutation_in; [exact HP|now left]).
      destruct Hb as [Hb|Hb]; auto. destruct Ha as [Ha|Ha]; auto.
      apply Htot; cbn; auto; [apply HF2|apply HF1]; auto. }
    subst b. apply Permutation_cons_inv in HP. f_equal. apply IH; auto.
    intros; apply Htot; cbn; auto.
Qed.

Definition separated (l : list X) : Prop :=
  forall x y, In x l -> In y l -> lt x y = false -> lt y x = false -> x = y.

Lemma firstn_in (k : nat) (l : list X) x : In x (firstn k l) -> In x l.
Proof. revert k; induction l as [|a l IH]; intros [|k]; cbn; try tauto. intros [->|H]; eauto. Qed.
Lemma skipn_in (k : nat) (l : list X) x : In x (skipn k l) -> In x l.
Proof. revert k; induction l as [|a l IH]; intros [|k]; cbn; try tauto. intros H; right; eauto. Qed.

(** Every implementation of std::partial_sort yields the same prefix. *)
Lemma partial_sort_unique m l l' :
  separated l -> partial_sorted m l l' -> firstn m l' = firstn m (sort_by lt l).
Proof.
  intros Htot [HP HS HR].
  set (l'' := firstn m l' ++ sort_by lt (skipn m l')).
  assert (E : l'' = sort_by lt l).
  { apply sorted_unique.
    - intros x y Hx Hy. apply Htot.
      + apply (Permutation_in _ HP). unfold l'' in Hx. apply in_app_iff in Hx as [Hx|Hx].
        * eapply firstn_in; eauto.
        * rewrite sort_by_in in Hx. eapply skipn_in; eauto.
      + apply (Permutation_in _ HP). unfold l'' in Hy. apply in_app_iff in Hy as [Hy|Hy].
        * eapply firstn_in; eauto.
        * rewrite sort_by_in in Hy. eapply skipn_in; eauto.
    - unfold l''. rewrite !sort_by_perm, firstn_skipn. exact HP.
    - apply strongly_sorted_app; auto using sort_by_sorted.
      intros x y Hx Hy. rewrite sort_by_in in Hy. auto.
    - apply sort_by_sorted. }
  rewrite <- E. unfold l''.
  destruct (Nat.le_gt_cases m (length l')) as [Hm|Hm].
  - rewrite firstn_app, firstn_firstn, firstn_length, Nat.min_id.
    replace (m - min m (length l')) with 0 by lia. cbn. now rewrite app_nil_r.
  - rewrite (skipn_all2 l') by lia. cbn. rewrite app_nil_r, firstn_firstn, Nat.min_id. reflexivity.
Qed.

(** Every implementation of std::nth_element selects the same set. *)
Lemma nth_element_unique m l l' :
  separated l -> nth_elemented m l l' -> Permutation (firstn m l') (firstn m (sort_by lt l)).
Proof.
  intros Htot [HP HR].
  assert (H : partial_sorted m l (sort_by lt (firstn m l') ++ skipn m l')).
  { assert (Hl : length (sort_by lt (firstn m l')) = min m (length l')) by (rewrite sort_by_length; apply firstn_length).
    assert (F : firstn m (sort_by lt (firstn m l') ++ skipn m l') = sort_by lt (firstn m l')).
    { destruct (Nat.le_gt_cases m (length l')).
      - rewrite firstn_app, Hl. replace (m - min m (length l')) with 0 by lia. cbn. rewrite app_nil_r.
        apply firstn_all2. lia.
      - rewrite (skipn_all2 l') by lia. rewrite app_nil_r. apply firstn_all2. lia. }
    assert (Sk : skipn m (sort_by lt (firstn m l') ++ skipn m l') = skipn m l').
    { rewrite skipn_app, Hl. destruct (Nat.le_gt_cases m (length l')).
      - rewrite skipn_all2 by lia. replace (m - min m (length l')) with 0 by lia. reflexivity.
      - rewrite skipn_all2 by lia. rewrite (skipn_all2 l') by lia. now rewrite skipn_nil. }
    constructor.
    - rewrite sort_by_perm, firstn_skipn. exact HP.
    - rewrite F. apply sort_by_sorted.
    - rewrite F, Sk. intros x y Hx Hy. apply HR; auto. now rewrite sort_by_in in Hx. }
  pose proof (partial_sort_unique m l _ Htot H) as E. rewrite <- E.
  destruct (Nat.le_gt_cases m (length l')) as [Hm|Hm].
  - rewrite firstn_app, sort_by_length, firstn_length. replace (m - min m (length l')) with 0 by lia.
    cbn. rewrite app_nil_r, (firstn_all2 (n:=m) (sort_by lt (firstn m l'))) by (rewrite sort_by_length, firstn_length; lia).
    symmetry; apply sort_by_perm.
  - rewrite (skipn_all2 l') by lia. rewrite app_nil_r, (firstn_all2 (n:=m) (sort_by lt (firstn m l'))) by (rewrite sort_by_length, firstn_length; lia).
    symmetry; apply sort_by_perm.
Qed.

(** The model's own sort satisfies the contract. *)
Lemma sort_by_partial_sorted m l : partial_sorted m l (sort_by lt l).
Proof.
  constructor; [apply sort_by_perm| |].
  - pose proof (sort_by_sorted l) as H. rewrite <- (firstn_skipn m (sort_by lt l)) in H.
    now apply strongly_sorted_app_inv in H.
  - pose proof (sort_by_sorted l) as H. rewrite <- (firstn_skipn m (sort_by lt l)) in H.
    apply strongly_sorted_app_inv in H. tauto.
Qed.

End Sort.

(** Sorting by a comparison that agrees on the elements gives the same list. *)
Lemma sort_by_ext {X} (lt1 lt2 : X -> X -> bool) l :
  (forall x y, In x l -> In y l -> lt1 x y = lt2 x y) -> sort_by lt1 l = sort_by lt2 l.
Proof.
  induction l as [|a l IH]; cbn; intros H; auto.
  rewrite IH by (intros; apply H; auto).
  assert (G : forall l', (forall y, In y l' -> lt1 y a = lt2 y a) -> insert_by lt1 a l' = insert_by lt2 a l').
  { induction l' as [|b l' IHl]; cbn; intros Hb; auto. rewrite Hb by auto. destruct (lt2 b a); auto.
    f_equal; auto. }
  apply G. intros y Hy. rewrite sort_by_in in Hy. apply H; auto.
Qed.

(** Sorting commutes with an order-reflecting map. *)
Lemma sort_by_map {X Y} (f : X -> Y) (lt1 : X -> X -> bool) (lt2 : Y -> Y -> bool) l :
  (forall x y, In x l -> In y l -> lt1 x y = lt2 (f x) (f y)) ->
  sort_by lt2 (map f l) = map f (sort_by lt1 l).
Proof.
  induction l as [|a l IH]; cbn; intros H; auto.
  rewrite IH by (intros; apply H; auto).
  assert (G : forall l', (forall y, In y l' -> lt1 y a = lt2 (f y) (f a)) ->
     insert_by lt2 (f a) (map f l') = map f (insert_by lt1 a l')).
  { induction l' as [|b l' IHl]; cbn; intros Hb; auto. rewrite <- Hb by auto. destruct (lt1 b a); cbn; auto.
    f_equal; auto. }
  apply G. intros y Hy. rewrite sort_by_in in Hy. apply H; auto.
Qed.

(** ** The order on (-score, index) pairs *)
Lemma scmp_refl a : scmp a a = Eq.
Proof. destruct a; cbn; auto. apply Qeq_alt. reflexivity. Qed.
Lemma scmp_antisym a b : scmp b a = CompOpp (scmp a b).
Proof. destruct a, b; cbn; auto. now rewrite Qcompare_antisym. Qed.
Lemma scmp_eq_trans_l a b c : scmp a b = Eq -> scmp a c = scmp b c.
Proof.
  destruct a, b, c; cbn; try discriminate; auto.
  intros H. apply Qeq_alt in H. destruct (q ?= q1)%Q eqn:E1; symmetry.
  - apply Qeq_alt in E1. apply Qeq_alt. rewrite <- H; auto.
  - apply Qlt_alt in E1. apply Qlt_alt. rewrite <- H; auto.
  - apply Qgt_alt in E1. apply Qgt_alt. rewrite <- H; auto.
Qed.
Lemma scmp_lt_trans a b c : scmp a b = Lt -> scmp b c = Lt -> scmp a c = Lt.
Proof.
  destruct a, b, c; cbn; try discriminate; auto.
  intros H1 H2. apply Qlt_alt in H1, H2. apply Qlt_alt. eapply Qlt_trans; eauto.
Qed.
Lemma scmp_eq_sym a b : scmp a b = Eq -> scmp b a = Eq.
Proof. intros H. rewrite scmp_antisym, H. reflexivity. Qed.
Lemma scmp_eq_trans_r a b c : scmp b c = Eq -> scmp a b = scmp a c.
Proof.
  intros H. rewrite (scmp_antisym b a), (scmp_antisym c a). f_equal.
  now apply scmp_eq_trans_l.
Qed.

Lemma scmp_neg a b : scmp (sneg a) (sneg b) = scmp b a.
Proof.
  destruct a, b; cbn; auto. unfold Qcompare. cbn.
  rewrite !Z.mul_opp_l, Z.compare_opp. reflexivity.
Qed.

Lemma slt_lt a b : slt a b = true <-> scmp a b = Lt.
Proof. unfold slt. destruct (scmp a b); split; congruence. Qed.

Lemma pair_lt_asym x y : pair_lt x y = true -> pair_lt y x = false.
Proof.
  unfold pair_lt, slt. rewrite (scmp_antisym (fst x) (fst y)).
  destruct (scmp (fst x) (fst y)); cbn [CompOpp negb orb andb]; try discriminate; auto.
  destruct (Nat.ltb_spec (snd x) (snd y)); destruct (Nat.ltb_spec (snd y) (snd x)); intros; try discriminate; auto; lia.
Qed.

Lemma pair_lt_negtrans x y z : pair_lt x y = false -> pair_lt y z = false -> pair_lt x z = false.
Proof.
  unfold pair_lt, slt.
  rewrite (scmp_antisym (fst x) (fst y)), (scmp_antisym (fst y) (fst z)), (scmp_antisym (fst x) (fst z)).
  destruct (scmp (fst x) (fst y)) eqn:E1; cbn [CompOpp negb orb andb]; try discriminate;
  destruct (scmp (fst y) (fst z)) eqn:E2; cbn [CompOpp negb orb andb]; try discriminate.
  - rewrite (scmp_eq_trans_l _ _ _ E1), E2; cbn [CompOpp negb orb andb].
    destruct (Nat.ltb_spec (snd x) (snd y)), (Nat.ltb_spec (snd y) (snd z)), (Nat.ltb_spec (snd x) (snd z)); intros; try discriminate; auto; lia.
  - rewrite (scmp_eq_trans_l _ _ _ E1), E2; cbn [CompOpp negb orb andb]; auto.
  - rewrite <- (scmp_eq_trans_r (fst x) _ _ E2), E1. cbn [CompOpp negb orb andb]; auto.
  - assert (scmp (fst x) (fst z) = Gt).
    { rewrite scmp_antisym. rewrite (scmp_lt_trans (fst z) (fst y) (fst x)); auto;
      rewrite scmp_antisym; [rewrite E2|rewrite E1]; reflexivity. }
    rewrite H. cbn [CompOpp negb orb andb]; auto.
Qed.

Lemma nat_ltb_asym x y : Nat.ltb x y = true -> Nat.ltb y x = false.
Proof. destruct (Nat.ltb_spec x y), (Nat.ltb_spec y x); intros; try discriminate; auto; lia. Qed.
Lemma nat_ltb_negtrans x y z : Nat.ltb x y = false -> Nat.ltb y z = false -> Nat.ltb x z = false.
Proof. destruct (Nat.ltb_spec x y), (Nat.ltb_spec y z), (Nat.ltb_spec x z); intros; try discriminate; auto; lia. Qed.
