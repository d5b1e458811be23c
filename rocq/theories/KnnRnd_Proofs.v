(** Similarities in floating point. *)
From Coq Require Import Setoid Morphisms Qabs Lqa.
From Verif Require Import Base Eval_Model EvalRnd_Spec EvalRnd_Proofs Knn_Model Knn_Spec Knn_Proofs KnnSel_Proofs KnnSim_Proofs KnnApi_Proofs KnnTop_Proofs KnnRnd_Model KnnRnd_Spec.
Local Open Scope nat_scope.

(** ** The engine *)
Section Bits.
Variables (rnd rsqrt : Q -> Q) (rpow : Q -> Q -> Q) (apow : list Q -> Q -> list Q) (layout : srow Q -> srow Q).
Variable nth_element : (nat -> nat -> bool) -> nat -> list nat -> list nat.
Variable sort_nat : list nat -> list nat.
Let row := rrow rnd rsqrt rpow apow layout.
Let create := rcreate rnd rsqrt rpow apow layout.
Let compute := rcompute rnd nth_element sort_nat.
Let similarity := rsimilarity rnd rsqrt rpow apow layout nth_element sort_nat.

Lemma rchecks_ok {A} kd n c (r : outcome A) a : rchecks kd n c r = Ok a -> 1 <= n /\ 1 <= c /\ r = Ok a.
Proof.
  destruct kd; cbn [rchecks]; intros H; apply base_ctor_ok in H; destruct H as (_ & Hn & Hc & H); (split; [exact Hn|]; split; [exact Hc|]); revert H; unfold check_arg;
    repeat match goal with |- context [if ?b then _ else _] => destruct b; [|discriminate] end; auto.
Qed.
Lemma rchecks_any {A} kd n c n' c' (r r' : outcome A) : 1 <= n -> 1 <= c -> 1 <= n' -> 1 <= c' ->
  (rchecks kd n c r = r /\ rchecks kd n' c' r' = r') \/ (rchecks kd n c r = Fail InvalidArgument /\ rchecks kd n' c' r' = Fail InvalidArgument).
Proof.
  intros H1 H2 H3 H4. apply Nat.leb_le in H1, H2, H3, H4.
  destruct kd; cbn [rchecks]; unfold base_ctor, check_arg; rewrite H1, H2, H3, H4;
    repeat match goal with |- context [Qle_bool ?a ?b] => destruct (Qle_bool a b) end; tauto.
Qed.
Lemma rcreate_ok kd n c X q : create kd n c X = Ok q ->
  (forall target s e, cp_block q target s e = map (row kd (m_rows X)) (middle_rows target s e)) /\
  1 <= cp_threads q /\ 1 <= cp_chunk q /\ cp_features q = m_cols X /\ cp_N q = length (m_rows X).
Proof. intros H. apply rchecks_ok in H. destruct H as (Hn & Hc & [= <-]). cbn. auto. Qed.

Lemma compute_same q q' f target k :
  (forall t s e, cp_block q t s e = map f (middle_rows t s e)) -> (forall t s e, cp_block q' t s e = map f (middle_rows t s e)) ->
  1 <= cp_threads q -> 1 <= cp_chunk q -> 1 <= cp_threads q' -> 1 <= cp_chunk q' -> cp_features q = cp_features q' -> cp_N q = cp_N q' ->
  compute q target k = compute q' target k.
Proof.
  intros L L' A B C D E F. unfold compute, rcompute, cp_compute.
  rewrite (compute_rows _ _ _ _ _ _ f _ L), (compute_rows _ _ _ _ _ _ f _ L') by assumption. rewrite E, F. reflexivity.
Qed.

(** Whatever is done with the results, the same computer is seen. *)
Lemma create_same {A} kd n1 c1 n2 c2 X (F : computer -> outcome A) : 1 <= n1 -> 1 <= c1 -> 1 <= n2 -> 1 <= c2 ->
  (forall q q', (forall target k, compute q target k = compute q' target k) -> F q = F q') ->
  obind (create kd n1 c1 X) F = obind (create kd n2 c2 X) F.
Proof.
  intros H1 H2 H3 H4 HF. unfold create, rcreate.
  match goal with |- obind (rchecks _ _ _ ?r) _ = obind (rchecks _ _ _ ?r') _ => destruct (rchecks_any kd n1 c1 n2 c2 r r' H1 H2 H3 H4) as [[E E']|[E E']] end; rewrite E, E'; [|reflexivity].
  cbn [obind]. apply HF. intros target k. apply (compute_same _ _ (row kd (m_rows X))); cbn; auto.
Qed.

Lemma bits_similarity kd n1 c1 n2 c2 X T k : 1 <= n1 -> 1 <= c1 -> 1 <= n2 -> 1 <= c2 ->
  similarity kd n1 c1 X T k = similarity kd n2 c2 X T k.
Proof. intros. apply create_same; auto. Qed.
Lemma bits_item kd n1 c1 n2 c2 w X k : 1 <= n1 -> 1 <= c1 -> 1 <= n2 -> 1 <= c2 ->
  ritem_learn rnd rsqrt rpow apow layout nth_element sort_nat kd n1 c1 w X k = ritem_learn rnd rsqrt rpow apow layout nth_element sort_nat kd n2 c2 w X k.
Proof. intros. apply create_same; auto. intros q q' H'. f_equal. apply H'. Qed.
Lemma bits_user kd n1 c1 n2 c2 w X k : 1 <= n1 -> 1 <= c1 -> 1 <= n2 -> 1 <= c2 ->
  ruser_learn rnd rsqrt rpow apow layout nth_element sort_nat kd n1 c1 w X k = ruser_learn rnd rsqrt rpow apow layout nth_element sort_nat kd n2 c2 w X k.
Proof. intros. apply create_same; auto. intros q q' H'. f_equal. apply H'. Qed.
Lemma bits_p3 a tk n1 c1 n2 c2 X : 1 <= n1 -> 1 <= c1 -> 1 <= n2 -> 1 <= c2 ->
  fp3_learn rnd rsqrt rpow apow layout nth_element sort_nat a tk n1 c1 X = fp3_learn rnd rsqrt rpow apow layout nth_element sort_nat a tk n2 c2 X.
Proof. intros. apply create_same; auto. intros q q' H'. unfold rcompute_W. f_equal. apply H'. Qed.
Lemma bits_rp3 a b tk n1 c1 n2 c2 X : 1 <= n1 -> 1 <= c1 -> 1 <= n2 -> 1 <= c2 ->
  frp3_learn rnd rsqrt rpow apow layout nth_element sort_nat a b tk n1 c1 X = frp3_learn rnd rsqrt rpow apow layout nth_element sort_nat a b tk n2 c2 X.
Proof. intros. apply create_same; auto. intros q q' H'. unfold rcompute_W. do 2 f_equal. apply H'. Qed.

(** ** Entries *)
Hypothesis lay : layout_ok layout.
Hypothesis ne_ok : nth_element_ok nth_element.
Hypothesis so_ok : sort_nat_ok sort_nat.

Lemma rrow_good kd xs t : good_row (length xs) (row kd xs t).
Proof.
  assert (forall ys g (h : nat * Q -> Q), length ys = length xs -> good_row (length xs) (map (fun e => (fst e, h e)) (prod_row 0%Q (radd rnd) (rmul rnd) layout ys g))) as G.
  { intros ys g h E. rewrite <- E. pose proof (prod_row_good 0%Q (radd rnd) (rmul rnd) layout lay ys g) as P. unfold good_row in *. rewrite map_map. exact P. }
  assert (forall ys g, length ys = length xs -> good_row (length xs) (prod_row 0%Q (radd rnd) (rmul rnd) layout ys g)) as G0.
  { intros ys g E. rewrite <- E. apply prod_row_good, lay. }
  destruct kd as [s [|]|s a|s|s a b|a]; cbn [rrow row]; unfold rcosine_row, rasym_row, rjaccard_row, rtversky_row, rprod;
    (apply (G _ _ (fun e => _)) || apply G0); rewrite ?map_length; reflexivity.
Qed.
Lemma rlocal kd n c X q : create kd n c X = Ok q -> row_local q (row kd (m_rows X)) /\ cp_features q = m_cols X /\ cp_N q = length (m_rows X).
Proof.
  intros H. apply rcreate_ok in H. destruct H as (H1 & H2 & H3 & H4 & H5). split; [|auto].
  repeat split; auto; rewrite ?H5; apply rrow_good.
Qed.
Lemma rbuilt kd n c : well_built (create kd n c).
Proof.
  intros Y q H. destruct (rlocal _ _ _ _ _ H) as ((H1 & H2 & H3 & H4) & H5 & H6). repeat split; auto. exists (row kd (m_rows Y)). auto.
Qed.
Lemma rsim_inv kd n c X T k M : similarity kd n c X T k = Ok M -> exists q, create kd n c X = Ok q /\ compute q T k = Ok M.
Proof.
  unfold similarity, rsimilarity. fold create compute. destruct (create kd n c X) as [q| | |]; try discriminate. cbn [obind]. eauto.
Qed.
Lemma rsim_stored kd n c X T k M i j v : similarity kd n c X T k = Ok M -> In v (stored M i j) ->
  i < length (m_rows T) /\ In (j, v) (row kd (m_rows X) (nth i (m_rows T) [])).
Proof.
  intros H Hv. apply rsim_inv in H. destruct H as (q & Hq & H). destruct (rlocal _ _ _ _ _ Hq) as (L & _).
  exact (compute_stored 0%Q (radd rnd) qneqb qgtb nth_element sort_nat linear_Q ne_ok so_ok q _ T k M i j v L H Hv).
Qed.
Lemma rsim_cols kd n c X T k M : similarity kd n c X T k = Ok M -> m_cols T = m_cols X.
Proof.
  intros H. apply rsim_inv in H. destruct H as (q & Hq & H). destruct (rlocal _ _ _ _ _ Hq) as (L & F & _).
  unfold compute, rcompute in H. rewrite (compute_local _ _ _ _ _ _ q _ T k L) in H. destruct (Nat.eqb_spec (m_cols T) (cp_features q)); [congruence|discriminate].
Qed.
Lemma rsim_full kd n c X T k M i j : similarity kd n c X T k = Ok M -> length (m_rows X) <= k ->
  stored M i j <> [] <-> i < length (m_rows T) /\ exists v, In (j, v) (row kd (m_rows X) (nth i (m_rows T) [])).
Proof.
  intros H Hk. assert (stored M i j <> [] <-> exists v, In v (stored M i j)) as ->.
  { split; [destruct (stored M i j) as [|v l]; [congruence|exists v; left; reflexivity]|intros [v Hv] E; rewrite E in Hv; destruct Hv]. }
  split.
  - intros [v Hv]. destruct (rsim_stored _ _ _ _ _ _ _ _ _ _ H Hv) as [A B]. split; [exact A|exists v; exact B].
  - intros [Hi [v Hv]]. apply rsim_inv in H. destruct H as (q & Hq & H). destruct (rlocal _ _ _ _ _ Hq) as (L & _ & N).
    pose proof (compute_full 0%Q (radd rnd) qneqb qgtb nth_element sort_nat linear_Q ne_ok so_ok q _ T k M i L H ltac:(lia) Hi) as P.
    exists v. apply (stored_in (V:=Q)). apply (Permutation_in _ (Permutation_sym P)). exact Hv.
Qed.
End Bits.
