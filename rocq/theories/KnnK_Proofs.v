(** Where the bound [top_k] applies. *)
From Verif Require Import Base Knn_Model Knn_Spec Knn_Proofs KnnSel_Proofs KnnSim_Proofs KnnApi_Proofs KnnP3_Proofs KnnTop_Proofs Rec_Proofs KnnK_Spec.
From Coq Require Import QArith Qfield Lqa.
Local Open Scope nat_scope.

(** ** Rows *)
Section Generic.
Context {V : Type}.
Variable v0 : V.
Variable vadd : V -> V -> V.
Variables vneqb vgtb : V -> V -> bool.
Variable nth_element : (nat -> nat -> bool) -> nat -> list nat -> list nat.
Variable sort_nat : list nat -> list nat.
Hypothesis lin : linear_values vneqb vgtb.
Hypothesis ne_ok : nth_element_ok nth_element.
Hypothesis so_ok : sort_nat_ok sort_nat.
Let compute := cp_compute v0 vadd vneqb vgtb nth_element sort_nat.

Lemma computed_row_le (create : smat V -> outcome (computer (V:=V))) (Y : smat V) (c : computer (V:=V)) target k S i :
  well_built create -> create Y = Ok c -> compute c target k = Ok S -> length (nth i (m_rows S) []) <= k.
Proof.
  intros WB E HS. destruct (built_local v0 vadd vneqb vgtb nth_element sort_nat create Y c WB E) as (f & L & HN & _).
  pose proof (compute_top_k v0 vadd vneqb vgtb nth_element sort_nat lin ne_ok so_ok c f target k S L HS) as (_ & LS & TS).
  destruct (Nat.lt_ge_cases i (length (m_rows target))) as [Hi|Hi].
  - destruct (TS i Hi) as (_ & E1 & _). lia.
  - rewrite nth_overflow by lia. cbn. lia.
Qed.

Lemma diagonal_row (S D : smat V) i : remove_diagonal v0 S = Ok D ->
  length (nth i (m_rows D) []) = length (nth i (m_rows S) []).
Proof.
  intros H. destruct (remove_diagonal_stored v0 S D H) as (_ & _ & _ & _ & F).
  rewrite <- (map_length fst), F. apply map_length.
Qed.

Lemma item_rows weight create X k W i : well_built create ->
  item_knn_learn v0 vadd vneqb vgtb nth_element sort_nat weight create X k = Ok W -> length (nth i (m_rows W) []) <= k.
Proof.
  intros WB H. unfold item_knn_learn in H. fold compute in H.
  destruct (create (transpose (weight X))) as [c| | |] eqn:Ec; try discriminate. cbn [obind] in H.
  destruct (compute c (transpose X) k) as [S| | |] eqn:ES; try discriminate. cbn [obind] in H.
  rewrite (diagonal_row S W i H). eapply computed_row_le; eassumption.
Qed.

Lemma user_rows weight create X k U i : well_built create ->
  user_knn_learn v0 vadd vneqb vgtb nth_element sort_nat weight create X k = Ok U -> length (nth i (m_rows U) []) <= k.
Proof.
  intros WB H. unfold user_knn_learn in H. fold compute in H.
  destruct (create (weight X)) as [c| | |] eqn:Ec; try discriminate. cbn [obind] in H.
  destruct (compute c X k) as [S| | |] eqn:ES; try discriminate. cbn [obind] in H.
  rewrite (diagonal_row S U i H). eapply computed_row_le; eassumption.
Qed.

(** ** Columns of a transposed matrix *)
Lemma sorted_fst_eq (l l' : srow V) : StronglySorted lt (map fst l) -> StronglySorted lt (map fst l') ->
  (forall e, In e l <-> In e l') -> l = l'.
Proof.
  revert l'. induction l as [|a l IH]; intros [|b l'] S1 S2 H.
  - reflexivity.
  - exfalso. apply (proj2 (H b)). left; reflexivity.
  - exfalso. apply (proj1 (H a)). left; reflexivity.
  - cbn [map] in S1, S2. inversion_clear S1 as [|? ? S1' F1]. inversion_clear S2 as [|? ? S2' F2].
    rewrite Forall_forall in F1, F2.
    assert (E : a = b).
    { destruct (proj1 (H a) (or_introl eq_refl)) as [E|Ha]; [now symmetry|].
      destruct (proj2 (H b) (or_introl eq_refl)) as [E|Hb]; [assumption|].
      apply (in_map fst) in Ha, Hb. apply F2 in Ha. apply F1 in Hb. lia. }
    subst b. f_equal. apply IH; try assumption. intros e. split; intros He.
    + destruct (proj1 (H e) (or_intror He)) as [E|E]; [|exact E]. subst e.
      apply (in_map fst) in He. apply F1 in He. lia.
    + destruct (proj2 (H e) (or_intror He)) as [E|E]; [|exact E]. subst e.
      apply (in_map fst) in He. apply F2 in He. lia.
Qed.

Lemma sorted_nodup_fst (r : srow V) : StronglySorted lt (map fst r) -> NoDup (map fst r).
Proof. apply sorted_nodup. Qed.

Lemma column_sorted (W : smat V) j : (forall i, length (stored W i j) <= 1) -> StronglySorted lt (map fst (column W j)).
Proof.
  intros H. unfold column. generalize (length (m_rows W)) as n. intros n. generalize 0 as s.
  induction n as [|n IH]; intros s; cbn [seq flat_map map]; [constructor|].
  rewrite map_app, map_map. cbn [fst].
  assert (G : Forall (fun x => s < x) (map fst (flat_map (fun i => map (fun v => (i, v)) (stored W i j)) (seq (S s) n)))).
  { apply Forall_forall. intros x Hx. apply in_map_iff in Hx. destruct Hx as [e [<- He]]. apply in_flat_map in He.
    destruct He as [i [Hi He]]. apply in_seq in Hi. apply in_map_iff in He. destruct He as [v [<- _]]. cbn. lia. }
  specialize (H s). destruct (stored W s j) as [|v [|v' l]]; cbn [map app].
  - apply IH.
  - constructor; [apply IH|exact G].
  - cbn in H. lia.
Qed.

Lemma column_in (W : smat V) j i v : In (i, v) (column W j) <-> In v (stored W i j).
Proof.
  unfold column. rewrite in_flat_map. split.
  - intros (i' & _ & H). apply in_map_iff in H. destruct H as (w & [= -> ->] & H). exact H.
  - intros H. exists i. split.
    + apply in_seq. destruct (Nat.lt_ge_cases i (length (m_rows W))); [lia|]. rewrite stored_out in H by assumption. destruct H.
    + apply in_map_iff. exists v. split; [reflexivity|exact H].
Qed.

Lemma stored_le_1 (S : smat V) i j : NoDup (map fst (nth i (m_rows S) [])) -> length (stored S i j) <= 1.
Proof.
  intros H. unfold stored. rewrite map_length.
  induction (nth i (m_rows S) []) as [|e r IH]; cbn [filter length map] in *; [lia|].
  inversion_clear H as [|? ? Hn Hd]. destruct (Nat.eqb_spec (fst e) j) as [E|E]; cbn [length].
  - assert (F : filter (fun e => fst e =? j) r = []).
    { destruct (filter (fun e => fst e =? j) r) as [|e' r'] eqn:Ef; [reflexivity|]. exfalso. apply Hn.
      assert (Hin : In e' (filter (fun e => fst e =? j) r)) by (rewrite Ef; left; reflexivity).
      apply filter_In in Hin. destruct Hin as [H1 H2]. apply Nat.eqb_eq in H2. rewrite E, <- H2. apply in_map. exact H1. }
    rewrite F. cbn. lia.
  - apply IH, Hd.
Qed.

Lemma column_transpose (S : smat V) j :
  (forall i, StronglySorted lt (map fst (nth i (m_rows S) []))) -> (forall i c, In c (map fst (nth i (m_rows S) [])) -> c < m_cols S) ->
  column (transpose S) j = nth j (m_rows S) [].
Proof.
  intros HS HC. apply sorted_fst_eq.
  - apply column_sorted. intros i. destruct (Nat.lt_ge_cases i (m_cols S)) as [Hi|Hi].
    + rewrite transpose_stored by assumption. apply stored_le_1, sorted_nodup, HS.
    + rewrite stored_out; [cbn; lia|]. rewrite (proj2 (transpose_dims S)). exact Hi.
  - apply HS.
  - intros [i v]. rewrite column_in. destruct (Nat.lt_ge_cases i (m_cols S)) as [Hi|Hi].
    + rewrite transpose_stored by assumption. apply stored_in.
    + rewrite stored_out by (rewrite (proj2 (transpose_dims S)); exact Hi). split; [intros []|].
      intros H. apply (in_map fst) in H. apply HC in H. cbn in H. lia.
Qed.
End Generic.

(** ** P3alpha and RP3beta *)
Section P3.
Variable layout : srow Q -> srow Q.
Hypothesis lay : layout_ok layout.
Variable pow : Q -> Q -> Q.
Variable nth_element : (nat -> nat -> bool) -> nat -> list nat -> list nat.
Variable sort_nat : list nat -> list nat.
Hypothesis ne_ok : nth_element_ok nth_element.
Hypothesis so_ok : sort_nat_ok sort_nat.
Let qcompute := cp_compute 0%Q Qplus qneqb qgtb nth_element sort_nat.

Lemma computed_column X a n c q target k S j : p3_ctor layout pow X a n c = Ok q -> qcompute q target k = Ok S ->
  column (transpose S) j = nth j (m_rows S) [] /\ length (nth j (m_rows S) []) <= k.
Proof.
  intros Hq HS. destruct (p3_local layout lay pow X a n c q Hq) as (Hl & _).
  pose proof (compute_top_k 0%Q Qplus qneqb qgtb nth_element sort_nat linear_Q ne_ok so_ok q _ _ _ _ Hl HS) as (D1 & D2 & T).
  assert (G : forall i, StronglySorted lt (map fst (nth i (m_rows S) [])) /\ (forall c0, In c0 (map fst (nth i (m_rows S) [])) -> c0 < m_cols S)
                        /\ length (nth i (m_rows S) []) <= k).
  { intros i. destruct (Nat.lt_ge_cases i (length (m_rows target))) as [Hi|Hi].
    - destruct (T i Hi) as (A & B & C & _). split; [exact A|]. split; [|lia].
      intros c0 Hc. rewrite D1. apply in_map_iff in Hc. destruct Hc as [e [<- He]].
      apply (proj2 (proj2 (proj2 (proj2 Hl)) (nth i (m_rows target) []))). apply in_map, C, He.
    - rewrite nth_overflow by lia. cbn. split; [constructor|]. split; [intros c0 []|lia]. }
  split; [|apply G]. apply column_transpose; intros i; apply G.
Qed.

Lemma column_l1 (W : smat Q) j : map fst (column (l1_normalize_row W) j) = map fst (column W j).
Proof.
  unfold column. cbn [l1_normalize_row m_rows]. rewrite map_length.
  rewrite !flat_map_concat_map, !concat_map, !map_map. f_equal. apply map_ext_in. intros i Hi. apply in_seq in Hi.
  rewrite !map_map. cbn [fst]. unfold stored at 1. cbn [l1_normalize_row m_rows].
  rewrite (nth_map_lt (X:=srow Q) (Y:=srow Q) _ _ i [] []) by lia.
  unfold stored. generalize (row_sum (nth i (m_rows W) [])) as d. intros d.
  induction (nth i (m_rows W) []) as [|e r IH]; [reflexivity|].
  cbn [map filter fst]. destruct (fst e =? j); cbn [map]; [f_equal|]; exact IH.
Qed.

Lemma p3_columns a t nw n c X W j : p3_learn layout pow nth_element sort_nat a (Some t) nw n c X = Ok W ->
  length (column W j) <= t.
Proof.
  intros H. apply (p3_learn_inv layout pow nth_element sort_nat a (Some t) n c X W nw) in H.
  destruct H as (q & S & Hq & HS & ->). destruct (computed_column _ _ _ _ _ _ _ _ j Hq HS) as [E L].
  rewrite <- (map_length fst). destruct nw; [rewrite column_l1|]; rewrite map_length, E; exact L.
Qed.

Lemma computed_truncated X a n c q target k k' S F j : p3_ctor layout pow X a n c = Ok q ->
  qcompute q target k = Ok S -> qcompute q target k' = Ok F -> length (m_rows X) <= k' ->
  top_k_of qneqb qgtb k (column (transpose F) j) (column (transpose S) j).
Proof.
  intros Hq HS HF Hk.
  rewrite (proj1 (computed_column _ _ _ _ _ _ _ _ j Hq HS)), (proj1 (computed_column _ _ _ _ _ _ _ _ j Hq HF)).
  destruct (p3_local layout lay pow X a n c q Hq) as (Hl & _ & HN & _).
  pose proof (compute_top_k 0%Q Qplus qneqb qgtb nth_element sort_nat linear_Q ne_ok so_ok q _ _ _ _ Hl HS) as (_ & LS & TS).
  pose proof (compute_top_k 0%Q Qplus qneqb qgtb nth_element sort_nat linear_Q ne_ok so_ok q _ _ _ _ Hl HF) as (_ & LF & _).
  destruct (Nat.lt_ge_cases j (length (m_rows target))) as [Hi|Hi].
  - eapply top_k_of_perm; [|apply TS; exact Hi]. symmetry.
    apply (compute_full 0%Q Qplus qneqb qgtb nth_element sort_nat linear_Q ne_ok so_ok q _ target k' F j Hl HF); [lia|exact Hi].
  - rewrite !nth_overflow by lia. split; [constructor|]. split; [now rewrite Nat.min_0_r|]. split; [intros e []|intros e d []].
Qed.

Lemma ctor_same X a n c n' c' q q' : p3_ctor layout pow X a n c = Ok q -> p3_ctor layout pow X a n' c' = Ok q' ->
  forall target k, qcompute q target k = qcompute q' target k.
Proof.
  intros H H' target k. destruct (p3_local layout lay pow X a n c q H) as (L & F & N & _).
  destruct (p3_local layout lay pow X a n' c' q' H') as (L' & F' & N' & _).
  eapply threads_chunks; try eassumption; congruence.
Qed.

Lemma p3_best a t n c n' c' X W F j :
  p3_learn layout pow nth_element sort_nat a (Some t) false n c X = Ok W ->
  p3_learn layout pow nth_element sort_nat a None false n' c' X = Ok F ->
  top_k_of qneqb qgtb t (column F j) (column W j).
Proof.
  intros H H'. apply (p3_learn_inv layout pow nth_element sort_nat a (Some t) n c X W false) in H.
  apply (p3_learn_inv layout pow nth_element sort_nat a None n' c' X F false) in H'.
  destruct H as (q & S & Hq & HS & ->). destruct H' as (q' & S' & Hq' & HS' & ->).
  cbn match in HS, HS'. rewrite (ctor_same _ _ _ _ _ _ _ _ Hq' Hq) in HS'.
  apply (computed_truncated _ _ _ _ _ _ _ _ _ _ j Hq HS HS'). rewrite (proj2 (transpose_dims X)). lia.
Qed.

Lemma rp3_learn_inv a b tk nw n c X W : rp3_learn layout pow nth_element sort_nat a b tk nw n c X = Ok W ->
  exists q S, p3_ctor layout pow (transpose X) a n c = Ok q /\
    qcompute q (rp3_target pow a b (transpose X)) (match tk with Some t => t | None => m_cols X end) = Ok S /\
    W = if nw then l1_normalize_row (transpose S) else transpose S.
Proof.
  unfold rp3_learn. destruct (p3_ctor layout pow (transpose X) a n c) as [q| | |] eqn:Ek; try discriminate.
  cbn [obind]. unfold check_arg. destruct (Qle_bool 0 b); [|discriminate]. unfold rp3_compute_W, omap. fold qcompute.
  destruct (qcompute q _ _) as [S| | |] eqn:ES; try discriminate. cbn [obind].
  intros [= <-]. exists q, S. split; [reflexivity|]. split; [exact ES|]. destruct nw; reflexivity.
Qed.

Lemma rp3_columns a b t nw n c X W j : rp3_learn layout pow nth_element sort_nat a b (Some t) nw n c X = Ok W ->
  length (column W j) <= t.
Proof.
  intros H. apply rp3_learn_inv in H.
  destruct H as (q & S & Hq & HS & ->). destruct (computed_column _ _ _ _ _ _ _ _ j Hq HS) as [E L].
  rewrite <- (map_length fst). destruct nw; [rewrite column_l1|]; rewrite map_length, E; exact L.
Qed.

Lemma rp3_best a b t n c n' c' X W F j :
  rp3_learn layout pow nth_element sort_nat a b (Some t) false n c X = Ok W ->
  rp3_learn layout pow nth_element sort_nat a b None false n' c' X = Ok F ->
  top_k_of qneqb qgtb t (column F j) (column W j).
Proof.
  intros H H'. apply rp3_learn_inv in H. apply rp3_learn_inv in H'.
  destruct H as (q & S & Hq & HS & ->). destruct H' as (q' & S' & Hq' & HS' & ->).
  cbn match in HS, HS'. rewrite (ctor_same _ _ _ _ _ _ _ _ Hq' Hq) in HS'.
  apply (computed_truncated _ _ _ _ _ _ _ _ _ _ j Hq HS HS'). rewrite (proj2 (transpose_dims X)). lia.
Qed.
End P3.

(** ** The place taken by the item itself *)
Lemma common_full (A B : list nat) : common A B = length A -> incl A B.
Proof.
  unfold common. induction A as [|a A IH]; intros H; [intros x []|].
  cbn [filter length] in H. assert (L := filter_le (fun c => existsb (Nat.eqb c) B) A).
  destruct (existsb (Nat.eqb a) B) eqn:E; [|lia]. cbn [length] in H. injection H as H.
  intros x [<-|Hx]; [|exact (IH H x Hx)].
  apply existsb_exists in E. destruct E as (y & Hy & Ey). apply Nat.eqb_eq in Ey. now subst y.
Qed.

Lemma common_self (A : list nat) : common A A = length A.
Proof.
  unfold common. rewrite filter_id; [reflexivity|]. apply Forall_forall. intros x Hx. apply existsb_exists.
  exists x. split; [exact Hx|apply Nat.eqb_refl].
Qed.

Section Self.
Variable layout : srow Q -> srow Q.
Hypothesis lay : layout_ok layout.
Variable nth_element : (nat -> nat -> bool) -> nat -> list nat -> list nat.
Variable sort_nat : list nat -> list nat.
Hypothesis ne_ok : nth_element_ok nth_element.
Hypothesis so_ok : sort_nat_ok sort_nat.

Lemma interacted_lt (X : smat Q) u i : good_mat X -> interacted X u i -> i < m_cols X.
Proof.
  intros HX H. unfold interacted in H. destruct (stored X u i) as [|v l] eqn:E; [congruence|].
  assert (Hv : In v (stored X u i)) by (rewrite E; left; reflexivity). apply stored_in in Hv.
  apply (nth_good X u HX). apply (in_map fst) in Hv. exact Hv.
Qed.

Lemma support_users (X : smat Q) u i : i < m_cols X ->
  In u (support (nth i (m_rows (transpose X)) [])) <-> interacted X u i.
Proof.
  intros Hi. unfold interacted, support. rewrite <- (transpose_stored X u i Hi). rewrite in_map_iff. split.
  - intros ([u' v] & E & He). cbn in E. subst u'. apply stored_in in He. intros E. rewrite E in He. destruct He.
  - intros H. destruct (stored (transpose X) i u) as [|v l] eqn:E; [congruence|].
    assert (Hv : In v (stored (transpose X) i u)) by (rewrite E; left; reflexivity). apply stored_in in Hv.
    exists (u, v). split; [reflexivity|exact Hv].
Qed.

Lemma different_users (X : smat Q) i j : good_mat X -> i < m_cols X -> j < m_cols X -> ~ same_users X i j ->
  let A := support (nth i (m_rows (transpose X)) []) in let B := support (nth j (m_rows (transpose X)) []) in
  common A B < length A \/ common A B < length B.
Proof.
  intros HX Hi Hj Hd. cbn zeta.
  set (A := support (nth i (m_rows (transpose X)) [])). set (B := support (nth j (m_rows (transpose X)) [])).
  assert (HT := transpose_good X HX).
  assert (NA : NoDup A) by apply (nth_good (transpose X) i HT). assert (NB : NoDup B) by apply (nth_good (transpose X) j HT).
  pose proof (common_le_l A B) as L1. pose proof (common_le_r A B NA NB) as L2.
  destruct (Nat.eq_dec (common A B) (length A)) as [E1|]; [|left; lia].
  destruct (Nat.eq_dec (common A B) (length B)) as [E2|]; [|right; lia].
  exfalso. apply Hd. intros u. rewrite <- !support_users by assumption. fold A B. split; intros Hu.
  - now apply (common_full A B E1).
  - apply (common_full B A); [|exact Hu]. rewrite common_sym; assumption.
Qed.

(** The entry of the item itself is kept when it is strictly the best. *)
Lemma best_kept (f : srow Q) (i : nat) (v : Q) (kept : srow Q) k : NoDup (map fst f) -> In (i, v) f -> 1 <= k ->
  (forall j w, In (j, w) f -> j <> i -> (w < v)%Q) -> top_k_of qneqb qgtb k f kept -> In (i, v) kept.
Proof.
  intros Hnd Hin Hk Hbest (_ & HL & HI & HB).
  assert (dec : forall a b : nat * Q, {a = b} + {a <> b}) by (repeat decide equality).
  destruct (in_dec dec (i, v) kept) as [H|H]; [exact H|].
  exfalso. destruct kept as [|[j w] kept].
  - cbn in HL. destruct f; [destruct Hin|cbn in HL; lia].
  - pose proof (HI (j, w) (or_introl eq_refl)) as Hw.
    assert (Hji : j <> i).
    { intros ->. apply H. left. f_equal.
      pose proof (at_col_unique i v f Hnd Hin) as E1. rewrite (at_col_unique i w f Hnd Hw) in E1. congruence. }
    pose proof (Hbest j w Hw Hji) as Hlt. destruct (HB (j, w) (i, v) (or_introl eq_refl) Hin H) as [R|[R _]]; cbn [snd] in R.
    + unfold qgtb in R. apply negb_true_iff in R. rewrite (proj2 (Qle_bool_iff w v)) in R by (apply Qlt_le_weak; exact Hlt). discriminate.
    + unfold qneqb in R. apply negb_false_iff in R. apply Qeq_bool_iff in R. rewrite R in Hlt. exact (Qlt_irrefl _ Hlt).
Qed.

Lemma row_after_diagonal (M W : smat Q) i v k : remove_diagonal 0%Q M = Ok W -> In (i, v) (nth i (m_rows M) []) ->
  length (nth i (m_rows M) []) <= k ->
  In (i, 0%Q) (nth i (m_rows W) []) /\ length (nonzeros (nth i (m_rows W) [])) < k.
Proof.
  intros H Hin Hk. assert (L := diagonal_row 0%Q M W i H). destruct (remove_diagonal_stored 0%Q M W H) as (_ & _ & _ & D & _).
  assert (Hin' : In (i, 0%Q) (nth i (m_rows W) [])).
  { apply stored_in. rewrite D. apply in_map_iff. exists v. split; [reflexivity|]. apply stored_in. exact Hin. }
  split; [exact Hin'|]. rewrite <- L in Hk. eapply Nat.lt_le_trans; [|exact Hk]. clear - Hin'.
  unfold nonzeros. induction (nth i (m_rows W) []) as [|e r IH]; [destruct Hin'|].
  cbn [filter length]. assert (LE := filter_le (fun e : nat * Q => negb (Qeq_bool (snd e) 0)) r).
  destruct Hin' as [->|Hin]; [cbn; lia|]. specialize (IH Hin). destruct (negb _); cbn [length]; lia.
Qed.

Lemma frac_lt (p q a b : Q) : (0 < q)%Q -> (0 < b)%Q -> (p * b < a * q)%Q -> (p / q < a / b)%Q.
Proof.
  intros Hq Hb H. apply Qlt_shift_div_r; [exact Hq|].
  setoid_replace (a / b * q)%Q with ((a * q) / b)%Q by (field; lra).
  apply Qlt_shift_div_l; assumption.
Qed.

Lemma jaccard_self X s n c k W i u : good_mat X -> (1 <= k) ->
  item_knn_learn 0%Q Qplus qneqb qgtb nth_element sort_nat (fun X => X) (fun Y => jaccard_ctor layout Y s n c) X k = Ok W ->
  interacted X u i -> (forall j, j <> i -> ~ same_users X i j) ->
  In (i, 0%Q) (nth i (m_rows W) []) /\ length (nonzeros (nth i (m_rows W) [])) < k.
Proof.
  intros HX Hk H Hu Hd. unfold item_knn_learn in H.
  destruct (jaccard_ctor layout (transpose X) s n c) as [q| | |] eqn:Eq; try discriminate. cbn [obind] in H.
  destruct (cp_compute 0%Q Qplus qneqb qgtb nth_element sort_nat q (transpose X) k) as [M| | |] eqn:EM; try discriminate.
  cbn [obind] in H. assert (HT := transpose_good X HX).
  pose proof (jaccard_local layout lay (transpose X) s n c q Eq) as (Hl & HF & HN & Hs).
  pose proof (compute_top_k 0%Q Qplus qneqb qgtb nth_element sort_nat linear_Q ne_ok so_ok q _ _ _ _ Hl EM) as (D1 & D2 & T).
  pose proof (interacted_lt X u i HX Hu) as Hi. assert (Hi' : i < length (m_rows (transpose X))) by (rewrite (proj2 (transpose_dims X)); exact Hi).
  specialize (T i Hi'). set (t := nth i (m_rows (transpose X)) []) in *.
  set (A := support t). assert (HA : 0 < length A).
  { assert (Hin : In u A) by (apply support_users; assumption). destruct A; [destruct Hin|cbn; lia]. }
  assert (ND := good_nodup (transpose X) HT).
  destruct (jaccard_stored layout lay s (m_rows (transpose X)) t i ND Hi') as [v Hv].
  { fold t. fold A. rewrite common_self. exact HA. }
  pose proof (jaccard_in layout lay s (m_rows (transpose X)) t i v ND Hv) as (_ & _ & Ev). fold t A in Ev.
  rewrite common_self in Ev.
  apply (row_after_diagonal M W i v k H).
  - apply (best_kept (jaccard_row layout s (m_rows (transpose X)) t) i v _ k); try assumption.
    + apply (proj2 (proj2 (proj2 Hl)) t).
    + intros j w Hw Hji. pose proof (jaccard_in layout lay s (m_rows (transpose X)) t j w ND Hw) as (Hj & Hc & Ew).
      assert (Hj' : j < m_cols X) by (rewrite <- (proj2 (transpose_dims X)); exact Hj).
      pose proof (different_users X i j HX Hi Hj' (Hd j Hji)) as D. cbn zeta in D. fold t A in D.
      set (B := support (nth j (m_rows (transpose X)) [])) in *. fold A in Ew, Hc.
      pose proof (common_le_l A B) as L1.
      assert (L2 : common A B <= length B).
      { apply common_le_r; [apply (nth_good (transpose X) i HT)|apply (nth_good (transpose X) j HT)]. }
      rewrite Ew, Ev. set (x := common A B) in *. set (a := length A) in *. set (b := length B) in *.
      assert (P := eps_pos). apply qn_le in L1, L2. assert (Pa := qn_lt 0 a HA). change (qn 0) with 0%Q in Pa.
      assert (Pc := qn_lt 0 x Hc). change (qn 0) with 0%Q in Pc.
      apply frac_lt; [lra|lra|].
      destruct D as [D|D]; apply qn_lt in D; nra.
  - destruct T as (_ & E & _). lia.
Qed.

Lemma tversky_self X s al be n c k W i u : good_mat X -> (1 <= k) -> (0 < be)%Q ->
  item_knn_learn 0%Q Qplus qneqb qgtb nth_element sort_nat (fun X => X) (fun Y => tversky_ctor layout Y s al be n c) X k = Ok W ->
  interacted X u i -> (forall j, j <> i -> ~ same_users X i j) ->
  In (i, 0%Q) (nth i (m_rows W) []) /\ length (nonzeros (nth i (m_rows W) [])) < k.
Proof.
  intros HX Hk Hbe H Hu Hd. unfold item_knn_learn in H.
  destruct (tversky_ctor layout (transpose X) s al be n c) as [q| | |] eqn:Eq; try discriminate. cbn [obind] in H.
  destruct (cp_compute 0%Q Qplus qneqb qgtb nth_element sort_nat q (transpose X) k) as [M| | |] eqn:EM; try discriminate.
  cbn [obind] in H. assert (HT := transpose_good X HX).
  pose proof (tversky_local layout lay (transpose X) s al be n c q Eq) as (Hl & HF & HN & Hs & Hal & _).
  pose proof (compute_top_k 0%Q Qplus qneqb qgtb nth_element sort_nat linear_Q ne_ok so_ok q _ _ _ _ Hl EM) as (D1 & D2 & T).
  pose proof (interacted_lt X u i HX Hu) as Hi. assert (Hi' : i < length (m_rows (transpose X))) by (rewrite (proj2 (transpose_dims X)); exact Hi).
  specialize (T i Hi'). set (t := nth i (m_rows (transpose X)) []) in *.
  set (A := support t). assert (HA : 0 < length A).
  { assert (Hin : In u A) by (apply support_users; assumption). destruct A; [destruct Hin|cbn; lia]. }
  assert (ND := good_nodup (transpose X) HT).
  destruct (tversky_stored layout lay s al be (m_rows (transpose X)) t i ND Hi') as [v Hv].
  { fold t. fold A. rewrite common_self. exact HA. }
  pose proof (tversky_in layout lay s al be (m_rows (transpose X)) t i v ND Hv) as (_ & _ & Ev). fold t A in Ev.
  rewrite common_self in Ev.
  apply (row_after_diagonal M W i v k H).
  - apply (best_kept (tversky_row layout s al be (m_rows (transpose X)) t) i v _ k); try assumption.
    + apply (proj2 (proj2 (proj2 Hl)) t).
    + intros j w Hw Hji. pose proof (tversky_in layout lay s al be (m_rows (transpose X)) t j w ND Hw) as (Hj & Hc & Ew).
      assert (Hj' : j < m_cols X) by (rewrite <- (proj2 (transpose_dims X)); exact Hj).
      pose proof (different_users X i j HX Hi Hj' (Hd j Hji)) as D. cbn zeta in D. fold t A in D.
      set (B := support (nth j (m_rows (transpose X)) [])) in *. fold A in Ew, Hc.
      pose proof (common_le_l A B) as L1.
      assert (L2 : common A B <= length B).
      { apply common_le_r; [apply (nth_good (transpose X) i HT)|apply (nth_good (transpose X) j HT)]. }
      rewrite Ew, Ev. set (x := common A B) in *. set (a := length A) in *. set (b := length B) in *.
      assert (P := eps_pos). apply qn_le in L1, L2. assert (Pa := qn_lt 0 a HA). change (qn 0) with 0%Q in Pa.
      assert (Pc := qn_lt 0 x Hc). change (qn 0) with 0%Q in Pc.
      assert (P1 : (0 <= be * (qn b - qn x))%Q) by nra. assert (P2 : (0 <= al * (qn a - qn x))%Q) by nra.
      setoid_replace (qn a + be * (qn a - qn a) + al * (qn a - qn a) + s + eps)%Q with (qn a + s + eps)%Q by ring.
      apply frac_lt; [lra|lra|].
      destruct D as [D|D]; apply qn_lt in D.
      * assert (0 < (qn a - qn x) * (s + eps))%Q by nra. assert (0 <= qn a * (be * (qn b - qn x)))%Q by nra.
        assert (0 <= qn a * (al * (qn a - qn x)))%Q by nra. lra.
      * assert (0 <= (qn a - qn x) * (s + eps))%Q by nra. assert (0 < be * (qn b - qn x))%Q by nra.
        assert (0 < qn a * (be * (qn b - qn x)))%Q by nra.
        assert (0 <= qn a * (al * (qn a - qn x)))%Q by nra. lra.
  - destruct T as (_ & E & _). lia.
Qed.

(** One neighbour allowed: the item itself takes its place. *)
Lemma jaccard_one X s n c W x i : good_mat X ->
  item_knn_learn 0%Q Qplus qneqb qgtb nth_element sort_nat (fun X => X) (fun Y => jaccard_ctor layout Y s n c) X 1 = Ok W ->
  (forall i j u, interacted X u i -> j <> i -> ~ same_users X i j) ->
  (score_of 0 Qplus Qmult W x i == 0)%Q.
Proof.
  intros HX H Hd. rewrite score_sum.
  assert (Z : forall j v, In v (stored W j i) -> v = 0%Q).
  { intros j v Hv. pose proof H as H0. unfold item_knn_learn in H0.
    destruct (jaccard_ctor layout (transpose X) s n c) as [q| | |] eqn:Eq; try discriminate. cbn [obind] in H0.
    destruct (cp_compute 0%Q Qplus qneqb qgtb nth_element sort_nat q (transpose X) 1) as [M| | |] eqn:EM; try discriminate.
    cbn [obind] in H0.
    destruct (remove_diagonal_stored 0%Q M W H0) as (_ & _ & D1 & D2 & _).
    destruct (Nat.eq_dec j i) as [->|Hji].
    { rewrite D2 in Hv. apply in_map_iff in Hv. destruct Hv as (w & <- & _). reflexivity. }
    rewrite D1 in Hv by assumption. exfalso.
    assert (HT := transpose_good X HX).
    assert (EO : obind (jaccard_ctor layout (transpose X) s n c) (fun q => cp_compute 0%Q Qplus qneqb qgtb nth_element sort_nat q (transpose X) 1) = Ok M)
      by (rewrite Eq; exact EM).
    pose proof (jaccard_value layout lay nth_element sort_nat ne_ok so_ok (transpose X) (transpose X) s n c 1 M j i v HT HT EO Hv) as (Hc & _).
    assert (Hin : exists u, In u (support (nth j (m_rows (transpose X)) []))).
    { destruct (support (nth j (m_rows (transpose X)) [])) as [|u l]; [cbn in Hc; lia|]. exists u. left. reflexivity. }
    destruct Hin as [u Hu].
    assert (Hj : j < m_cols X).
    { destruct (Nat.lt_ge_cases j (m_cols X)) as [|Hge]; [assumption|]. rewrite nth_overflow in Hu; [destruct Hu|].
      rewrite (proj2 (transpose_dims X)). exact Hge. }
    apply support_users in Hu; [|exact Hj].
    destruct (jaccard_self X s n c 1 W j u HX (le_n 1) H Hu (fun l => Hd j l u Hu)) as [Hself _].
    assert (L : length (nth j (m_rows W) []) <= 1).
    { eapply (item_rows 0%Q Qplus qneqb qgtb nth_element sort_nat linear_Q ne_ok so_ok); [|exact H].
      intros Y q' HY. pose proof (jaccard_local layout lay Y s n c q' HY) as (Hl & HF & HN & _).
      split; [exact HN|]. split; [exact HF|]. split; [apply Hl|]. split; [apply Hl|]. eexists. split; [apply Hl|apply Hl]. }
    rewrite <- D1 in Hv by assumption. apply stored_in in Hv.
    destruct (nth j (m_rows W) []) as [|e [|e' r]]; [destruct Hv| |cbn in L; lia].
    destruct Hself as [->|[]]. destruct Hv as [[= E _]|[]]. congruence. }
  induction x as [|e x IH]; [reflexivity|]. cbn [map Qsum fold_right]. fold (Qsum (map (fun e => (snd e * Qsum (stored W (fst e) i))%Q) x)).
  rewrite IH.
  assert (E : (Qsum (stored W (fst e) i) == 0)%Q).
  { specialize (Z (fst e)). induction (stored W (fst e) i) as [|v l IHl]; [reflexivity|].
    cbn [Qsum fold_right]. fold (Qsum l). rewrite IHl by (intros; apply Z; right; assumption). rewrite (Z v (or_introl eq_refl)). ring. }
  rewrite E. ring.
Qed.
End Self.
