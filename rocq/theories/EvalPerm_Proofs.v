(** Renumbering of the items. *)
From Coq Require Import QArith.
From Verif Require Import Base Eval_Spec EvalPy_Spec Eval_Proofs Eval_Main_Proofs Eval_Facts_Proofs Eval_Derived_Proofs EvalPy_Proofs EvalApi_Proofs.
Local Open Scope nat_scope.

Section Perm.
Variables (n : nat) (p q : nat -> nat).
Hypothesis P : renumbers n p q.

Lemma p_lt i : i < n -> p i < n. Proof. intros H. now apply P. Qed.
Lemma p_inj i j : i < n -> j < n -> p i = p j -> i = j.
Proof. intros Hi Hj E. destruct (P i Hi) as (_ & _ & A & _), (P j Hj) as (_ & _ & B & _). congruence. Qed.
Lemma p_seq : Permutation (map p (seq 0 n)) (seq 0 n).
Proof.
  apply NoDup_Permutation; [|apply seq_NoDup|].
  - apply NoDup_nth with (d := p 0). intros i j Hi Hj. rewrite map_length, seq_length in *. rewrite !map_nth, !seq_nth by assumption.
    intros E. apply p_inj in E; lia.
  - intros x. rewrite in_map_iff. split.
    + intros (i & <- & Hi). apply in_seq in Hi. apply in_seq. pose proof (p_lt i). lia.
    + intros Hx. apply in_seq in Hx. destruct (P x) as (_ & A & _ & B); [lia|]. exists (q x). split; [exact B|]. apply in_seq. lia.
Qed.

Lemma filter_renumber (f f' : nat -> bool) : (forall i, i < n -> f' (p i) = f i) ->
  Permutation (map p (filter f (seq 0 n))) (filter f' (seq 0 n)).
Proof.
  intros H. transitivity (filter f' (map p (seq 0 n))); [|apply filter_perm, p_seq].
  replace (filter f' (map p (seq 0 n))) with (map p (filter f (seq 0 n))); [apply Permutation_refl|].
  assert (G : forall i, In i (seq 0 n) -> i < n) by (intros i Hi; apply in_seq in Hi; lia).
  induction (seq 0 n) as [|x l IH]; [reflexivity|]. cbn [map filter]. rewrite H by (apply G; now left).
  specialize (IH (fun i Hi => G i (or_intror Hi))). destruct (f x); cbn [map]; congruence.
Qed.

Definition within (l : list nat) : Prop := forall i, In i l -> i < n.

(** User [u'] is user [u] with the new numbers. *)
Record same_user (u u' : user) : Prop := {
  su_gt : Permutation (map p (u_gt u)) (u_gt u');
  su_gt_in : within (u_gt u);
  su_elig : Permutation (map p (u_elig u)) (u_elig u');
  su_elig_in : within (u_elig u);
  su_score : forall i, i < n -> u_score u' (p i) = u_score u i }.

Lemma in_map_p l i : within l -> i < n -> In (p i) (map p l) <-> In i l.
Proof.
  intros W Hi. split; [|apply in_map]. intros H. apply in_map_iff in H. destruct H as (j & E & Hj).
  apply p_inj in E; auto. now subst.
Qed.
Lemma relevant_p gt gt' i : Permutation (map p gt) gt' -> within gt -> i < n -> relevant gt' (p i) = relevant gt i.
Proof.
  intros HP W Hi. destruct (relevant gt i) eqn:E.
  - apply relevant_true. apply (Permutation_in _ HP). apply in_map. now apply relevant_true.
  - apply relevant_false. apply relevant_false in E. intros H. apply E. apply (Permutation_in _ (Permutation_sym HP)) in H.
    now apply (in_map_p gt i W Hi).
Qed.
Lemma n_hits_p gt gt' l : Permutation (map p gt) gt' -> within gt -> within l -> n_hits (map p l) gt' = n_hits l gt.
Proof.
  intros HP W. unfold n_hits. induction l as [|x l IH]; intros Wl; [reflexivity|]. cbn [map filter].
  rewrite (relevant_p gt gt' x HP W) by (apply Wl; now left). specialize (IH (fun i Hi => Wl i (or_intror Hi))).
  destruct (relevant gt x); cbn [length]; congruence.
Qed.
Lemma nth_p l i : i < length l -> nth i (map p l) 0 = p (nth i l 0).
Proof. intros H. rewrite nth_indep with (d' := p 0) by (now rewrite map_length). apply map_nth. Qed.

Section Metrics.
Variables (gt gt' l : list nat).
Hypotheses (HP : Permutation (map p gt) gt') (W : within gt) (Wl : within l).
Lemma gt_len : length gt' = length gt.
Proof. rewrite <- (Permutation_length HP). apply map_length. Qed.
Lemma rel_nth i : i < length l -> relevant gt' (nth i (map p l) 0) = relevant gt (nth i l 0).
Proof. intros Hi. rewrite nth_p by exact Hi. apply relevant_p; auto. apply Wl. now apply nth_In. Qed.
Lemma hit_p : hit_of (map p l) gt' = hit_of l gt.
Proof. unfold hit_of. now rewrite (n_hits_p gt gt' l HP W Wl). Qed.
Lemma precision_p : precision_of (map p l) gt' = precision_of l gt.
Proof. unfold precision_of. now rewrite (n_hits_p gt gt' l HP W Wl), map_length. Qed.
Lemma recall_p rwc : recall_of rwc (map p l) gt' = recall_of rwc l gt.
Proof. unfold recall_of. now rewrite (n_hits_p gt gt' l HP W Wl), map_length, gt_len. Qed.
Lemma sum_upto_eq m f g : (forall i, i < m -> f i = g i) -> sum_upto m f = sum_upto m g.
Proof. intros H. unfold sum_upto. f_equal. apply map_ext_in. intros i Hi. apply in_seq in Hi. apply H. lia. Qed.
Lemma ndcg_p disc : ndcg_of disc (map p l) gt' = ndcg_of disc l gt.
Proof.
  unfold ndcg_of, idcg_of, dcg_of. rewrite map_length, gt_len.
  rewrite (sum_upto_eq _ _ (fun i => if relevant gt (nth i l 0) then disc i else 0%Q)); [reflexivity|].
  intros i Hi. now rewrite rel_nth.
Qed.
Lemma ap_p : ap_of (map p l) gt' = ap_of l gt.
Proof.
  unfold ap_of. rewrite map_length, gt_len. f_equal. apply sum_upto_eq. intros i Hi. rewrite rel_nth by exact Hi.
  rewrite firstn_map, (n_hits_p gt gt' (firstn (S i) l) HP W); [reflexivity|].
  intros x Hx. apply Wl. rewrite <- (firstn_skipn (S i) l). apply in_or_app. now left.
Qed.
End Metrics.

(** Best lists. *)
Lemma sorted_p (R R' : nat -> nat -> Prop) l : (forall i j, In i l -> In j l -> R i j -> R' (p i) (p j)) ->
  StronglySorted R l -> StronglySorted R' (map p l).
Proof.
  intros H S. induction S as [|x l S IH F]; cbn [map]; [constructor|]. constructor.
  - apply IH. intros i j Hi Hj. apply H; now right.
  - apply Forall_forall. intros y Hy. apply in_map_iff in Hy. destruct Hy as (j & <- & Hj). rewrite Forall_forall in F.
    apply H; [now left|now right|auto].
Qed.
Lemma top_p u u' c l : same_user u u' -> (forall i j, In i (u_elig u) -> In j (u_elig u) -> scmp (u_score u i) (u_score u j) = Eq -> i = j) ->
  is_top (u_score u) (u_elig u) c l -> is_top (u_score u') (u_elig u') c (map p l).
Proof.
  intros [_ _ E We Sc] NT [T1 T2 T3 T4].
  assert (BT : forall i j, In i (u_elig u) -> In j (u_elig u) -> better (u_score u) i j -> better (u_score u') (p i) (p j)).
  { intros i j Hi Hj [G|[G L]].
    - left. now rewrite !Sc by auto.
    - apply (NT _ _ Hi Hj) in G. lia. }
  constructor.
  - apply (sorted_p (better (u_score u))); auto.
  - intros x Hx. apply in_map_iff in Hx. destruct Hx as (i & <- & Hi). apply (Permutation_in _ E). apply in_map. auto.
  - rewrite map_length, T3, <- (Permutation_length E), map_length. reflexivity.
  - intros x y Hx Hy Ny. apply in_map_iff in Hx. destruct Hx as (i & <- & Hi).
    apply (Permutation_in _ (Permutation_sym E)) in Hy. apply in_map_iff in Hy. destruct Hy as (j & <- & Hj).
    apply BT; auto. apply T4; auto. intros K. apply Ny. now apply in_map.
Qed.

Lemma has_gt_p u u' : same_user u u' -> has_gt u' = has_gt u.
Proof. intros [E _ _ _ _]. unfold has_gt. now rewrite <- (Permutation_length E), map_length. Qed.
Lemma valid_p us us' : Forall2 same_user us us' -> Forall2 same_user (valid_users us) (valid_users us').
Proof.
  induction 1 as [|u u' us us' H HF IH]; [constructor|]. unfold valid_users in *. cbn [filter]. rewrite (has_gt_p _ _ H).
  destruct (has_gt u); auto.
Qed.
Lemma tops_p c us us' tops : Forall2 same_user us us' -> no_ties us -> tops_of c us tops -> tops_of c us' (map (map p) tops).
Proof.
  intros HS NT. unfold tops_of. pose proof (valid_p us us' HS) as HV.
  assert (NV : no_ties (valid_users us)) by (intros u i j Hu; apply NT; unfold valid_users in Hu; apply filter_In in Hu; tauto).
  clear HS NT. revert tops NV. induction HV as [|u u' vs vs' H HF IH]; intros tops NV T; inversion T as [|? l ? ls Hl T']; subst; [constructor|].
  cbn [map]. constructor.
  - apply (top_p u u'); auto. intros i j. apply NV. now left.
  - apply IH; auto. intros u0 i j Hu. apply NV. now right.
Qed.
Lemma tops_within c us tops : (forall u, In u us -> within (u_elig u)) -> tops_of c us tops -> forall l, In l tops -> within l.
Proof.
  intros W T. unfold tops_of in T. assert (WV : forall u, In u (valid_users us) -> within (u_elig u)).
  { intros u Hu. apply W. unfold valid_users in Hu. apply filter_In in Hu. tauto. }
  clear W. induction T as [|u l us' ls H HF IH]; intros l' Hl; [destruct Hl|]. destruct Hl as [<-|Hl].
  - intros i Hi. apply (WV u (or_introl eq_refl)). now apply (top_incl _ _ _ _ H).
  - apply IH; auto. intros u0 Hu. apply WV. now right.
Qed.
Lemma average_p (f : list nat -> list nat -> Q) us us' tops :
  (forall gt gt' l, Permutation (map p gt) gt' -> within gt -> within l -> f (map p l) gt' = f l gt) ->
  Forall2 same_user us us' -> (forall l, In l tops -> within l) -> average f us' (map (map p) tops) = average f us tops.
Proof.
  intros Hf HS W. unfold average. apply valid_p in HS. f_equal.
  - unfold total. f_equal. revert tops W. induction HS as [|u u' vs vs' H HF IH]; intros tops W; [reflexivity|].
    destruct tops as [|l tops]; [reflexivity|]. cbn [map combine fst snd]. f_equal.
    + apply Hf; [apply H|apply H|apply W; now left].
    + apply IH. intros l' Hl. apply W. now right.
  - do 3 f_equal. clear -HS. induction HS; cbn; congruence.
Qed.
Lemma times_p tops i : (forall l, In l tops -> within l) -> i < n -> times_recommended (map (map p) tops) (p i) = times_recommended tops i.
Proof.
  intros W Hi. unfold times_recommended. induction tops as [|l tops IH]; [reflexivity|]. cbn [map filter].
  rewrite (relevant_p l (map p l) i (Permutation_refl _)) by (auto; apply W; now left).
  specialize (IH (fun l' Hl => W l' (or_intror Hl))). destruct (relevant l i); cbn [length]; congruence.
Qed.
Lemma counts_p tops : (forall l, In l tops -> within l) ->
  Permutation (map (times_recommended tops) (seq 0 n)) (map (times_recommended (map (map p) tops)) (seq 0 n)).
Proof.
  intros W. rewrite <- (Permutation_map (times_recommended (map (map p) tops)) p_seq). rewrite map_map.
  replace (map (fun x => times_recommended (map (map p) tops) (p x)) (seq 0 n)) with (map (times_recommended tops) (seq 0 n)); [apply Permutation_refl|].
  apply map_ext_in. intros i Hi. apply in_seq in Hi. symmetry. apply times_p; auto. lia.
Qed.
Lemma gini_perm c c' : Permutation c c' -> gini_of c = gini_of c'.
Proof.
  intros H. unfold gini_of. pose proof (list_nat_sum_perm c c' H) as L. unfold list_nat_sum in L. rewrite L.
  pose proof (diffsum_perm c c' H) as D. unfold diffsum, absum in D. rewrite D, (Permutation_length H). reflexivity.
Qed.
Lemma shares_perm c c' ps : Permutation c c' -> shares_of c ps -> shares_of c' ps.
Proof.
  intros H (cs & S & E & ->). exists cs. split; [exact S|]. split.
  - rewrite E. now apply filter_perm.
  - pose proof (list_nat_sum_perm c c' H) as L. unfold list_nat_sum in L. now rewrite L.
Qed.
Lemma report_p disc rwc us us' tops r : Forall2 same_user us us' -> (forall l, In l tops -> within l) ->
  report_means disc rwc n us tops r -> report_means disc rwc n us' (map (map p) tops) r.
Proof.
  intros HS W [R1 R2 R3 R4 R5 R6 R7 R8 R9 R10 R11]. pose proof (counts_p tops W) as C. constructor.
  - rewrite R1. clear -HS. induction HS; cbn; congruence.
  - rewrite R2. apply valid_p in HS. clear -HS. induction HS; cbn; congruence.
  - exact R3.
  - rewrite R4. now rewrite (average_p hit_of us us' tops hit_p HS W).
  - rewrite R5. now rewrite (average_p (recall_of rwc) us us' tops (fun a b c d e f => recall_p a b c d e f rwc) HS W).
  - rewrite R6. now rewrite (average_p (ndcg_of disc) us us' tops (fun a b c d e f => ndcg_p a b c d e f disc) HS W).
  - rewrite R7. now rewrite (average_p ap_of us us' tops ap_p HS W).
  - rewrite R8. now rewrite (average_p precision_of us us' tops precision_p HS W).
  - rewrite R9. rewrite <- !(filter_map_length (times_recommended _) (fun c => negb (c =? 0))). apply filter_length_perm, C.
  - rewrite R10. now rewrite (gini_perm _ _ C).
  - eapply shares_perm; [exact C|exact R11].
Qed.

Lemma allowed_p recs recs' u i : Forall2 (same_items n p) recs recs' -> i < n -> allowed recs' u (p i) = allowed recs u i.
Proof.
  intros H Hi.
  assert (R : forall r r', same_items n p r r' -> relevant r' (p i) = relevant r i).
  { intros r r' S. destruct (relevant r i) eqn:E.
    - apply relevant_true, S; auto. now apply relevant_true.
    - apply relevant_false. apply relevant_false in E. intros K. apply E. now apply S. }
  assert (N : forall k rs rs', Forall2 (same_items n p) rs rs' -> relevant (nth k rs' []) (p i) = relevant (nth k rs []) i).
  { intros k rs rs' F. revert k. induction F as [|r r' rs rs' Hr F IH]; intros [|k]; cbn [nth]; auto. }
  destruct H as [|r r' l l' Hr H]; [reflexivity|]. destruct H as [|r2 r2' l l' Hr2 H]; cbn [allowed]; [now apply R|].
  apply N. constructor; [exact Hr|]. constructor; [exact Hr2|exact H].
Qed.
Lemma catalog_p recs recs' : Forall2 (same_items n p) recs recs' -> catalog_size n recs' = catalog_size n recs.
Proof.
  intros H. assert (L : length (filter (fun i => existsb (fun r => relevant r i) recs) (seq 0 n)) = length (filter (fun i => existsb (fun r => relevant r i) recs') (seq 0 n))).
  { assert (F : forall i, i < n -> existsb (fun r => relevant r (p i)) recs' = existsb (fun r => relevant r i) recs).
    { intros i Hi. clear -H Hi. induction H as [|r r' rs rs' S H IH]; [reflexivity|]. cbn [existsb]. rewrite IH. f_equal.
      destruct (relevant r i) eqn:E.
      + apply relevant_true, S; auto. now apply relevant_true.
      + apply relevant_false. apply relevant_false in E. intros K. apply E. now apply S. }
    pose proof (Permutation_length (filter_renumber (fun i => existsb (fun r => relevant r i) recs) (fun i => existsb (fun r => relevant r i) recs') F)) as L.
    now rewrite map_length in L. }
  unfold catalog_size. destruct H; auto.
Qed.
End Perm.

Lemma g_users_p g g' d d' p q : renumbers (g_n_items g) p q -> renumbered p g g' d d' ->
  Forall2 (same_user (g_n_items g) p) (g_users g (d_rows d)) (g_users g' (d_rows d')).
Proof.
  intros HP [N1 N2 N3 N4 N5 N6 N7]. unfold g_users, masked_users. rewrite N1, N3.
  induction (seq 0 (length (g_gt g))) as [|u us IH]; cbn [map]; constructor; auto. clear IH.
  assert (R : forall i l l', i < g_n_items g -> same_items (g_n_items g) p l l' -> relevant l' (p i) = relevant l i).
  { intros i l l' Hi S. destruct (relevant l i) eqn:E.
    - apply relevant_true, S; auto. now apply relevant_true.
    - apply relevant_false. apply relevant_false in E. intros K. apply E. now apply S. }
  constructor; cbn [u_gt u_elig u_score masked_user].
  - apply (filter_renumber _ p q HP). intros i Hi. rewrite (R i _ _ Hi (N4 u)). f_equal. now apply (allowed_p (g_n_items g) p).
  - intros i Hi. apply filter_In in Hi as [Hi _]. apply in_seq in Hi. lia.
  - apply (filter_renumber _ p q HP). intros i Hi. rewrite (N7 u i Hi), (R i _ _ Hi (N6 u)). f_equal. f_equal. now apply (allowed_p (g_n_items g) p).
  - intros i Hi. apply filter_In in Hi as [Hi _]. apply in_seq in Hi. lia.
  - intros i Hi. now apply N7.
Qed.

Lemma renumbered_report disc g g' ev ev' d d' p q cutoffs xs xs' rs rs' :
  config_ok g -> build g = Ok ev -> scores_ok g d -> config_ok g' -> build g' = Ok ev' -> scores_ok g' d' ->
  renumbers (g_n_items g) p q -> renumbered p g g' d d' -> no_ties (g_users g (d_rows d)) ->
  cutoffs_ok (g_n_items g) cutoffs -> launched xs -> launched xs' ->
  matrix_scores disc ev d cutoffs xs = Ok rs -> matrix_scores disc ev' d' cutoffs xs' = Ok rs' -> Forall2 same_result rs rs'.
Proof.
  intros HC HB HS HC' HB' HS' HP HR NT Hcut Hx Hx' E E'.
  pose proof (g_users_p g g' d d' p q HP HR) as US. destruct HR as [N1 N2 N3 N4 N5 N6 N7].
  destruct (api_matrix disc g ev d cutoffs xs HC HB HS Hcut Hx) as (r1 & E1 & M1); [rewrite E; discriminate|].
  destruct (api_matrix disc g' ev' d' cutoffs xs' HC' HB' HS') as (r2 & E2 & M2); auto; [now rewrite N1|rewrite E'; discriminate|].
  rewrite E in E1. rewrite E' in E2. injection E1 as <-. injection E2 as <-.
  eapply (means_unique disc g'); [apply masked_users_ok| |exact M2|reflexivity..].
  unfold g_users at 2 in US. unfold means in *. rewrite N1, N2. rewrite N1 in US. clear -M1 US NT HP N5.
  assert (WE : forall u, In u (g_users g (d_rows d)) -> within (g_n_items g) (u_elig u)).
  { clear -US. induction US as [|u u' us us' H HF IH]; intros u0 Hu; [destruct Hu|]. destruct Hu as [<-|Hu]; [apply H|auto]. }
  induction M1 as [|c r cs rs [(t & T & R) C] M1 IH]; constructor; auto. split.
  - exists (map (map p) t). split; [apply (tops_p (g_n_items g) p c _ _ t US NT T)|].
    apply (report_p (g_n_items g) p q HP _ _ _ _ t _ US); [|exact R]. exact (tops_within (g_n_items g) c _ t WE T).
  - now rewrite (catalog_p (g_n_items g) p q HP _ _ N5).
Qed.
