(** Facts about the textbook metrics of Eval_Spec. *)
From Coq Require Import QArith Lqa.
From Verif Require Import Base Eval_Spec Eval_Proofs Eval_Core_Proofs Eval_Main_Proofs.
Local Open Scope nat_scope.

Lemma filter_length_le' {X} (f : X -> bool) l : length (filter f l) <= length l.
Proof. induction l as [|a l IH]; cbn; [lia|]. destruct (f a); cbn; lia. Qed.
Lemma filter_full {X} (f : X -> bool) l : length (filter f l) = length l -> filter f l = l.
Proof.
  induction l as [|a l IH]; cbn; auto. pose proof (filter_length_le' f l). destruct (f a); cbn; [|lia].
  intros [= H0]. f_equal. auto.
Qed.
Lemma nth_firstn0 a (l : list nat) k d : k < a -> nth k (firstn a l) d = nth k l d.
Proof. revert l k; induction a as [|a IH]; intros l k H; [lia|]. destruct l; auto. destruct k; cbn; auto. apply IH; lia. Qed.

Lemma qn_nonneg n : (0 <= inject_Z (Z.of_nat n))%Q.
Proof. unfold Qle, inject_Z; cbn. lia. Qed.
Lemma qn_pos n : 0 < n -> (0 < inject_Z (Z.of_nat n))%Q.
Proof. intros H. unfold Qlt, inject_Z; cbn. lia. Qed.
Lemma qn_le a b : a <= b -> (inject_Z (Z.of_nat a) <= inject_Z (Z.of_nat b))%Q.
Proof. intros H. unfold Qle, inject_Z; cbn. lia. Qed.
Lemma qn_lt a b : a < b -> (inject_Z (Z.of_nat a) < inject_Z (Z.of_nat b))%Q.
Proof. intros H. unfold Qlt, inject_Z; cbn. lia. Qed.
Lemma qn_S n : (inject_Z (Z.of_nat (S n)) == inject_Z (Z.of_nat n) + 1)%Q.
Proof. rewrite Nat2Z.inj_succ. unfold Z.succ. rewrite inject_Z_plus. reflexivity. Qed.
Lemma qn_add a b : (inject_Z (Z.of_nat (a + b)) == inject_Z (Z.of_nat a) + inject_Z (Z.of_nat b))%Q.
Proof. rewrite Nat2Z.inj_add, inject_Z_plus. reflexivity. Qed.

Lemma qdiv_nonneg a b : (0 <= a -> 0 <= b -> 0 <= a / b)%Q.
Proof. intros Ha Hb. unfold Qdiv. apply Qmult_le_0_compat; auto. now apply Qinv_le_0_compat. Qed.
Lemma qdiv_le1 a b : (0 < b -> a <= b -> a / b <= 1)%Q.
Proof. intros Hb H. apply Qle_shift_div_r; auto. lra. Qed.
Lemma qdiv_le1' a b : (0 <= a -> a <= b -> a / b <= 1)%Q.
Proof.
  intros Ha H. destruct (Qlt_le_dec 0 b) as [Hb|Hb]; [now apply qdiv_le1|].
  assert (E : (b == 0)%Q) by lra. rewrite E. unfold Qdiv. change (/0)%Q with 0%Q. lra.
Qed.
Lemma qdiv_eq1 a b : (0 < b -> (a / b == 1 <-> a == b))%Q.
Proof.
  intros Hb. assert (~ b == 0)%Q by lra. split; intros H0.
  - assert (E : (a == (a / b) * b)%Q) by (field; auto). rewrite E, H0. ring.
  - rewrite H0. field. auto.
Qed.

Lemma sum_upto_le n f g : (forall i, i < n -> (f i <= g i)%Q) -> (sum_upto n f <= sum_upto n g)%Q.
Proof.
  revert f g; induction n as [|n IH]; intros f g H; [apply Qle_refl|].
  rewrite !sum_upto_last. pose proof (H n ltac:(lia)). specialize (IH f g (fun i Hi => H i ltac:(lia))). lra.
Qed.
Lemma sum_upto_mono n m f : n <= m -> (forall i, (0 <= f i)%Q) -> (sum_upto n f <= sum_upto m f)%Q.
Proof.
  intros H Hf. induction H as [|m H IH]; [apply Qle_refl|]. rewrite sum_upto_last. pose proof (Hf m). lra.
Qed.
Lemma sum_upto_const n c : (sum_upto n (fun _ => c) == inject_Z (Z.of_nat n) * c)%Q.
Proof. induction n as [|n IH]; [rewrite sum_upto_0; cbn; ring|]. rewrite sum_upto_last, IH, qn_S. ring. Qed.

(** ** Hits *)
Lemma n_hits_le_len l gt : n_hits l gt <= length l.
Proof. unfold n_hits. apply filter_length_le'. Qed.
Lemma n_hits_le_gt l gt : NoDup l -> n_hits l gt <= length gt.
Proof.
  intros H. unfold n_hits. apply NoDup_incl_length; [now apply NoDup_filter|].
  intros x Hx. apply filter_In in Hx as [_ Hx]. now apply relevant_true.
Qed.
Lemma n_hits_app a b gt : n_hits (a ++ b) gt = n_hits a gt + n_hits b gt.
Proof. unfold n_hits. now rewrite filter_app, app_length. Qed.
Lemma n_hits_firstn_S i l gt : i < length l ->
  n_hits (firstn (S i) l) gt = n_hits (firstn i l) gt + if relevant gt (nth i l 0) then 1 else 0.
Proof.
  intros H. assert (E : firstn (S i) l = firstn i l ++ [nth i l 0]).
  { clear gt. revert l H; induction i as [|i IH]; intros [|a l] H; cbn in *; try lia; auto. f_equal. rewrite <- IH by lia. reflexivity. }
  rewrite E, n_hits_app. f_equal. unfold n_hits. cbn. destruct (relevant _ _); reflexivity.
Qed.
(** The number of hits as a sum over the ranks. *)
Lemma n_hits_sum l gt k : k <= length l ->
  (sum_upto k (fun i => if relevant gt (nth i l 0%nat) then 1 else 0) == inject_Z (Z.of_nat (n_hits (firstn k l) gt)))%Q.
Proof.
  induction k as [|k IH]; intros H; [reflexivity|]. rewrite sum_upto_last, IH by lia.
  rewrite n_hits_firstn_S, qn_add by lia. destruct (relevant _ _); reflexivity.
Qed.

(** ** Bounds for one user *)
Lemma hit_range l gt : (0 <= hit_of l gt <= 1)%Q.
Proof. unfold hit_of. destruct (_ =? 0); lra. Qed.
Lemma precision_range l gt : (0 <= precision_of l gt <= 1)%Q.
Proof.
  unfold precision_of. destruct (Nat.eqb_spec (length l) 0); [lra|]. split.
  - apply qdiv_nonneg; apply qn_nonneg.
  - apply qdiv_le1; [apply qn_pos; lia|]. apply qn_le, n_hits_le_len.
Qed.
Lemma recall_range rwc l gt : NoDup l -> (0 <= recall_of rwc l gt <= 1)%Q.
Proof.
  intros HN. unfold recall_of. destruct (Nat.eqb_spec (length l) 0); [lra|]. split.
  - apply qdiv_nonneg; apply qn_nonneg.
  - apply qdiv_le1'; [apply qn_nonneg|]. apply qn_le.
    pose proof (n_hits_le_len l gt). pose proof (n_hits_le_gt l gt HN). destruct rwc; lia.
Qed.
Lemma ap_terms l gt i : i < length l ->
  (0 <= (if relevant gt (nth i l 0%nat) then inject_Z (Z.of_nat (n_hits (firstn (S i) l) gt)) / inject_Z (Z.of_nat (S i)) else 0)
     <= if relevant gt (nth i l 0%nat) then 1 else 0)%Q.
Proof.
  intros H. destruct (relevant _ _); [|lra]. split; [apply qdiv_nonneg; apply qn_nonneg|].
  apply qdiv_le1; [apply qn_pos; lia|]. apply qn_le.
  pose proof (n_hits_le_len (firstn (S i) l) gt). rewrite firstn_length in *. lia.
Qed.
Lemma ap_range l gt : NoDup l -> (0 <= ap_of l gt <= 1)%Q.
Proof.
  intros HN. unfold ap_of. split.
  - apply qdiv_nonneg; [|apply qn_nonneg]. apply sum_upto_nonneg. intros i Hi. now apply ap_terms.
  - apply qdiv_le1'.
    + apply sum_upto_nonneg. intros i Hi. now apply ap_terms.
    + eapply Qle_trans; [apply sum_upto_le; intros i Hi; apply (proj2 (ap_terms l gt i Hi))|].
      rewrite n_hits_sum by lia. rewrite firstn_all. apply qn_le. now apply n_hits_le_gt.
Qed.

Section Disc.
Variable disc : nat -> Q.
Hypothesis disc_pos : forall i, (0 < disc i)%Q.
Hypothesis disc_dec : forall i, (disc (S i) <= disc i)%Q.

Lemma disc_antitone i j : i <= j -> (disc j <= disc i)%Q.
Proof. induction 1 as [|j H IH]; [apply Qle_refl|]. pose proof (disc_dec j). lra. Qed.

(** Moving all hits to the top does not decrease the gain. *)
Lemma dcg_le_hits l gt k : k <= length l ->
  (sum_upto k (fun i => if relevant gt (nth i l 0%nat) then disc i else 0) <= sum_upto (n_hits (firstn k l) gt) disc)%Q.
Proof.
  induction k as [|k IH]; intros H; [apply Qle_refl|].
  rewrite sum_upto_last, n_hits_firstn_S by lia. specialize (IH ltac:(lia)).
  destruct (relevant _ _).
  - rewrite Nat.add_1_r, sum_upto_last.
    pose proof (n_hits_le_len (firstn k l) gt) as HL. rewrite firstn_length in HL.
    pose proof (disc_antitone (n_hits (firstn k l) gt) k ltac:(lia)). lra.
  - rewrite Nat.add_0_r. lra.
Qed.
Lemma dcg_le_idcg l gt : NoDup l -> (dcg_of disc l gt <= idcg_of disc l gt)%Q.
Proof.
  intros HN. unfold dcg_of, idcg_of. eapply Qle_trans; [now apply dcg_le_hits|]. rewrite firstn_all.
  apply sum_upto_mono; [|intros i; apply Qlt_le_weak, disc_pos].
  pose proof (n_hits_le_len l gt). pose proof (n_hits_le_gt l gt HN). lia.
Qed.
Lemma dcg_nonneg l gt : (0 <= dcg_of disc l gt)%Q.
Proof. apply sum_upto_nonneg. intros i _. destruct (relevant _ _); [apply Qlt_le_weak, disc_pos|apply Qle_refl]. Qed.
Lemma ndcg_range l gt : NoDup l -> (0 <= ndcg_of disc l gt <= 1)%Q.
Proof.
  intros HN. unfold ndcg_of. destruct (Nat.eqb_spec (length l) 0); [lra|].
  pose proof (dcg_nonneg l gt). pose proof (dcg_le_idcg l gt HN). split; [apply qdiv_nonneg; lra|now apply qdiv_le1'].
Qed.
End Disc.

Section Strict.
Variable disc : nat -> Q.
Hypothesis disc_pos : forall i, (0 < disc i)%Q.
Hypothesis disc_dec : forall i, (disc (S i) < disc i)%Q.
Let disc_dec' : forall i, (disc (S i) <= disc i)%Q := fun i => Qlt_le_weak _ _ (disc_dec i).

Lemma disc_strict i j : i < j -> (disc j < disc i)%Q.
Proof. induction 1 as [|j H IH]; [apply disc_dec|]. pose proof (disc_dec j). lra. Qed.

(** If a hit is missing at some rank before a hit, the gain is strictly smaller. *)
Lemma dcg_lt_hits l gt k : k <= length l ->
  (exists i, i < n_hits (firstn k l) gt /\ relevant gt (nth i l 0) = false) ->
  (sum_upto k (fun i => if relevant gt (nth i l 0%nat) then disc i else 0) < sum_upto (n_hits (firstn k l) gt) disc)%Q.
Proof.
  induction k as [|k IH]; intros H (i & Hi & Hr); [cbn in Hi; lia|].
  rewrite n_hits_firstn_S in * by lia. rewrite sum_upto_last.
  pose proof (dcg_le_hits disc disc_dec' l gt k ltac:(lia)) as Hle.
  destruct (relevant gt (nth k l 0)) eqn:Ek.
  - rewrite Nat.add_1_r in *. rewrite sum_upto_last.
    pose proof (n_hits_le_len (firstn k l) gt) as HL. rewrite firstn_length in HL.
    destruct (Nat.eq_dec (n_hits (firstn k l) gt) k) as [E|E].
    + (* all earlier ranks are hits *)
      exfalso. assert (Hik : i < k) by (destruct (Nat.eq_dec i k); [subst; congruence|lia]).
      assert (Hall : filter (relevant gt) (firstn k l) = firstn k l).
      { apply filter_full. unfold n_hits in E. rewrite E, firstn_length. lia. }
      assert (Hin : In (nth i l 0) (firstn k l)).
      { rewrite <- (nth_firstn0 k l i 0) by lia. apply nth_In. rewrite firstn_length. lia. }
      rewrite <- Hall in Hin. apply filter_In in Hin. destruct Hin; congruence.
    + pose proof (disc_strict (n_hits (firstn k l) gt) k ltac:(lia)). lra.
  - rewrite Nat.add_0_r in *. specialize (IH ltac:(lia) (ex_intro _ i (conj Hi Hr))). lra.
Qed.

Lemma ndcg_one_iff l gt : NoDup l -> l <> [] -> gt <> [] ->
  (ndcg_of disc l gt == 1 <-> perfect l gt)%Q.
Proof.
  intros HN Hl Hg. unfold ndcg_of.
  assert (Ll : 0 < length l) by (destruct l; [congruence|cbn; lia]).
  assert (Lg : 0 < length gt) by (destruct gt; [congruence|cbn; lia]).
  destruct (Nat.eqb_spec (length l) 0); [lia|].
  set (m := min (length gt) (length l)). assert (Hm : 0 < m) by (unfold m; lia).
  assert (Hpos : forall k, 0 < k -> (0 < sum_upto k disc)%Q).
  { intros [|k] Hk; [lia|]. rewrite sum_upto_last. pose proof (disc_pos k).
    assert (0 <= sum_upto k disc)%Q by (apply sum_upto_nonneg; intros; apply Qlt_le_weak, disc_pos). lra. }
  assert (Hinc : forall a b, a < b -> (sum_upto a disc < sum_upto b disc)%Q).
  { intros a b Hab. induction Hab as [|b Hab IH]; rewrite sum_upto_last; [pose proof (disc_pos a); lra|pose proof (disc_pos b); lra]. }
  rewrite qdiv_eq1 by (apply (Hpos m Hm)).
  pose proof (n_hits_le_len l gt) as H1. pose proof (n_hits_le_gt l gt HN) as H2.
  pose proof (dcg_le_hits disc disc_dec' l gt (length l) (le_n _)) as Hle. rewrite firstn_all in Hle.
  split.
  - intros E i Hi. fold m in Hi. apply relevant_true. destruct (relevant gt (nth i l 0)) eqn:Er; auto. exfalso.
    unfold dcg_of, idcg_of in E. fold m in E.
    destruct (Nat.lt_ge_cases i (n_hits l gt)) as [Hlt|Hge].
    + pose proof (dcg_lt_hits l gt (length l) (le_n _)) as HS. rewrite firstn_all in HS.
      specialize (HS (ex_intro _ i (conj Hlt Er))).
      assert (sum_upto (n_hits l gt) disc <= sum_upto m disc)%Q.
      { apply sum_upto_mono; [unfold m; lia|intros; apply Qlt_le_weak, disc_pos]. }
      lra.
    + pose proof (Hinc (n_hits l gt) m ltac:(lia)). lra.
  - intros HP. apply Qle_antisym; [now apply dcg_le_idcg|].
    unfold idcg_of, dcg_of. fold m.
    eapply Qle_trans; [|apply (sum_upto_mono m (length l)); [unfold m; lia|]].
    + apply sum_upto_le. intros i Hi. specialize (HP i Hi). apply relevant_true in HP. rewrite HP. apply Qle_refl.
    + intros i. destruct (relevant _ _); [apply Qlt_le_weak, disc_pos|apply Qle_refl].
Qed.
End Strict.

(** Everything relevant first: recall and average precision are one. *)
Lemma perfect_hits l gt k : k <= length l -> (forall i, i < k -> In (nth i l 0) gt) -> n_hits (firstn k l) gt = k.
Proof.
  induction k as [|k IH]; intros Hk H; [reflexivity|]. rewrite n_hits_firstn_S by lia. rewrite IH by (try lia; auto).
  pose proof (H k ltac:(lia)) as E. apply relevant_true in E. rewrite E. lia.
Qed.
Lemma recall_ap_one l gt rwc : NoDup l -> gt <> [] -> length gt <= length l ->
  (forall i, i < length gt -> In (nth i l 0) gt) ->
  (recall_of rwc l gt == 1 /\ ap_of l gt == 1 /\ hit_of l gt == 1)%Q.
Proof.
  intros HN Hg HL HP. assert (Lg : 0 < length gt) by (destruct gt; [congruence|cbn; lia]).
  pose proof (qn_pos _ Lg) as Hp.
  assert (Hn : n_hits l gt = length gt).
  { pose proof (n_hits_le_gt l gt HN) as H1. pose proof (n_hits_app (firstn (length gt) l) (skipn (length gt) l) gt) as H2.
    rewrite firstn_skipn, perfect_hits in H2 by auto. lia. }
  split; [|split].
  - unfold recall_of. destruct (Nat.eqb_spec (length l) 0); [lia|]. rewrite Hn.
    replace (if rwc then min (length gt) (length l) else length gt) with (length gt) by (destruct rwc; lia).
    now apply qdiv_eq1.
  - pose proof (ap_range l gt HN) as [_ H1]. apply Qle_antisym; auto.
    unfold ap_of. apply Qle_shift_div_l; auto. rewrite Qmult_1_l.
    eapply Qle_trans; [|apply (sum_upto_mono (length gt) (length l)); [lia|]].
    + rewrite <- (Qmult_1_r (inject_Z _)), <- sum_upto_const. apply sum_upto_le. intros i Hi.
      pose proof (HP i Hi) as E. apply relevant_true in E. rewrite E.
      rewrite perfect_hits by (try lia; intros; apply HP; lia).
      apply Qle_lteq. right. symmetry. apply qdiv_eq1; [apply qn_pos; lia|reflexivity].
    + intros i. destruct (relevant _ _); [|apply Qle_refl]. apply qdiv_nonneg; apply qn_nonneg.
  - unfold hit_of. rewrite Hn. destruct (Nat.eqb_spec (length gt) 0); [lia|reflexivity].
Qed.

(** ** Longer lists *)
Lemma n_hits_prefix a b gt : n_hits a gt <= n_hits (a ++ b) gt.
Proof. rewrite n_hits_app. lia. Qed.
Lemma hit_prefix a b gt : (hit_of a gt <= hit_of (a ++ b) gt)%Q.
Proof.
  unfold hit_of. pose proof (n_hits_prefix a b gt). destruct (Nat.eqb_spec (n_hits a gt) 0), (Nat.eqb_spec (n_hits (a ++ b) gt) 0); try lra; lia.
Qed.
Lemma recall_prefix a b gt : (recall_of false a gt <= recall_of false (a ++ b) gt)%Q.
Proof.
  unfold recall_of. rewrite app_length. destruct (Nat.eqb_spec (length a) 0), (Nat.eqb_spec (length a + length b) 0); try lra; try lia.
  - apply qdiv_nonneg; apply qn_nonneg.
  - unfold Qdiv. apply Qmult_le_compat_r; [apply qn_le, n_hits_prefix|]. apply Qinv_le_0_compat, qn_nonneg.
Qed.
Lemma ap_prefix a b gt : (ap_of a gt <= ap_of (a ++ b) gt)%Q.
Proof.
  unfold ap_of, Qdiv. apply Qmult_le_compat_r; [|apply Qinv_le_0_compat, qn_nonneg].
  rewrite app_length. eapply Qle_trans; [|apply (sum_upto_mono (length a)); [lia|]].
  - apply sum_upto_le. intros i Hi. rewrite app_nth1 by auto. destruct (relevant _ _); [|apply Qle_refl].
    rewrite firstn_app. replace (S i - length a) with 0 by lia. cbn [firstn]. rewrite app_nil_r. apply Qle_refl.
  - intros i. destruct (relevant _ _); [|apply Qle_refl]. apply qdiv_nonneg; apply qn_nonneg.
Qed.
Lemma top_list_prefix sc elig c1 c2 : c1 <= c2 -> exists r, top_list sc elig c2 = top_list sc elig c1 ++ r.
Proof.
  intros H. unfold top_list. set (s := sort_by _ _). exists (skipn (min c1 (length elig)) (firstn (min c2 (length elig)) s)).
  rewrite <- (firstn_skipn (min c1 (length elig)) (firstn (min c2 (length elig)) s)) at 1.
  f_equal. rewrite firstn_firstn. f_equal. lia.
Qed.

(** ** Totals and averages *)
Lemma total_cons {X} (f : X -> Q) x l : (total f (x :: l) == f x + total f l)%Q.
Proof. reflexivity. Qed.
Lemma total_le {X} (f g : X -> Q) l : (forall x, In x l -> (f x <= g x)%Q) -> (total f l <= total g l)%Q.
Proof.
  induction l as [|x l IH]; intros H; [apply Qle_refl|]. rewrite !total_cons.
  pose proof (H x (or_introl eq_refl)). specialize (IH (fun y Hy => H y (or_intror Hy))). lra.
Qed.
Lemma total_const {X} c (l : list X) : (total (fun _ => c) l == inject_Z (Z.of_nat (length l)) * c)%Q.
Proof. induction l as [|x l IH]; [cbn; ring|]. rewrite total_cons, IH. cbn [length]. rewrite qn_S. ring. Qed.
Lemma total_ext {X} (f g : X -> Q) l : (forall x, In x l -> (f x == g x)%Q) -> (total f l == total g l)%Q.
Proof. intros H. apply Qle_antisym; apply total_le; intros x Hx; rewrite (H x Hx); apply Qle_refl. Qed.
Lemma total_perm {X} (f : X -> Q) l l' : Permutation l l' -> (total f l == total f l')%Q.
Proof. induction 1; rewrite ?total_cons; try reflexivity; [rewrite IHPermutation; reflexivity|ring|now rewrite IHPermutation1]. Qed.
Lemma total_map {X Y} (f : Y -> Q) (g : X -> Y) l : total f (map g l) = total (fun x => f (g x)) l.
Proof. unfold total. now rewrite map_map. Qed.
Lemma total_full {X} (f : X -> Q) l : (forall x, In x l -> (f x <= 1)%Q) ->
  (total f l == inject_Z (Z.of_nat (length l)) -> forall x, In x l -> f x == 1)%Q.
Proof.
  induction l as [|y l IH]; intros H E x Hx; [destruct Hx|].
  rewrite total_cons in E. cbn [length] in E. rewrite qn_S in E.
  assert (Hl : (total f l <= inject_Z (Z.of_nat (length l)))%Q).
  { rewrite <- (Qmult_1_r (inject_Z _)), <- total_const. apply total_le. intros; apply H; now right. }
  pose proof (H y (or_introl eq_refl)) as Hy. destruct Hx as [->|Hx]; [lra|].
  apply IH; auto; [|lra]. intros; apply H; now right.
Qed.

Lemma max1_pos n : (0 < inject_Z (Z.of_nat (max 1 n)))%Q.
Proof. apply qn_pos. lia. Qed.
Lemma average_range f us tops :
  (forall u l, In (u, l) (combine (valid_users us) tops) -> (0 <= f l (u_gt u) <= 1)%Q) ->
  (0 <= average f us tops <= 1)%Q.
Proof.
  intros H. unfold average. set (c := combine _ _) in *. split.
  - apply qdiv_nonneg; [|apply Qlt_le_weak, max1_pos].
    eapply Qle_trans; [|apply total_le with (f := fun _ => 0%Q)].
    + rewrite total_const. lra.
    + intros [u l] Hx. apply H, Hx.
  - apply qdiv_le1; [apply max1_pos|].
    eapply Qle_trans; [apply total_le with (g := fun _ => 1%Q)|].
    + intros [u l] Hx. apply H, Hx.
    + rewrite total_const, Qmult_1_r. apply qn_le. unfold c. rewrite combine_length. lia.
Qed.
Lemma average_none f us tops : valid_users us = [] -> (average f us tops == 0)%Q.
Proof. intros E. unfold average. rewrite E. reflexivity. Qed.
Lemma average_le f us tops f' tops' :
  (total (fun ul => f (snd ul) (u_gt (fst ul))) (combine (valid_users us) tops) <=
  total (fun ul => f' (snd ul) (u_gt (fst ul))) (combine (valid_users us) tops'))%Q ->
  (average f us tops <= average f' us tops')%Q.
Proof. intros H. unfold average, Qdiv. apply Qmult_le_compat_r; auto. apply Qinv_le_0_compat, Qlt_le_weak, max1_pos. Qed.
