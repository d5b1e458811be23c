(** Consequences of the meaning of an evaluation report. *)
From Coq Require Import QArith Lqa.
From Verif Require Import Base Eval_Spec EvalPy_Spec Eval_Proofs Eval_Core_Proofs Eval_Main_Proofs Eval_Facts_Proofs EvalPy_Proofs.
Local Open Scope nat_scope.

Lemma forall2_combine {X Y} (R : X -> Y -> Prop) l l' x y : Forall2 R l l' -> In (x, y) (combine l l') -> R x y /\ In x l /\ In y l'.
Proof.
  induction 1 as [|a b l l' H HF IH]; cbn; [tauto|]. intros [[= <- <-]|Hin]; auto.
  destruct (IH Hin) as (H1 & H2 & H3). auto.
Qed.
Lemma forall2_length {X Y} (R : X -> Y -> Prop) l l' : Forall2 R l l' -> length l = length l'.
Proof. induction 1; cbn; congruence. Qed.

(** Users whose lists are duplicate-free and inside the catalogue. *)
Record user_ok (n : nat) (u : user) : Prop := {
  uo_gt : NoDup (u_gt u);
  uo_elig : NoDup (u_elig u);
  uo_bound : Forall (fun i => i < n) (u_elig u) }.
Lemma masked_users_ok n rows recs mask scores : Forall (user_ok n) (masked_users n rows recs mask scores).
Proof.
  apply Forall_forall. intros u Hu. unfold masked_users in Hu. apply in_map_iff in Hu as (k & <- & _).
  constructor; cbn; try (apply NoDup_filter, seq_NoDup). apply Forall_forall. intros i Hi.
  apply filter_In in Hi as [Hi _]. apply in_seq in Hi. lia.
Qed.
Lemma users_ok_elig n us : Forall (user_ok n) us -> Forall (fun u => NoDup (u_elig u)) us.
Proof. apply Forall_impl. intros u []; auto. Qed.
Lemma valid_in us u : In u (valid_users us) <-> In u us /\ u_gt u <> [].
Proof.
  unfold valid_users. rewrite filter_In. unfold has_gt. split; intros [H1 H2]; split; auto.
  - intros E. rewrite E in H2. discriminate.
  - destruct (u_gt u); [congruence|reflexivity].
Qed.

(** ** C05 *)
Lemma report_range disc rwc n us cutoff tops r :
  (forall i, 0 < disc i)%Q -> (forall i, disc (S i) <= disc i)%Q ->
  tops_of cutoff us tops -> report_means disc rwc n us tops r ->
  in01 (r_hit r) /\ in01 (r_recall r) /\ in01 (r_ndcg r) /\ in01 (r_map r) /\ in01 (r_precision r).
Proof.
  intros Hp Hd Ht [_ _ _ Hh Hr Hn Hm Hpr _ _ _].
  assert (HN : forall u l, In (u, l) (combine (valid_users us) tops) -> NoDup l).
  { intros u l Hin. destruct (forall2_combine _ _ _ _ _ Ht Hin) as (H & _). eapply is_top_nodup; eauto. }
  unfold in01. rewrite Hh, Hr, Hn, Hm, Hpr.
  repeat split; apply average_range; intros u l Hin; specialize (HN u l Hin).
  all: first [apply hit_range|apply precision_range|now apply recall_range|now apply ap_range|now apply ndcg_range].
Qed.
Lemma report_none disc rwc n us tops r : valid_users us = [] -> report_means disc rwc n us tops r ->
  (r_hit r == 0 /\ r_recall r == 0 /\ r_ndcg r == 0 /\ r_map r == 0 /\ r_precision r == 0)%Q.
Proof.
  intros E [_ _ _ Hh Hr Hn Hm Hpr _ _ _]. rewrite Hh, Hr, Hn, Hm, Hpr. repeat split; now apply average_none.
Qed.

(** ** C06 *)
Lemma average_one_iff f us tops :
  length tops = length (valid_users us) -> valid_users us <> [] ->
  (forall u l, In (u, l) (combine (valid_users us) tops) -> (f l (u_gt u) <= 1)%Q) ->
  ((average f us tops == 1)%Q <-> forall u l, In (u, l) (combine (valid_users us) tops) -> (f l (u_gt u) == 1)%Q).
Proof.
  intros HL Hne H. unfold average.
  assert (El : max 1 (length (valid_users us)) = length (combine (valid_users us) tops)).
  { rewrite combine_length, HL. destruct (valid_users us); [congruence|cbn; lia]. }
  rewrite El. set (c := combine _ _) in *.
  assert (Hpos : (0 < inject_Z (Z.of_nat (length c)))%Q) by (apply qn_pos; lia).
  rewrite qdiv_eq1 by auto. split.
  - intros E u l Hin. apply (total_full (fun ul => f (snd ul) (u_gt (fst ul))) c) with (x := (u, l)); auto.
    intros [u' l'] Hin'. apply H, Hin'.
  - intros E. rewrite <- (Qmult_1_r (inject_Z _)), <- total_const. apply total_ext. intros [u l] Hin. apply E, Hin.
Qed.

Lemma report_ndcg_one disc rwc n us cutoff tops r :
  (forall i, 0 < disc i)%Q -> (forall i, disc (S i) < disc i)%Q ->
  valid_users us <> [] ->
  tops_of cutoff us tops -> report_means disc rwc n us tops r ->
  ((r_ndcg r == 1)%Q <->
   forall u l, In (u, l) (combine (valid_users us) tops) -> l <> [] /\ perfect l (u_gt u)).
Proof.
  intros Hp Hd Hne Ht [_ _ _ _ _ Hn _ _ _ _ _]. rewrite Hn.
  rewrite average_one_iff; auto.
  - split; intros H u l Hin.
    + specialize (H u l Hin). destruct (forall2_combine _ _ _ _ _ Ht Hin) as (Htop & Hu & _).
      apply valid_in in Hu as [_ Hg].
      assert (Hl : l <> []) by (intros ->; cbn in H; lra). split; auto.
      apply (ndcg_one_iff disc); auto. eapply is_top_nodup; eauto.
    + destruct (H u l Hin) as [Hl HP]. destruct (forall2_combine _ _ _ _ _ Ht Hin) as (Htop & Hu & _).
      apply valid_in in Hu as [_ Hg]. apply ndcg_one_iff; auto. eapply is_top_nodup; eauto.
  - symmetry. now apply (forall2_length _ _ _ Ht).
  - intros u l Hin. destruct (forall2_combine _ _ _ _ _ Ht Hin) as (Htop & _).
    apply ndcg_range; auto; [intros; apply Qlt_le_weak, Hd|]. eapply is_top_nodup; eauto.
Qed.

(** ** C07 *)
Lemma total_tops_le (f : list nat -> list nat -> Q) us c1 c2 :
  (forall a b gt, (f a gt <= f (a ++ b) gt)%Q) -> c1 <= c2 ->
  (total (fun ul => f (snd ul) (u_gt (fst ul))) (combine (valid_users us) (map (u_top c1) (valid_users us))) <=
   total (fun ul => f (snd ul) (u_gt (fst ul))) (combine (valid_users us) (map (u_top c2) (valid_users us))))%Q.
Proof.
  intros Hf Hc. rewrite !total_combine. apply total_le. intros u _. cbn [fst snd]. unfold u_top.
  destruct (top_list_prefix (u_score u) (u_elig u) c1 c2 Hc) as (r & ->). apply Hf.
Qed.
Lemma times_mono us c1 c2 i : c1 <= c2 ->
  times_recommended (map (u_top c1) us) i <= times_recommended (map (u_top c2) us) i.
Proof.
  intros Hc. unfold times_recommended. induction us as [|u us IH]; cbn [map filter]; [lia|].
  destruct (relevant (u_top c1 u) i) eqn:E1.
  - assert (E2 : relevant (u_top c2 u) i = true).
    { apply relevant_true. apply relevant_true in E1. unfold u_top in *.
      destruct (top_list_prefix (u_score u) (u_elig u) c1 c2 Hc) as (r & ->). apply in_or_app; auto. }
    rewrite E2. cbn. lia.
  - destruct (relevant (u_top c2 u) i); cbn; lia.
Qed.
Lemma filter_length_mono {X} (p q : X -> bool) l : (forall x, In x l -> p x = true -> q x = true) ->
  length (filter p l) <= length (filter q l).
Proof.
  induction l as [|a l IH]; intros H; cbn; auto. specialize (IH (fun x Hx => H x (or_intror Hx))).
  pose proof (H a (or_introl eq_refl)). destruct (p a), (q a); cbn; try lia; intuition congruence.
Qed.

Lemma report_cutoffs disc n us c1 c2 t1 t2 r1 r2 :
  Forall (user_ok n) us -> c1 <= c2 ->
  tops_of c1 us t1 -> report_means disc false n us t1 r1 ->
  tops_of c2 us t2 -> report_means disc false n us t2 r2 ->
  Forall2 (fun l1 l2 => exists rest, l2 = l1 ++ rest) t1 t2 /\
  (r_hit r1 <= r_hit r2)%Q /\ (r_recall r1 <= r_recall r2)%Q /\ (r_map r1 <= r_map r2)%Q /\
  r_appeared_item r1 <= r_appeared_item r2 /\
  (forall i, times_recommended t1 i <= times_recommended t2 i).
Proof.
  intros HU Hc T1 R1 T2 R2. apply users_ok_elig in HU.
  rewrite (tops_of_unique _ _ _ HU T1) in *. rewrite (tops_of_unique _ _ _ HU T2) in *.
  destruct R1 as [_ _ _ h1 e1 _ m1 _ a1 _ _], R2 as [_ _ _ h2 e2 _ m2 _ a2 _ _].
  rewrite h1, e1, m1, h2, e2, m2, a1, a2. repeat split.
  - clear -Hc. induction (valid_users us) as [|u l IH]; cbn; constructor; auto. unfold u_top. now apply top_list_prefix.
  - apply average_le, total_tops_le; auto. apply hit_prefix.
  - apply average_le, total_tops_le; auto. apply recall_prefix.
  - apply average_le, total_tops_le; auto. apply ap_prefix.
  - apply filter_length_mono. intros i _ Hi. pose proof (times_mono (valid_users us) c1 c2 i Hc).
    destruct (Nat.eqb_spec (times_recommended (map (u_top c1) (valid_users us)) i) 0); [discriminate|].
    destruct (Nat.eqb_spec (times_recommended (map (u_top c2) (valid_users us)) i) 0); [lia|reflexivity].
  - intros i. now apply times_mono.
Qed.

(** ** C08 *)
Lemma nat_sum_map_add (f g : nat -> nat) l : nat_sum (map (fun i => f i + g i) l) = nat_sum (map f l) + nat_sum (map g l).
Proof. unfold nat_sum. induction l as [|a l IH]; cbn; lia. Qed.
Lemma times_cons l ls i : times_recommended (l :: ls) i = (if relevant l i then 1 else 0) + times_recommended ls i.
Proof. unfold times_recommended. cbn. destruct (relevant l i); reflexivity. Qed.
Lemma indicator_sum l n : NoDup l -> Forall (fun i => i < n) l ->
  nat_sum (map (fun i => if relevant l i then 1 else 0) (seq 0 n)) = length l.
Proof.
  intros HN HF.
  assert (E : forall s, nat_sum (map (fun i => if relevant l i then 1 else 0) s) = length (filter (relevant l) s)).
  { induction s as [|a s IH]; cbn; auto. destruct (relevant l a); cbn; auto. }
  rewrite E. apply Permutation_length, NoDup_Permutation; auto; [apply NoDup_filter, seq_NoDup|].
  intros x. rewrite filter_In, in_seq, relevant_true. rewrite Forall_forall in HF. split; [tauto|]. intros Hx. specialize (HF _ Hx). split; auto. lia.
Qed.
Lemma times_sum ls n : Forall (fun l => NoDup l /\ Forall (fun i => i < n) l) ls ->
  nat_sum (map (times_recommended ls) (seq 0 n)) = nat_sum (map (@length nat) ls).
Proof.
  induction 1 as [|l ls [H1 H2] HF IH].
  - cbn [map]. assert (E : forall s, nat_sum (map (times_recommended []) s) = 0) by (induction s; cbn; auto). apply E.
  - cbn [map]. transitivity (nat_sum (map (fun i => (if relevant l i then 1 else 0) + times_recommended ls i) (seq 0 n))).
    { f_equal. apply map_ext. apply times_cons. }
    rewrite nat_sum_map_add, indicator_sum, IH; auto.
Qed.
Lemma tops_wf n cutoff us tops : Forall (user_ok n) us -> tops_of cutoff us tops ->
  Forall (fun l => NoDup l /\ Forall (fun i => i < n) l) tops.
Proof.
  intros HU HT. apply Forall_forall. intros l Hl. unfold tops_of in HT.
  assert (HUv : Forall (user_ok n) (valid_users us)).
  { apply Forall_forall. intros u Hu. apply filter_In in Hu as [Hu _]. rewrite Forall_forall in HU; auto. }
  clear HU. induction HT as [|u l' us' ls' Htop HT IH]; [destruct Hl|]. inversion HUv as [|? ? [_ _ Hb] HUv']; subst.
  destruct Hl as [->|Hl]; [|auto]. split; [eapply is_top_nodup; eauto|].
  apply Forall_forall. intros i Hi. apply (top_incl _ _ _ _ Htop) in Hi. rewrite Forall_forall in Hb; auto.
Qed.
Lemma tops_total cutoff us tops : tops_of cutoff us tops -> nat_sum (map (@length nat) tops) <= cutoff * length (valid_users us).
Proof.
  unfold tops_of. intros H. unfold nat_sum. induction H as [|u l us' ls' Htop HT IH]; cbn; [lia|].
  pose proof (top_length _ _ _ _ Htop). lia.
Qed.

Lemma absum_bound a l : (absum a l <= Z.of_nat (length l) * Z.of_nat a + zsum l)%Z.
Proof.
  induction l as [|b l IH]; [cbn; lia|].
  change (absum a (b :: l)) with (Z.abs (Z.of_nat a - Z.of_nat b) + absum a l)%Z.
  change (zsum (b :: l)) with (Z.of_nat b + zsum l)%Z. cbn [length]. lia.
Qed.
Lemma zsum_nonneg l : (0 <= zsum l)%Z.
Proof. induction l as [|b l IH]; [cbn; lia|]. change (zsum (b :: l)) with (Z.of_nat b + zsum l)%Z. lia. Qed.
Lemma zsum_nat l : zsum l = Z.of_nat (nat_sum l).
Proof. induction l as [|b l IH]; [reflexivity|]. change (zsum (b :: l)) with (Z.of_nat b + zsum l)%Z. change (nat_sum (b :: l)) with (b + nat_sum l). lia. Qed.
Lemma absum_nonneg a l : (0 <= absum a l)%Z.
Proof. unfold absum. induction l as [|b l IH]; cbn; lia. Qed.
Lemma diffsum_self a l : diffsum (a :: l) (a :: l) = (2 * absum a l + diffsum l l)%Z.
Proof.
  change (diffsum (a :: l) (a :: l)) with (Z.abs (Z.of_nat a - Z.of_nat a) + absum a l + diffsum l (a :: l))%Z.
  rewrite diffsum_cons. lia.
Qed.
Lemma diffsum_bound l : (diffsum l l + 2 * zsum l <= 2 * Z.of_nat (length l) * zsum l)%Z.
Proof.
  induction l as [|a l IH]; [cbn; lia|]. rewrite diffsum_self.
  change (zsum (a :: l)) with (Z.of_nat a + zsum l)%Z. cbn [length]. pose proof (absum_bound a l). pose proof (zsum_nonneg l). nia.
Qed.
Lemma diffsum_nonneg l : (0 <= diffsum l l)%Z.
Proof. induction l as [|a l IH]; [cbn; lia|]. rewrite diffsum_self. pose proof (absum_nonneg a l). lia. Qed.
Lemma absum_zero a l : absum a l = 0%Z <-> Forall (eq a) l.
Proof.
  induction l as [|b l IH]; [split; [constructor|reflexivity]|].
  change (absum a (b :: l)) with (Z.abs (Z.of_nat a - Z.of_nat b) + absum a l)%Z. pose proof (absum_nonneg a l).
  split.
  - intros E. constructor; [lia|]. apply IH. lia.
  - intros E. inversion E as [|? ? E1 E2]; subst. apply IH in E2. lia.
Qed.
Lemma diffsum_zero l : diffsum l l = 0%Z <-> (forall a b, In a l -> In b l -> a = b).
Proof.
  induction l as [|a l IH]; [split; [intros _ a b []|reflexivity]|]. rewrite diffsum_self.
  pose proof (absum_nonneg a l). pose proof (diffsum_nonneg l). split.
  - intros E. assert (E1 : absum a l = 0%Z) by lia. assert (E2 : diffsum l l = 0%Z) by lia.
    apply absum_zero in E1. rewrite Forall_forall in E1.
    intros x y [<-|Hx] [<-|Hy]; auto; [symmetry; auto|]. rewrite <- (E1 _ Hx). auto.
  - intros E. assert (E1 : absum a l = 0%Z).
    { apply absum_zero, Forall_forall. intros x Hx. apply E; [now left|now right]. }
    assert (E2 : diffsum l l = 0%Z) by (apply IH; intros; apply E; now right). lia.
Qed.
Lemma gini_unfold cnt : nat_sum cnt <> 0 ->
  (gini_of cnt == inject_Z (diffsum cnt cnt) / (2 * inject_Z (Z.of_nat (length cnt)) * inject_Z (Z.of_nat (nat_sum cnt))))%Q.
Proof.
  intros H. unfold gini_of. fold (nat_sum cnt). destruct (Nat.eqb_spec (nat_sum cnt) 0); [lia|]. reflexivity.
Qed.
Lemma gini_range cnt : (0 <= gini_of cnt < 1)%Q.
Proof.
  destruct (Nat.eq_dec (nat_sum cnt) 0) as [E|E].
  - unfold gini_of. fold (nat_sum cnt). rewrite E. cbn. lra.
  - rewrite gini_unfold by auto.
    assert (Hl : 0 < length cnt) by (destruct cnt; cbn in *; lia).
    assert (Hp : (0 < 2 * inject_Z (Z.of_nat (length cnt)) * inject_Z (Z.of_nat (nat_sum cnt)))%Q).
    { pose proof (qn_pos _ Hl). pose proof (qn_pos (nat_sum cnt) ltac:(lia)). nra. }
    split.
    + apply qdiv_nonneg; [|lra]. change 0%Q with (inject_Z 0). rewrite <- Zle_Qle. apply diffsum_nonneg.
    + apply Qlt_shift_div_r; auto. rewrite Qmult_1_l. change 2%Q with (inject_Z 2). rewrite <- !inject_Z_mult, <- Zlt_Qlt.
      pose proof (diffsum_bound cnt). rewrite zsum_nat in *. lia.
Qed.
Lemma gini_zero_iff cnt : ((gini_of cnt == 0)%Q <-> (forall a b, In a cnt -> In b cnt -> a = b)).
Proof.
  destruct (Nat.eq_dec (nat_sum cnt) 0) as [E|E].
  - split; intros _.
    + assert (H : forall a, In a cnt -> a = 0).
      { unfold nat_sum in E. clear -E. induction cnt as [|x cnt IH]; intros a Ha; [destruct Ha|]. cbn in E. destruct Ha as [<-|Ha]; [lia|]. apply IH; auto; lia. }
      intros a b Ha Hb. rewrite (H a Ha), (H b Hb). reflexivity.
    + unfold gini_of. fold (nat_sum cnt). rewrite E. reflexivity.
  - rewrite gini_unfold, <- diffsum_zero by auto.
    assert (Hl : 0 < length cnt) by (destruct cnt; cbn in *; lia).
    assert (Hp : (0 < 2 * inject_Z (Z.of_nat (length cnt)) * inject_Z (Z.of_nat (nat_sum cnt)))%Q).
    { pose proof (qn_pos _ Hl). pose proof (qn_pos (nat_sum cnt) ltac:(lia)). nra. }
    set (d := (2 * _ * _)%Q) in *. split; intros H.
    + assert (E' : (inject_Z (diffsum cnt cnt) == (inject_Z (diffsum cnt cnt) / d) * d)%Q) by (field; lra).
      rewrite H, Qmult_0_l in E'. change 0%Q with (inject_Z 0) in E'. rewrite inject_Z_injective in E'. exact E'.
    + rewrite H. unfold Qdiv. ring.
Qed.

Lemma existsb_nth_in {X} (p : X -> bool) (l : list X) k d : p d = false -> p (nth k l d) = true -> existsb p l = true.
Proof.
  intros Hd H. apply existsb_exists. destruct (nth_in_or_default k l d) as [Hi|E]; [eauto|]. rewrite E in H. congruence.
Qed.
Lemma masked_elig_catalog n rows recs mask scores u i :
  In u (masked_users n rows recs mask scores) -> In i (u_elig u) ->
  recs = [] \/ existsb (fun r => relevant r i) recs = true.
Proof.
  unfold masked_users. intros Hu Hi. apply in_map_iff in Hu as (k & <- & _). cbn in Hi. apply filter_In in Hi as [_ Hi].
  apply andb_true_iff in Hi as [Hi _]. apply andb_true_iff in Hi as [Hi _].
  destruct recs as [|r [|r' recs]]; [now left|right|right].
  - cbn in *. now rewrite Hi.
  - unfold allowed in Hi. eapply (existsb_nth_in (fun r => relevant r i)); [|exact Hi]. reflexivity.
Qed.
Lemma report_coverage disc rwc n rows recs mask scores cutoff r :
  evaluation_means disc rwc n recs (masked_users n rows recs mask scores) cutoff r ->
  r_appeared_item (fst r) <= catalog_size n recs /\
  match snd r with None => True | Some q => in01 q end.
Proof.
  intros [(tops & Ht & Hr) Hc].
  pose proof (masked_users_ok n rows recs mask scores) as HU.
  assert (Ha : r_appeared_item (fst r) <= catalog_size n recs).
  { rewrite (rm_appeared _ _ _ _ _ _ Hr). unfold catalog_size. destruct recs as [|r0 recs].
    - eapply Nat.le_trans; [apply filter_length_le'|]. now rewrite seq_length.
    - apply filter_length_mono. intros i _ Hi.
      destruct (Nat.eqb_spec (times_recommended tops i) 0) as [E|E]; [discriminate|].
      unfold times_recommended in E. destruct (filter (fun l => relevant l i) tops) as [|l ls] eqn:Ef; [cbn in E; lia|].
      assert (Hl : In l (filter (fun l => relevant l i) tops)) by (rewrite Ef; now left).
      apply filter_In in Hl as [Hl Hi']. apply relevant_true in Hi'.
      assert (Hex : exists u, In u (valid_users (masked_users n rows (r0 :: recs) mask scores)) /\ is_top (u_score u) (u_elig u) cutoff l).
      { clear -Ht Hl. unfold tops_of in Ht. induction Ht as [|u l' us' ls' H HT IH]; [destruct Hl|].
        destruct Hl as [->|Hl]; [exists u; split; auto; now left|]. destruct (IH Hl) as (u' & H1 & H2). exists u'; split; auto. now right. }
      destruct Hex as (u & Hu & Htop). apply filter_In in Hu as [Hu _]. apply (top_incl _ _ _ _ Htop) in Hi'.
      destruct (masked_elig_catalog _ _ _ _ _ _ _ Hu Hi') as [H|H]; [discriminate|auto]. }
  split; auto. destruct (snd r) as [q|]; auto. destruct Hc as [Hne Hq]. unfold in01. rewrite Hq. split.
  - apply qdiv_nonneg; apply qn_nonneg.
  - apply qdiv_le1; [apply qn_pos; lia|]. now apply qn_le.
Qed.

(** ** Transfer between user lists *)
(** Same ground truth, same eligible items, same order of the eligible items. *)
Definition same_ranking (u u' : user) : Prop :=
  u_gt u = u_gt u' /\ u_elig u = u_elig u' /\
  forall i j, In i (u_elig u) -> In j (u_elig u) -> (better (u_score u) i j <-> better (u_score u') i j).

Lemma is_top_transfer sc sc' elig k l :
  (forall i j, In i elig -> In j elig -> (better sc i j <-> better sc' i j)) ->
  is_top sc elig k l -> is_top sc' elig k l.
Proof.
  intros H [HS HI HL HB]. constructor; auto.
  - clear HL HB. induction HS as [|a l HS IH HF]; constructor.
    + apply IH. intros x Hx. apply HI. now right.
    + rewrite Forall_forall in *. intros b Hb. apply H; auto; apply HI; [now left|now right].
  - intros i j Hi Hj Hn. apply H; auto.
Qed.
Lemma same_ranking_valid us us' : Forall2 same_ranking us us' -> Forall2 same_ranking (valid_users us) (valid_users us').
Proof.
  induction 1 as [|u u' us us' [E1 E2] HF IH]; cbn; [constructor|]. assert (E : has_gt u = has_gt u') by (unfold has_gt; now rewrite E1). rewrite <- E.
  destruct (has_gt u); auto. constructor; auto. split; auto.
Qed.
Lemma tops_transfer cutoff us us' tops : Forall2 same_ranking us us' -> tops_of cutoff us tops -> tops_of cutoff us' tops.
Proof.
  intros H HT. apply same_ranking_valid in H. unfold tops_of in *. revert tops HT.
  induction H as [|u u' us1 us2 Hu HF IH]; intros tops HT; inversion HT; subst; constructor; auto.
  destruct Hu as (E1 & E2 & E3). rewrite <- E2. eapply is_top_transfer; eauto.
Qed.
Lemma average_transfer f us us' tops : Forall2 same_ranking us us' -> (average f us tops == average f us' tops)%Q.
Proof.
  intros H. apply same_ranking_valid in H. unfold average. rewrite (forall2_length _ _ _ H).
  unfold Qdiv. apply Qmult_comp; [|reflexivity].
  revert tops. induction H as [|u u' us1 us2 [E _] HF IH]; intros [|l tops]; cbn [combine]; try reflexivity.
  rewrite !total_cons. cbn [fst snd]. rewrite E, (IH tops). reflexivity.
Qed.
Lemma report_transfer disc rwc n us us' tops r : Forall2 same_ranking us us' ->
  report_means disc rwc n us tops r -> report_means disc rwc n us' tops r.
Proof.
  intros H []. pose proof (same_ranking_valid _ _ H) as HV.
  constructor; auto; try (rewrite <- average_transfer; eassumption || eauto).
  - rewrite <- (forall2_length _ _ _ H). auto.
  - rewrite <- (forall2_length _ _ _ HV). auto.
Qed.
Lemma evaluation_transfer disc rwc n recs us us' c r : Forall2 same_ranking us us' ->
  evaluation_means disc rwc n recs us c r -> evaluation_means disc rwc n recs us' c r.
Proof.
  intros H [(t & T & R) C]. split; auto. exists t. split; [eapply tops_transfer; eauto|eapply report_transfer; eauto].
Qed.

(** ** Permutations and removal of users *)
Lemma tops_perm cutoff us us' tops : Permutation us us' -> tops_of cutoff us tops ->
  exists tops', tops_of cutoff us' tops' /\ Permutation (combine (valid_users us) tops) (combine (valid_users us') tops').
Proof.
  intros HP. assert (HP' : Permutation (valid_users us) (valid_users us')) by now apply filter_perm.
  unfold tops_of. generalize dependent tops. induction HP' as [|u l l' HP' IH|u v l|l1 l2 l3 P1 IH1 P2 IH2]; intros tops HT.
  - exists tops. split; auto.
  - inversion HT as [|? t ? ts H1 H2]; subst. destruct (IH _ H2) as (ts' & T' & P'). exists (t :: ts'). split; [constructor; auto|].
    cbn. now constructor.
  - inversion HT as [|? t ? ts H1 H2]; subst. inversion H2 as [|? t' ? ts' H1' H2']; subst. exists (t' :: t :: ts').
    split; [constructor; auto; constructor; auto|]. cbn. apply perm_swap.
  - destruct (IH1 _ HT) as (t2 & T2 & Q2). destruct (IH2 _ T2) as (t3 & T3 & Q3). exists t3. split; auto. etransitivity; eauto.
Qed.
Lemma combine_snd {X Y} (l : list X) (l' : list Y) : length l = length l' -> map snd (combine l l') = l'.
Proof. revert l'; induction l as [|a l IH]; intros [|b l'] H; cbn in *; try discriminate; auto. f_equal; auto. Qed.
Lemma times_perm ls ls' i : Permutation ls ls' -> times_recommended ls i = times_recommended ls' i.
Proof. intros H. unfold times_recommended. now apply filter_length_perm. Qed.

(** Reports for two user lists with the same valid users up to order. *)
Lemma report_same_valid disc rwc n us us' tops tops' r :
  Permutation (combine (valid_users us) tops) (combine (valid_users us') tops') ->
  length tops = length (valid_users us) -> length tops' = length (valid_users us') ->
  r_total_user r = length us' ->
  (exists r0, report_means disc rwc n us tops r0 /\
     r_valid_user r = r_valid_user r0 /\ r_n_items r = r_n_items r0 /\ (r_hit r == r_hit r0)%Q /\ (r_recall r == r_recall r0)%Q /\
     (r_ndcg r == r_ndcg r0)%Q /\ (r_map r == r_map r0)%Q /\ (r_precision r == r_precision r0)%Q /\
     r_appeared_item r = r_appeared_item r0 /\ (r_gini_index r == r_gini_index r0)%Q /\ r_probs r = r_probs r0) ->
  report_means disc rwc n us' tops' r.
Proof.
  intros HP L L' HT (r0 & [R1 R2 R3 R4 R5 R6 R7 R8 R9 R10 R11] & E2 & E3 & E4 & E5 & E6 & E7 & E8 & E9 & E10 & E11).
  assert (HV : length (valid_users us) = length (valid_users us')).
  { pose proof (Permutation_length HP) as E. rewrite !combine_length in E. lia. }
  assert (HA : forall f, (average f us tops == average f us' tops')%Q).
  { intros f. unfold average. rewrite HV, (total_perm _ _ _ HP). reflexivity. }
  assert (HPs : Permutation tops tops').
  { rewrite <- (combine_snd (valid_users us) tops), <- (combine_snd (valid_users us') tops') by auto. now apply Permutation_map. }
  assert (HTimes : map (times_recommended tops) (seq 0 n) = map (times_recommended tops') (seq 0 n)).
  { apply map_ext. intros i. now apply times_perm. }
  constructor; auto.
  - congruence.
  - congruence.
  - now rewrite E4, R4.
  - now rewrite E5, R5.
  - now rewrite E6, R6.
  - now rewrite E7, R7.
  - now rewrite E8, R8.
  - rewrite E9, R9. f_equal. apply filter_ext. intros i. now rewrite (times_perm _ _ i HPs).
  - now rewrite E10, R10, HTimes.
  - now rewrite E11, <- HTimes.
Qed.

Lemma evaluation_perm disc rwc n recs recs' us us' c r :
  Permutation us us' -> catalog_size n recs = catalog_size n recs' ->
  evaluation_means disc rwc n recs us c r -> evaluation_means disc rwc n recs' us' c r.
Proof.
  intros HP HC [(t & T & R) C]. split; [|rewrite <- HC; auto].
  destruct (tops_perm c us us' t HP T) as (t' & T' & P'). exists t'. split; auto.
  eapply report_same_valid; eauto.
  - symmetry. apply (forall2_length _ _ _ T).
  - symmetry. apply (forall2_length _ _ _ T').
  - rewrite (rm_total _ _ _ _ _ _ R). now apply Permutation_length.
  - exists (fst r). split; [auto|]; repeat split; reflexivity.
Qed.
