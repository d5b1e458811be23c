(** From the sums to the dictionary; all entry points. *)
From Coq Require Import Setoid Morphisms Qabs Lqa.
From Verif Require Import Base Sched_Model Sched_Proofs Eval_Model Eval_Spec Sort_Proofs Eval_Proofs Eval_Core_Proofs Eval_Facts_Proofs Eval_Main_Proofs Eval_Derived_Proofs EvalPy_Proofs EvalApi_Proofs EvalMore_Proofs EvalProps_Proofs EvalRnd_Spec EvalRnd_Proofs EvalRndSim_Proofs.
Local Open Scope nat_scope.

Section Top.
Variable B : positive.
Variable rnd : Q -> Q.
Hypothesis FP : fp_rounding B rnd.
Local Notation u := (1 # B).
Local Existing Instance rnd_proper.
Instance rnd_proper_top : Proper (Qeq ==> Qeq) rnd := rnd_proper B rnd FP.

Definition unit_q (a : Q) : Prop := (0 <= a <= 1)%Q.
(** One average: computed and exact value. *)
Record avg (k : nat) (a a' : Q) : Prop := {
  av_near : near B k a a';
  av_unit : unit_q a;
  av_unit' : unit_q a';
  av_ends : same_ends a a' }.
Lemma avg_of_acc k v a a' : (Z.of_nat v <= Zpos B)%Z -> acc B k v a a' ->
  let d := if 0 <? v then v else 1 in avg (S k) (a / q_of_nat d) (rnd (a' / fl rnd d)).
Proof.
  intros HB Ha d. assert (v <= d /\ 0 < d /\ (Z.of_nat d <= Zpos B)%Z /\ (v = d \/ v = 0)) as (D1 & D2 & D3 & D4).
  { unfold d. destruct (Nat.ltb_spec 0 v); lia. }
  clearbody d. pose proof (acc_0' _ _ _ _ _ Ha) as A0. destruct Ha as [A1 A2 A3 A4 A5 A6].
  pose proof (fl_exact B rnd FP d D3) as Ed. pose proof (q_pos d D2) as P. pose proof (q_le v d D1) as L.
  assert (0 < fl rnd d)%Q as P' by lra.
  assert (0 <= a / q_of_nat d)%Q as X0 by (apply div_nonneg; assumption).
  assert (0 <= a' / fl rnd d)%Q as X0' by (apply div_nonneg; assumption).
  assert (a / q_of_nat d <= 1)%Q as X1 by (apply div_le; lra).
  assert (a' / fl rnd d <= 1)%Q as X1' by (apply div_le; lra).
  assert (lev (1 # B * B * B) (a' / fl rnd d)) as Hl.
  { destruct A4 as [E|E]; [left; rewrite E; unfold Qdiv; ring|right]. apply div_ge; [exact P'|]. rewrite (L3_eq B). rewrite (L2_eq B) in E.
    pose proof (nat_uB B rnd FP d D3) as U. pose proof (u_pos B) as Up. rewrite Ed.
    setoid_replace (u * u * u * q_of_nat d)%Q with ((u * q_of_nat d) * (u * u))%Q by ring.
    apply Qle_trans with (1 * (u * u))%Q; [apply Qmult_le_compat_r; [exact U|nra]|lra]. }
  split.
  - apply (near_rnd B rnd FP); [exact Hl|]. rewrite Ed. replace k with (k + 0) by lia.
    apply (near_div B rnd FP); try assumption. apply (near_refl B rnd FP). lra.
  - split; assumption.
  - split; [apply (rnd_nonneg B rnd FP), X0'|apply (rnd_le1 B rnd FP), X1'].
  - split.
    + intros E. assert (a == 0)%Q as E1. { setoid_replace a with (a / q_of_nat d * q_of_nat d)%Q by (field; lra). rewrite E. ring. }
      rewrite (near_zero B rnd FP _ _ _ A1 E1). setoid_replace (0 / fl rnd d)%Q with 0%Q by (unfold Qdiv; ring). apply (rnd0 B rnd FP).
    + intros E. apply (proj1 (qdiv_eq1 _ _ P)) in E. destruct D4 as [<-|D4].
      * assert (a' == q_of_nat v)%Q as E1 by (apply A6, E). setoid_replace (a' / fl rnd v)%Q with 1%Q by (rewrite E1, Ed; field; lra). apply (rnd1 B rnd FP).
      * subst v. change (q_of_nat 0) with 0%Q in A3. lra.
Qed.

(** ** Gini index *)
Lemma rgini_exact rows l : forall i g z, (0 <= i)%Z -> (i + Z.of_nat (length l) = rows)%Z -> (g == inject_Z z)%Q ->
  (Z.abs z + rows * Z.of_nat (list_nat_sum l) <= Zpos B)%Z ->
  (rgini_loop rnd rows i l g == inject_Z (z + snd (gini_loop rows i l)))%Q.
Proof.
  induction l as [|c l IH]; intros i g z Hi Hl Hg HB; cbn [rgini_loop gini_loop].
  - cbn [snd]. rewrite Z.add_0_r. exact Hg.
  - change (list_nat_sum (c :: l)) with (c + list_nat_sum l) in HB. cbn [length] in Hl.
    rewrite Nat2Z.inj_add, Z.mul_add_distr_l in HB.
    assert (0 <= rows * Z.of_nat (list_nat_sum l))%Z as P by (apply Z.mul_nonneg_nonneg; lia).
    assert (0 <= rows * Z.of_nat c)%Z as P2 by (apply Z.mul_nonneg_nonneg; lia).
    specialize (IH (i + 1)%Z). destruct (gini_loop rows (i + 1) l) as [app gg]. destruct (Nat.eqb_spec c 0) as [E|E].
    + cbn [snd] in *. apply IH; lia || assumption.
    + cbn [snd] in *. set (w := ((2 * i - rows + 1) * Z.of_nat c)%Z).
      assert (Z.abs w <= rows * Z.of_nat c)%Z as W. { unfold w. rewrite Z.abs_mul, (Z.abs_eq (Z.of_nat c)) by lia. apply Z.mul_le_mono_nonneg_r; lia. }
      rewrite Z.add_assoc. apply IH; [lia|lia| |].
      * rewrite (fp_int _ _ FP w) by lia. rewrite Hg, <- inject_Z_plus. apply (fp_int _ _ FP). lia.
      * lia.
Qed.
Lemma nat_sum_perm l l' : Permutation l l' -> list_nat_sum l = list_nat_sum l'.
Proof. unfold list_nat_sum. induction 1; cbn [fold_right]; lia. Qed.

Lemma filter_length_le {X} (f : X -> bool) l : length (filter f l) <= length l.
Proof. induction l as [|a l IH]; cbn; [lia|]. destruct (f a); cbn; lia. Qed.

(** ** The dictionary *)
Record rep_sim (n cutoff k : nat) (r r' : report) : Prop := {
  rs_total : r_total_user r' = r_total_user r;
  rs_valid : r_valid_user r' = r_valid_user r;
  rs_items : r_n_items r' = r_n_items r;
  rs_app : r_appeared_item r' = r_appeared_item r;
  rs_le : r_valid_user r <= r_total_user r;
  rs_num : (Z.of_nat (r_valid_user r) <= Zpos B)%Z ->
    ((r_hit r' == rnd (r_hit r))%Q /\ unit_q (r_hit r)) /\
    avg (2 * cutoff + r_valid_user r + k + 3) (r_recall r) (r_recall r') /\
    avg (2 * cutoff + r_valid_user r + k + 3) (r_ndcg r) (r_ndcg r') /\
    avg (2 * cutoff + r_valid_user r + k + 3) (r_map r) (r_map r') /\
    avg (2 * cutoff + r_valid_user r + k + 3) (r_precision r) (r_precision r');
  rs_gini : (Z.of_nat (n * (cutoff * r_valid_user r)) <= Zpos B)%Z -> (r_gini_index r' == rnd (r_gini_index r))%Q;
  rs_app_le : r_appeared_item r <= n;
  rs_probs : (Z.of_nat (cutoff * r_valid_user r) <= Zpos B)%Z -> Forall2 (fun p p' => (p' == rnd p)%Q) (r_probs r) (r_probs r') }.

Lemma as_dict_sim n cutoff j m m' : (Z.of_nat n <= Zpos B)%Z -> sim B n cutoff j m m' -> rep_sim n cutoff j (as_dict m) (ras_dict rnd m').
Proof.
  intros Hn HS. pose proof (as_dict_appeared m) as Happ. destruct HS as [S1 S2 S3 S4 S5 S6 S8 S9 S7]. revert Happ. unfold as_dict, ras_dict. rewrite S1, S2, S4, S5, S3, S8.
  rewrite (surjective_pairing (gini_loop _ _ _)). intros Happ.
  split; cbn [r_total_user r_valid_user r_n_items r_appeared_item r_hit r_recall r_ndcg r_map r_precision r_gini_index r_probs]; auto.
  - cbn [r_appeared_item] in Happ. rewrite Happ. apply filter_length_perm, sort_by_perm.
  - intros HB. destruct (S7 HB) as [(h & Hh & E1 & E2) R N P M]. clear S7.
    set (d := if 0 <? m_valid_user m then m_valid_user m else 1).
    assert (h <= d /\ 0 < d /\ (Z.of_nat d <= Zpos B)%Z) as (D1 & D2 & D3). { unfold d. destruct (Nat.ltb_spec 0 (m_valid_user m)); lia. }
    split; [|replace (2 * cutoff + m_valid_user m + j + 3) with (S (2 * cutoff + 2 + m_valid_user m + j)) by lia; repeat (split; [apply avg_of_acc; assumption|]); apply avg_of_acc; assumption].
    pose proof (q_pos d D2) as Pd. pose proof (q_le h d D1). pose proof (q_nonneg h). split.
    + rewrite E1, E2, (fl_exact B rnd FP d D3). reflexivity.
    + unfold unit_q; rewrite E1. split; [apply div_nonneg; assumption|apply div_le; lra].
  - intros HB. set (T := list_nat_sum (m_item_cnt m)) in *. set (l := sort_by Nat.ltb (m_item_cnt m)).
    assert (list_nat_sum l = T) as ET by (apply nat_sum_perm, sort_by_perm).
    assert (length l = n) as El by (rewrite <- S8; apply Permutation_length, sort_by_perm).
    assert (n * T <= n * (cutoff * m_valid_user m)) as Hle by (apply Nat.mul_le_mono_l; exact S9).
    assert (rgini_loop rnd (Z.of_nat n) 0 l 0 == inject_Z (snd (gini_loop (Z.of_nat n) 0 l)))%Q as E.
    { rewrite (rgini_exact (Z.of_nat n) l 0 0 0); [reflexivity|lia|lia|reflexivity|]. rewrite ET. change (Z.abs 0) with 0%Z. lia. }
    destruct (Nat.ltb_spec 0 T) as [HT|HT].
    + destruct (Nat.eq_dec n 0) as [N0|N0]; [exfalso; unfold T in HT; destruct (m_item_cnt m); [cbn in HT; lia|cbn in S8; lia]|].
      assert (1 * T <= n * T) as HT2 by (apply Nat.mul_le_mono_r; lia).
      rewrite (fl_exact B rnd FP n Hn), (fl_exact B rnd FP T) by lia. rewrite E.
      assert (q_of_nat n * q_of_nat T == q_of_nat (n * T))%Q as EM by (unfold q_of_nat; rewrite Nat2Z.inj_mul, inject_Z_mult; reflexivity).
      rewrite EM, (rnd_nat B rnd FP (n * T)) by lia. rewrite <- EM. reflexivity.
    + rewrite E. assert (snd (gini_loop (Z.of_nat n) 0 l) = 0%Z) as ->; [|symmetry; apply (rnd0 B rnd FP)].
      assert (forall i, snd (gini_loop (Z.of_nat n) i l) = 0%Z) as X; [|apply X].
      clear -ET HT. assert (list_nat_sum l = 0) as E by lia. clear ET HT. revert E. induction l as [|c l IH]; intros E i; [reflexivity|].
      change (list_nat_sum (c :: l)) with (c + list_nat_sum l) in E. cbn [gini_loop]. specialize (IH ltac:(lia) (i + 1)%Z). destruct (gini_loop _ _ l) as [a g].
      destruct (Nat.eqb_spec c 0); [exact IH|lia].
  - cbn [r_appeared_item] in Happ. rewrite Happ, <- S8. apply filter_length_le.
  - intros HB. set (T := list_nat_sum (m_item_cnt m)) in *.
    set (l := sort_by Nat.ltb (m_item_cnt m)).
    assert (list_nat_sum l = T) as ET by (apply nat_sum_perm, sort_by_perm). clearbody l.
    assert (Forall (fun c => (Z.of_nat c <= Zpos B)%Z) (filter (fun c => negb (c =? 0)) l)) as HF.
    { apply Forall_forall. intros c Hc. apply filter_In in Hc. destruct Hc as [Hc _]. enough (c <= list_nat_sum l) by lia.
      clear -Hc. induction l as [|x l IH]; [destruct Hc|]. change (list_nat_sum (x :: l)) with (x + list_nat_sum l). destruct Hc as [->|Hc]; [lia|specialize (IH Hc); lia]. }
    induction HF as [|c cs Hc HF IH]; cbn [map]; constructor; [|exact IH]. rewrite (fl_exact B rnd FP c Hc), (fl_exact B rnd FP T) by lia. reflexivity.
Qed.

Variable disc : nat -> Q.
(** The relation between the results of the exact and of the computed evaluation. *)
Definition cov_sim (q q' : option Q) : Prop :=
  match q, q' with None, None => True | Some q, Some q' => (q' == rnd q)%Q | _, _ => False end.
Inductive results (n j : nat) : list nat -> list (report * option Q) -> list (report * option Q) -> Prop :=
| results_nil : results n j [] [] []
| results_cons c r r' cs rs rs' : rep_sim n c j (fst r) (fst r') -> cov_sim (snd r) (snd r') -> results n j cs rs rs' -> results n j (c :: cs) (r :: rs) (r' :: rs').
Lemma results_of_sims n j ev cs ms ms' : (Z.of_nat n <= Zpos B)%Z -> e_n_rec ev <= n -> sims B n j cs ms ms' ->
  results n j cs (map (metrics_as_dict ev) ms) (map (rmetrics_as_dict rnd ev) ms').
Proof.
  intros Hn Hr. induction 1 as [|c m m' cs ms ms' Hm H IH]; cbn [map]; constructor; auto; unfold metrics_as_dict, rmetrics_as_dict; cbn [fst snd].
  - apply as_dict_sim; assumption.
  - pose proof (as_dict_sim n c j m m' Hn Hm) as [_ _ _ E _ _ _ L _]. destruct (e_n_rec ev =? 0); [exact I|]. cbn [cov_sim]. rewrite E.
    rewrite !(fl_exact B rnd FP) by lia. reflexivity.
Qed.


Lemma ceil_le a b : 0 < b -> (a + b - 1) / b <= a.
Proof. intros H. destruct (Nat.eq_dec a 0) as [->|E]; [rewrite Nat.div_small; lia|]. apply Nat.div_le_upper_bound; [lia|]. nia. Qed.
Lemma chunk_starts_length start stop mb l : chunk_starts start stop mb = Ok l -> length l <= stop - start.
Proof.
  unfold chunk_starts. destruct (Z.eqb_spec mb 0); [discriminate|]. destruct (Z.ltb_spec mb 0); [intros [= <-]; cbn; lia|].
  intros [= <-]. rewrite map_length, seq_length. apply ceil_le. lia.
Qed.

Lemma cold_facts h ce : cold_config_ok h -> build_cold h = Ok ce ->
  ev_ok (ce_base ce) (h_gt h) (h_recs h) (h_cols h) /\ core_ok (h_cols h) (e_core (ce_base ce)) /\
  e_n_threads (ce_base ce) = h_threads h /\ e_n_rec (ce_base ce) <= h_cols h.
Proof.
  intros HC HB. destruct (build_cold_ok h ce HC HB) as (Hev & Hrec & _). split; [exact Hev|]. split; [|split].
  - eapply make_core_facts; [apply (eo_rows _ _ _ _ Hev)|apply (eo_core _ _ _ _ Hev)].
  - clear -HB. unfold build_cold, make_cold_evaluator in HB. destruct (negb _); [discriminate|].
    destruct (match h_features h with None => false | Some _ => _ end); [discriminate|].
    destruct (make_evaluator _ _ _ _ _ _ _ _ _) as [ev| | |] eqn:E; try discriminate. cbn in HB. injection HB as <-. cbn [ce_base].
    apply make_evaluator_ok in E. destruct E as (recs & E). decompose [and] E. congruence.
  - rewrite Hrec. pose proof (eo_core _ _ _ _ Hev) as Hmc. apply make_core_iff in Hmc as [_ Hro]. rewrite (n_recommendable_catalog disc _ _ _ Hro).
    unfold catalog_size. destruct (h_recs h); [lia|etransitivity; [apply filter_length_le|rewrite seq_length; lia]].
Qed.
Lemma cold_exact_means h ce md F cutoffs xs : cold_config_ok h -> build_cold h = Ok ce -> cm_n_items md = h_warm h -> cold_scorer h md F ->
  cutoffs_ok (h_cols h) cutoffs -> launched xs -> cold_scores_from_model disc ce md cutoffs xs <> Pending ->
  exists rs, cold_scores_from_model disc ce md cutoffs xs = Ok rs /\ cold_means disc h (cold_users h F) cutoffs rs.
Proof.
  intros HC HB Hmd [HS|(W & -> & HS & Hf)] Hcut Hx Hp; [eapply api_cold_features|eapply api_cold_warm]; eauto.
Qed.
Lemma cold_exact h ce md F cutoffs xs rs' : cold_config_ok h -> build_cold h = Ok ce -> cm_n_items md = h_warm h -> cold_scorer h md F ->
  cutoffs_ok (h_cols h) cutoffs -> launched xs -> rcold_scores rnd disc ce md cutoffs xs = Ok rs' ->
  table_ok B rnd (h_cols h) disc -> (Z.of_nat (h_cols h) <= Zpos B)%Z ->
  exists rs, cold_means disc h (cold_users h F) cutoffs rs /\ Forall (user_ok (h_cols h)) (cold_users h F) /\
    length (cold_users h F) = length (h_gt h) /\ results (h_cols h) (h_threads h + length (h_gt h)) cutoffs rs rs'.
Proof.
  intros HC HB Hmd HS Hcut Hx E HT Hn. destruct (cold_facts h ce HC HB) as (Hev & Hcore & Hthr & Hrec).
  pose proof (eo_items _ _ _ _ Hev) as Hit. pose proof (eo_users _ _ _ _ Hev) as Hus.
  unfold rcold_scores in E. destruct (negb _) eqn:E1; [discriminate|].
  destruct (chunk_starts _ _ _) as [starts| | |] eqn:E2; try discriminate. cbn [obind] in E.
  pose proof (sims_cold B rnd FP _ disc HT Hn ce md cutoffs xs (e_offset (ce_base ce) + e_n_users (ce_base ce)) starts Hcore Hit
    (if ce_features ce then cm_feature md else None) 0 0 _ _ (sims_empty B rnd FP _ (e_n_threads (ce_base ce) + 0) cutoffs)) as X.
  rewrite Hit in E. destruct (rcold_loop _ _ _ _ _ _ _ _ _ _ _) as [ms'| | |] eqn:E3; try discriminate. cbn in E. injection E as <-.
  destruct (cold_loop _ _ _ _ _ _ _ _ _ _) as [ms| | |] eqn:E4; try contradiction. cbn [orel] in X.
  assert (cold_scores_from_model disc ce md cutoffs xs = Ok (map (metrics_as_dict (ce_base ce)) ms)) as EX.
  { unfold cold_scores_from_model. rewrite E1, E2. cbn [obind]. rewrite Hit, E4. reflexivity. }
  destruct (cold_exact_means h ce md F cutoffs xs HC HB Hmd HS Hcut Hx) as (rs & Er & M); [rewrite EX; discriminate|].
  rewrite EX in Er. injection Er as <-. exists (map (metrics_as_dict (ce_base ce)) ms). split; [exact M|].
  split; [apply masked_users_ok|]. split; [unfold cold_users, masked_users; rewrite map_length, seq_length; reflexivity|].
  apply results_of_sims; [exact Hn|exact Hrec|]. eapply (sims_weaken B rnd FP); [|exact X]. apply chunk_starts_length in E2. lia.
Qed.

Lemma computed_exact g us cutoffs rs' : table_ok B rnd (g_n_items g) disc -> fits B g -> revaluated rnd disc g us cutoffs rs' ->
  exists rs, Forall2 (evaluation_means disc (g_rwc g) (g_n_items g) (g_recs g) us) cutoffs rs /\ Forall (user_ok (g_n_items g)) us /\
    length us = length (g_gt g) /\ results (g_n_items g) (g_threads g + length (g_gt g)) cutoffs rs rs'.
Proof.
  intros HT [_ Hn] H.
  assert (forall us cutoffs rs' rs, evaluated disc g us cutoffs rs /\ results (g_n_items g) (g_threads g + length (g_gt g)) cutoffs rs rs' ->
    exists rs, Forall2 (evaluation_means disc (g_rwc g) (g_n_items g) (g_recs g) us) cutoffs rs /\ Forall (user_ok (g_n_items g)) us /\
    length us = length (g_gt g) /\ results (g_n_items g) (g_threads g + length (g_gt g)) cutoffs rs rs') as Hwarm.
  { intros us0 cs0 rs0' rs0 [HE HR]. destruct (evaluated_means disc g us0 cs0 rs0 HE) as (M & HU & (mask & scores & Hus)).
    exists rs0. split; [exact M|]. split; [exact HU|]. split; [|exact HR]. rewrite Hus; unfold masked_users; rewrite map_length, seq_length; reflexivity. }
  assert (forall ev, config_ok g -> build g = Ok ev -> ev_ok ev (g_gt g) (g_recs g) (g_n_items g) /\ core_ok (g_n_items g) (e_core ev) /\ e_n_threads ev = g_threads g /\ e_n_rec ev <= g_n_items g) as Hbuild.
  { intros ev HC HB. destruct (build_ok g ev HC HB) as (Hev & Hrec & _). split; [exact Hev|]. split; [|split].
    - eapply make_core_facts; [apply (eo_rows _ _ _ _ Hev)|apply (eo_core _ _ _ _ Hev)].
    - unfold build in HB. apply make_evaluator_ok in HB. destruct HB as (recs & HB). decompose [and] HB. congruence.
    - rewrite Hrec. pose proof (eo_core _ _ _ _ Hev) as Hmc. apply make_core_iff in Hmc as [_ Hro]. rewrite (n_recommendable_catalog disc _ _ _ Hro).
      unfold catalog_size. destruct (g_recs g); [lia|etransitivity; [apply filter_length_le|rewrite seq_length; lia]]. }
  destruct H as [ev d cutoffs xs rs' HC HB HS Hcut Hx E|ev ds cutoffs xs rs' HC HB HS Hcut Hx E|ev md S cutoffs xs rs' HC HB HS Hcut Hx E|h ce md F cutoffs xs rs' HC Hg HB Hmd HS Hcut Hx E];
    [| | |destruct (cold_exact h ce md F cutoffs xs rs' HC HB Hmd HS Hcut Hx E) as (rs & M & HU & Lus & HR);
      [subst g; exact HT|subst g; exact Hn|]; exists rs; subst g; exact (conj M (conj HU (conj Lus HR)))];
    destruct (Hbuild ev HC HB) as (Hev & Hcore & Hthr & Hrec); pose proof (eo_items _ _ _ _ Hev) as Hit; pose proof (eo_users _ _ _ _ Hev) as Hus.
  - unfold rmatrix_scores, rscores_from_matrix in E. destruct (negb _) eqn:E1; [discriminate|].
    destruct (chunk_starts _ _ _) as [starts| | |] eqn:E2; try discriminate. cbn [obind] in E. unfold rscores_from_chunks in E.
    pose proof (sims_chunks B rnd FP _ disc HT Hn ev Hcore Hit (e_masked ev) cutoffs xs (map (fun s => mkDense (d_cols d) (slice (d_rows d) s (s + Z.to_nat (e_mb_size ev)))) starts) 0 0 0 _ _ (le_n 0) (sims_empty B rnd FP _ (e_n_threads ev + 0) cutoffs)) as X.
    rewrite Hit in E. set (M := map _ starts) in *. destruct (rchunk_loop _ _ _ _ _ _ _ _ _ _) as [[st ms']| | |] eqn:E3; try discriminate. cbn [obind] in E.
    destruct (chunk_loop _ _ _ _ _ _ _ _ _) as [[st1 ms]| | |] eqn:E4; try contradiction. cbn [orel fst snd] in X. destruct X as [<- X].
    destruct (Nat.eqb_spec st1 (e_n_users ev)) as [Es|]; [|discriminate]. injection E as <-.
    apply (Hwarm _ _ _ (map (metrics_as_dict ev) ms)). split.
    + eapply by_matrix; eauto. unfold matrix_scores, scores_from_matrix. rewrite E1, E2. cbn [obind]. unfold scores_from_chunks. fold M. rewrite Hit, E4. cbn [obind].
      rewrite Es, Nat.eqb_refl. reflexivity.
    + apply results_of_sims; [exact Hn|exact Hrec|]. rewrite <- Hthr, <- Hus, <- Es. exact X.
  - unfold rchunk_scores, rscores_from_chunks in E.
    pose proof (sims_chunks B rnd FP _ disc HT Hn ev Hcore Hit (e_masked ev) cutoffs xs ds 0 0 0 _ _ (le_n 0) (sims_empty B rnd FP _ (e_n_threads ev + 0) cutoffs)) as X.
    rewrite Hit in E. destruct (rchunk_loop _ _ _ _ _ _ _ _ _ _) as [[st ms']| | |] eqn:E3; try discriminate. cbn [obind] in E.
    destruct (chunk_loop _ _ _ _ _ _ _ _ _) as [[st1 ms]| | |] eqn:E4; try contradiction. cbn [orel fst snd] in X. destruct X as [<- X].
    destruct (Nat.eqb_spec st1 (e_n_users ev)) as [Es|]; [|discriminate]. injection E as <-.
    apply (Hwarm _ _ _ (map (metrics_as_dict ev) ms)). split.
    + eapply by_chunks; eauto. unfold chunk_scores, scores_from_chunks. rewrite Hit, E4. cbn [obind].
      rewrite Es, Nat.eqb_refl. reflexivity.
    + apply results_of_sims; [exact Hn|exact Hrec|]. rewrite <- Hthr, <- Hus, <- Es. exact X.
  - unfold rscores_from_model in E. destruct (_ <? _) eqn:E0; [discriminate|]. destruct (negb _) eqn:E1; [discriminate|].
    destruct (chunk_starts _ _ _) as [starts| | |] eqn:E2; try discriminate. cbn [obind] in E.
    pose proof (sims_model B rnd FP _ disc HT Hn ev Hcore Hit md cutoffs xs (e_offset ev + e_n_users ev) starts 0 0 _ _ (sims_empty B rnd FP _ (e_n_threads ev + 0) cutoffs)) as X.
    rewrite Hit in E. destruct (rmodel_loop _ _ _ _ _ _ _ _ _ _) as [ms'| | |] eqn:E3; try discriminate. cbn in E. injection E as <-.
    destruct (model_loop _ _ _ _ _ _ _ _ _) as [ms| | |] eqn:E4; try contradiction. cbn [orel] in X.
    apply (Hwarm _ _ _ (map (metrics_as_dict ev) ms)). split.
    + eapply by_model; eauto. unfold scores_from_model. rewrite E0, E1, E2. cbn [obind]. rewrite Hit, E4. reflexivity.
    + apply results_of_sims; [exact Hn|exact Hrec|]. eapply (sims_weaken B rnd FP); [|exact X]. apply chunk_starts_length in E2. lia.
Qed.

(** ** The statements *)
Lemma avg_weaken j k a a' : j <= k -> avg j a a' -> avg k a a'.
Proof. intros L [H1 H2 H3 H4]. split; auto. eapply (near_weaken B rnd FP); [exact L| |apply H2|exact H1]. intros _. apply H3. Qed.
Lemma avg_within k a a' : avg k a a' -> within (q_of_nat k * u) a' a.
Proof. intros [H1 H2 H3 H4]. apply (near_within B rnd FP); assumption. Qed.

Lemma accuracy g us cutoffs rs : table_ok B rnd (g_n_items g) disc -> fits B g -> revaluated rnd disc g us cutoffs rs ->
  Forall2 (fun c r => exists tops, tops_of c us tops /\
    report_near B rnd disc (g_rwc g) (q_of_nat (roundings g c) * u) (g_n_items g) c us tops (fst r) /\ coverage_near rnd g r) cutoffs rs.
Proof.
  intros HT HF H. destruct (computed_exact g us cutoffs rs HT HF H) as (rs0 & M & _ & Lus & HR).
  clear H. destruct HF as [HF1 HF2]. revert rs0 rs M HR. induction cutoffs as [|c cs IH]; intros rs0 rs M HR.
  - inversion HR; subst. constructor.
  - inversion HR as [|c0 r r' cs0 rs1 rs2 Hr Hcov HR']; subst. inversion M as [|c1 r1 cs1 rs3 Mr M']; subst. constructor; [|eapply IH; eauto].
    destruct Mr as [(tops & Ht & [R1 R2 R3 R4 R5 R6 R7 R8 R9 R10 R11]) Hc]. exists tops. split; [exact Ht|].
    destruct Hr as [Q1 Q2 Q3 Q4 Q5 Q6 Q7 _ Q8]. assert (length (valid_users us) <= length (g_gt g)) as Lv by (rewrite <- Lus, <- R1, <- R2; exact Q5).
    destruct Q6 as ([Qh _] & Qr & Qn & Qm & Qp); [rewrite R2; lia|].
    assert (2 * c + r_valid_user (fst r) + (g_threads g + length (g_gt g)) + 3 <= roundings g c) as LK by (rewrite R2; unfold roundings; lia).
    split.
    2:{ unfold coverage_near. destruct (snd r) as [q|], (snd r') as [q'|]; cbn [cov_sim] in Hcov; try contradiction; [|exact Hc].
        destruct Hc as [Hc1 Hc2]. split; [exact Hc1|]. rewrite Q4, Hcov, Hc2. reflexivity. }
    split; try congruence.
    + rewrite Qh, R4. reflexivity.
    + unfold within. rewrite <- R5. apply avg_within. eapply avg_weaken; [exact LK|exact Qr].
    + unfold within. rewrite <- R6. apply avg_within. eapply avg_weaken; [exact LK|exact Qn].
    + unfold within. rewrite <- R7. apply avg_within. eapply avg_weaken; [exact LK|exact Qm].
    + unfold within. rewrite <- R8. apply avg_within. eapply avg_weaken; [exact LK|exact Qp].
    + intros HB. rewrite Q7, R10; [reflexivity|]. rewrite R2. eapply Z.le_trans; [|exact HB].
      apply Nat2Z.inj_le. apply Nat.mul_le_mono_l, Nat.mul_le_mono_l. lia.
    + intros HB. exists (r_probs (fst r)). split; [exact R11|]. apply Q8. rewrite R2. eapply Z.le_trans; [|exact HB].
      apply Nat2Z.inj_le. apply Nat.mul_le_mono_l. lia.
Qed.

Lemma computed_range g us cutoffs rs r a : table_ok B rnd (g_n_items g) disc -> fits B g -> revaluated rnd disc g us cutoffs rs ->
  In r rs -> In a (averages (fst r)) -> (0 <= a <= 1)%Q.
Proof.
  intros HT HF H Hr Ha. destruct (computed_exact g us cutoffs rs HT HF H) as (rs0 & M & _ & Lus & HR).
  clear H. destruct HF as [HF1 _]. revert M. induction HR as [|c r0 r' cs rs0 rs Hr0 _ HR IH]; intros M; [destruct Hr|].
  inversion M as [|c1 r1 cs1 rs3 Mr M']; subst. destruct Hr as [<-|Hr]; [|apply IH; assumption].
  destruct Mr as [(tops & _ & [R1 R2 _ _ _ _ _ _ _ _ _]) _]. destruct Hr0 as [_ _ _ _ Q5 Q6 _ _ _].
  destruct Q6 as ([Qh [U1 U2]] & Qr & Qn & Qm & Qp); [lia|].
  cbn in Ha. destruct Ha as [<-|[<-|[<-|[<-|[<-|[]]]]]]; try (apply (av_unit' _ _ _ Qr) || apply (av_unit' _ _ _ Qn) || apply (av_unit' _ _ _ Qm) || apply (av_unit' _ _ _ Qp)).
  rewrite Qh. split; [apply (rnd_nonneg B rnd FP), U1|apply (rnd_le1 B rnd FP), U2].
Qed.

Lemma computed_ends g us cutoffs rs : table_ok B rnd (g_n_items g) disc -> fits B g -> revaluated rnd disc g us cutoffs rs ->
  Forall2 (fun c r => exists tops, tops_of c us tops /\
    same_ends (average hit_of us tops) (r_hit (fst r)) /\ same_ends (average (recall_of (g_rwc g)) us tops) (r_recall (fst r)) /\
    same_ends (average (ndcg_of disc) us tops) (r_ndcg (fst r)) /\ same_ends (average ap_of us tops) (r_map (fst r)) /\
    same_ends (average precision_of us tops) (r_precision (fst r))) cutoffs rs.
Proof.
  intros HT HF H. destruct (computed_exact g us cutoffs rs HT HF H) as (rs0 & M & _ & Lus & HR).
  clear H. destruct HF as [HF1 _]. revert M. induction HR as [|c r0 r' cs rs0 rs Hr0 _ HR IH]; intros M; [constructor|].
  inversion M as [|c1 r1 cs1 rs3 Mr M']; subst. constructor; [|apply IH; assumption].
  destruct Mr as [(tops & Ht & [R1 R2 R3 R4 R5 R6 R7 R8 R9 R10 R11]) _]. exists tops. split; [exact Ht|].
  destruct Hr0 as [Q1 Q2 Q3 Q4 Q5 Q6 Q7 _ _]. destruct Q6 as ([Qh _] & Qr & Qn & Qm & Qp); [lia|].
  unfold same_ends. rewrite <- R4, <- R5, <- R6, <- R7, <- R8.
  split; [|exact (conj (av_ends _ _ _ Qr) (conj (av_ends _ _ _ Qn) (conj (av_ends _ _ _ Qm) (av_ends _ _ _ Qp))))].
  rewrite Qh. split; intros E; rewrite E; [apply (rnd0 B rnd FP)|apply (rnd1 B rnd FP)].
Qed.

Lemma results_nth n j cs rs rs' : results n j cs rs rs' -> length rs = length cs /\ length rs' = length cs /\
  forall i c r', nth_error cs i = Some c -> nth_error rs' i = Some r' -> exists r, nth_error rs i = Some r /\ rep_sim n c j (fst r) (fst r') /\ cov_sim (snd r) (snd r').
Proof.
  induction 1 as [|c r r' cs rs rs' Hr Hc HR (L1 & L2 & IH)]; [cbn; repeat split; auto; intros [|i] ? ? ?; discriminate|].
  cbn [length]. split; [lia|]. split; [lia|]. intros [|i] c0 r0' E1 E2; cbn [nth_error] in *.
  - injection E1 as <-. injection E2 as <-. exists r. auto.
  - eapply IH; eauto.
Qed.
Lemma forall2_nth {X Y} (P : X -> Y -> Prop) l l' i x y : Forall2 P l l' -> nth_error l i = Some x -> nth_error l' i = Some y -> P x y.
Proof. intros H. revert i. induction H; intros [|i]; cbn; intros; try discriminate; [congruence|eauto]. Qed.

Lemma close_of k k' a a1 a' a1' : avg k a a' -> avg k' a1 a1' -> (a == a1)%Q -> within (q_of_nat (k + k') * u) a1' a'.
Proof.
  intros H H1 E. apply avg_within in H, H1. unfold within in *. rewrite <- E in H1.
  apply Qabs_Qle_condition in H. apply Qabs_Qle_condition in H1. apply Qabs_Qle_condition.
  setoid_replace (q_of_nat (k + k') * u)%Q with (q_of_nat k * u + q_of_nat k' * u)%Q by (rewrite q_plus; ring). lra.
Qed.

Lemma computed_close g mb t us cutoffs rs rs' : table_ok B rnd (g_n_items g) disc -> fits B g ->
  revaluated rnd disc g us cutoffs rs -> revaluated rnd disc (with_blocks g mb t) us cutoffs rs' ->
  length rs = length cutoffs /\ length rs' = length cutoffs /\
  forall i c r r', nth_error cutoffs i = Some c -> nth_error rs i = Some r -> nth_error rs' i = Some r' ->
    reports_close B c (q_of_nat (roundings g c + roundings (with_blocks g mb t) c) * u) (fst r) (fst r').
Proof.
  intros HT HF H H'. destruct (computed_exact g us cutoffs rs HT HF H) as (rs0 & M & HU & Lus & HR).
  destruct (computed_exact (with_blocks g mb t) us cutoffs rs' HT HF H') as (rs0' & M' & _ & _ & HR'). cbn [with_blocks g_rwc g_n_items g_gt g_threads] in *.
  assert (Forall2 same_result rs0 rs0') as HS by (eapply evaluations_unique; [eapply users_ok_elig; exact HU|exact M|exact M']).
  destruct (results_nth _ _ _ _ _ HR) as (L1 & L2 & N). destruct (results_nth _ _ _ _ _ HR') as (L1' & L2' & N').
  split; [exact L2|]. split; [exact L2'|]. intros i c r r' Ec Er Er'. destruct (N i c r Ec Er) as (q & Eq & Hq & _). destruct (N' i c r' Ec Er') as (q' & Eq' & Hq' & _).
  pose proof (forall2_nth _ _ _ _ _ _ M Ec Eq) as [(tops & _ & [R1 R2 _ _ _ _ _ _ _ _ _]) _].
  destruct (forall2_nth _ _ _ _ _ _ HS Eq Eq') as [[T1 T2 T3 T4 T5 T6 T7 T8 T9 T10 _] _].
  destruct Hq as [Q1 Q2 Q3 Q4 Q5 Q6 Q7 _ _]. destruct Hq' as [W1 W2 W3 W4 W5 W6 W7 _ _]. destruct HF as [HF _].
  destruct Q6 as ([Qh _] & Qr & Qn & Qm & Qp); [lia|]. destruct W6 as ([Wh _] & Wr & Wn & Wm & Wp); [lia|].
  assert (2 * c + r_valid_user (fst q) + (g_threads g + length (g_gt g)) + 3 <= roundings g c) as LK by (unfold roundings; lia).
  assert (2 * c + r_valid_user (fst q') + (t + length (g_gt g)) + 3 <= roundings (with_blocks g mb t) c) as LK' by (unfold roundings; cbn [with_blocks g_gt g_threads]; lia).
  split; try congruence.
  - rewrite Wh, Qh, T4. reflexivity.
  - eapply close_of; [eapply avg_weaken; [exact LK|exact Qr]|eapply avg_weaken; [exact LK'|exact Wr]|exact T5].
  - eapply close_of; [eapply avg_weaken; [exact LK|exact Qn]|eapply avg_weaken; [exact LK'|exact Wn]|exact T6].
  - eapply close_of; [eapply avg_weaken; [exact LK|exact Qm]|eapply avg_weaken; [exact LK'|exact Wm]|exact T7].
  - eapply close_of; [eapply avg_weaken; [exact LK|exact Qp]|eapply avg_weaken; [exact LK'|exact Wp]|exact T8].
  - intros HB. rewrite Q3, Q2 in HB. assert (r_n_items (fst q) = g_n_items g) as En.
    { pose proof (forall2_nth _ _ _ _ _ _ M Ec Eq) as [(? & _ & [_ _ X _ _ _ _ _ _ _ _]) _]. exact X. }
    rewrite En in HB. rewrite Q7, W7 by (rewrite <- ?T2; exact HB). rewrite T10. reflexivity.
Qed.

(** ** The evaluation returns whenever the exact one does *)
Lemma evaluator_facts g ev : config_ok g -> build g = Ok ev -> core_ok (g_n_items g) (e_core ev) /\ e_n_items ev = g_n_items g.
Proof.
  intros HC HB. destruct (build_ok g ev HC HB) as (Hev & _). split; [|exact (eo_items _ _ _ _ Hev)].
  eapply make_core_facts; [apply (eo_rows _ _ _ _ Hev)|apply (eo_core _ _ _ _ Hev)].
Qed.
Lemma matrix_returns g ev d cutoffs xs : table_ok B rnd (g_n_items g) disc -> fits B g -> config_ok g -> build g = Ok ev -> scores_ok g d ->
  cutoffs_ok (g_n_items g) cutoffs -> launched xs -> all_fair g xs ->
  exists rs, rmatrix_scores rnd disc ev d cutoffs xs = Ok rs /\ revaluated rnd disc g (g_users g (d_rows d)) cutoffs rs.
Proof.
  intros HT [_ Hn] HC HB HS Hcut Hx Hfair. destruct (matrix_answers disc g ev d cutoffs xs HC HB HS Hcut Hx Hfair) as (rs & E & _).
  assert (exists rs', rmatrix_scores rnd disc ev d cutoffs xs = Ok rs') as (rs' & E'); [|exists rs'; split; [exact E'|eapply rby_matrix; eauto]].
  destruct (evaluator_facts g ev HC HB) as (Hcore & Hit).
  unfold matrix_scores, scores_from_matrix in E. unfold rmatrix_scores, rscores_from_matrix. destruct (negb _) eqn:E1; [discriminate|].
  destruct (chunk_starts _ _ _) as [starts| | |] eqn:E2; try discriminate. cbn [obind] in *. unfold scores_from_chunks in E. unfold rscores_from_chunks.
  pose proof (sims_chunks B rnd FP _ disc HT Hn ev Hcore Hit (e_masked ev) cutoffs xs (map (fun s => mkDense (d_cols d) (slice (d_rows d) s (s + Z.to_nat (e_mb_size ev)))) starts) 0 0 0 _ _ (le_n 0) (sims_empty B rnd FP _ (e_n_threads ev + 0) cutoffs)) as X.
  rewrite Hit in E |- *. set (M := map _ starts) in *. destruct (chunk_loop _ _ _ _ _ _ _ _ _) as [[st ms]| | |] eqn:E4; try discriminate. cbn [obind] in E.
  destruct (rchunk_loop _ _ _ _ _ _ _ _ _ _) as [[st1 ms']| | |] eqn:E3; try contradiction. cbn [orel fst snd] in X. destruct X as [<- X]. cbn [obind].
  destruct (st =? e_n_users ev); [|discriminate]. eauto.
Qed.
Lemma model_returns g ev md S cutoffs xs : table_ok B rnd (g_n_items g) disc -> fits B g -> config_ok g -> build g = Ok ev -> recommender_ok g md S ->
  cutoffs_ok (g_n_items g) cutoffs -> launched xs -> all_fair g xs ->
  exists rs, rscores_from_model rnd disc ev md cutoffs xs = Ok rs /\ revaluated rnd disc g (g_model_users g md S) cutoffs rs.
Proof.
  intros HT [_ Hn] HC HB HS Hcut Hx Hfair. destruct (model_answers disc g ev md S cutoffs xs HC HB HS Hcut Hx Hfair) as (rs & E & _).
  assert (exists rs', rscores_from_model rnd disc ev md cutoffs xs = Ok rs') as (rs' & E'); [|exists rs'; split; [exact E'|eapply rby_model; eauto]].
  destruct (evaluator_facts g ev HC HB) as (Hcore & Hit).
  unfold scores_from_model in E. unfold rscores_from_model. destruct (_ <? _) eqn:E0; [discriminate|]. destruct (negb _) eqn:E1; [discriminate|].
  destruct (chunk_starts _ _ _) as [starts| | |] eqn:E2; try discriminate. cbn [obind] in *.
  pose proof (sims_model B rnd FP _ disc HT Hn ev Hcore Hit md cutoffs xs (e_offset ev + e_n_users ev) starts 0 0 _ _ (sims_empty B rnd FP _ (e_n_threads ev + 0) cutoffs)) as X.
  rewrite Hit in E |- *. destruct (model_loop _ _ _ _ _ _ _ _ _) as [ms| | |] eqn:E4; try discriminate.
  destruct (rmodel_loop _ _ _ _ _ _ _ _ _ _) as [ms'| | |] eqn:E3; try contradiction. eexists. reflexivity.
Qed.

Lemma cold_answers h ce md F cutoffs xs : table_ok B rnd (h_cols h) disc -> fits B (cold_as_config h) -> cold_config_ok h -> build_cold h = Ok ce ->
  cm_n_items md = h_warm h -> cold_scorer h md F -> cutoffs_ok (h_cols h) cutoffs -> launched xs -> all_fair (cold_as_config h) xs ->
  exists rs, rcold_scores rnd disc ce md cutoffs xs = Ok rs /\ revaluated rnd disc (cold_as_config h) (cold_users h F) cutoffs rs.
Proof.
  intros HT [_ Hn] HC HB Hmd HS Hcut Hx Hfair. cbn [cold_as_config g_n_items] in Hn.
  destruct (cold_exact_means h ce md F cutoffs xs HC HB Hmd HS Hcut Hx (cold_returns disc h ce md cutoffs xs HC HB Hfair)) as (rs & E & _).
  assert (exists rs', rcold_scores rnd disc ce md cutoffs xs = Ok rs') as (rs' & E'); [|exists rs'; split; [exact E'|eapply rby_cold; eauto]].
  destruct (cold_facts h ce HC HB) as (Hev & Hcore & _ & _). pose proof (eo_items _ _ _ _ Hev) as Hit.
  unfold cold_scores_from_model in E. unfold rcold_scores. destruct (negb _) eqn:E1; [discriminate|].
  destruct (chunk_starts _ _ _) as [starts| | |] eqn:E2; try discriminate. cbn [obind] in *.
  pose proof (sims_cold B rnd FP _ disc HT Hn ce md cutoffs xs (e_offset (ce_base ce) + e_n_users (ce_base ce)) starts Hcore Hit
    (if ce_features ce then cm_feature md else None) 0 0 _ _ (sims_empty B rnd FP _ (e_n_threads (ce_base ce) + 0) cutoffs)) as X.
  rewrite Hit in E |- *. destruct (cold_loop _ _ _ _ _ _ _ _ _ _) as [ms| | |] eqn:E4; try discriminate.
  destruct (rcold_loop _ _ _ _ _ _ _ _ _ _ _) as [ms'| | |] eqn:E3; try contradiction. eexists. reflexivity.
Qed.

(** ** The table of discounts *)
Lemma table_of_logs (n : nat) (lg : nat -> Q) : (forall i, i < n -> (1 <= lg i)%Q /\ (lg i <= inject_Z (Zpos B))%Q) -> (forall i j, i <= j -> j < n -> (lg i <= lg j)%Q) ->
  table_ok B rnd n (fun i => rnd (1 / lg i)).
Proof.
  intros H1 H2. split.
  - intros i Hi. apply (fp_idem _ _ FP).
  - intros i Hi. destruct (H1 i Hi) as [L U]. destruct (fp_small _ _ FP) as (E & _). rewrite <- E. apply (fp_mono _ _ FP).
    apply div_ge; [lra|]. assert (u * inject_Z (Zpos B) == 1)%Q as Eu by (unfold Qeq; cbn; lia). rewrite <- Eu.
    pose proof (u_pos B). setoid_replace (u * lg i)%Q with (lg i * u)%Q by ring. setoid_replace (u * inject_Z (Zpos B))%Q with (inject_Z (Zpos B) * u)%Q by ring. apply Qmult_le_compat_r; lra.
  - intros i Hi. destruct (H1 i Hi) as [L U]. apply (rnd_le1 B rnd FP). apply div_le; lra.
  - intros i j Hij Hj. destruct (H1 i ltac:(lia)) as [L U], (H1 j Hj) as [L' U']. apply (fp_mono _ _ FP). specialize (H2 i j Hij Hj).
    apply div_le; [lra|]. setoid_replace (1 / lg i * lg j)%Q with (lg j / lg i)%Q by (field; lra). apply div_ge; lra.
Qed.
End Top.
