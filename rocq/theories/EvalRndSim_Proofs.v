(** Every floating-point evaluation runs like the exact one on the same
    schedule, with related sums. *)
From Coq Require Import Setoid Morphisms Qabs Lqa.
From Verif Require Import Base Sched_Model Sched_Proofs Eval_Model Eval_Spec Sort_Proofs Eval_Proofs Eval_Core_Proofs Eval_Facts_Proofs Eval_Main_Proofs EvalPy_Proofs EvalRnd_Spec EvalRnd_Proofs.
Local Open Scope nat_scope.

(** * Worker pools *)
Section PoolSim.
Context {A A' S : Type}.
Variables (n block : nat) (lw : nat -> A -> A) (lw' : nat -> A' -> A') (sw : nat -> S -> S).
Variable R : A -> A' -> Prop.
Hypothesis Hstep : forall r a a', R a a' -> R (lw r a) (lw' r a').
Definition wrel (w : worker A) (w' : worker A') : Prop := w_status w = w_status w' /\ R (w_acc w) (w_acc w').
Definition prel (p : pool A S) (p' : pool A' S) : Prop :=
  p_cursor p = p_cursor p' /\ p_shared p = p_shared p' /\ Forall2 wrel (p_workers p) (p_workers p').
Lemma Forall2_nth_error {X Y} (P : X -> Y -> Prop) l l' k : Forall2 P l l' ->
  match nth_error l k, nth_error l' k with Some x, Some y => P x y | None, None => True | _, _ => False end.
Proof. intros H. revert k. induction H as [|x y l l' Hx H IH]; intros [|k]; cbn; auto. apply IH. Qed.
Lemma Forall2_update_nth {X Y} (P : X -> Y -> Prop) l l' k x y : Forall2 P l l' -> P x y -> Forall2 P (update_nth l k x) (update_nth l' k y).
Proof. intros H Hxy. revert k. induction H as [|a b l l' Hx H IH]; intros [|k]; cbn; constructor; auto. Qed.
Lemma pool_step_sim p p' t : prel p p' -> prel (pool_step n block lw sw p t) (pool_step n block lw' sw p' t).
Proof.
  intros (H1 & H2 & H3). unfold pool_step. pose proof (Forall2_nth_error _ _ _ t H3) as H.
  destruct (nth_error (p_workers p) t) as [w|], (nth_error (p_workers p') t) as [w'|]; try contradiction; [|exact (conj H1 (conj H2 H3))].
  destruct H as [E Ra]. rewrite <- E. destruct (w_status w) as [|[|r rs]|].
  - rewrite <- H1, <- H2. split; [reflexivity|]. split; [reflexivity|]. apply Forall2_update_nth; [exact H3|]. split; [reflexivity|exact Ra].
  - rewrite <- H1, <- H2. split; [reflexivity|]. split; [reflexivity|]. apply Forall2_update_nth; [exact H3|]. split; [reflexivity|exact Ra].
  - rewrite <- H1, <- H2. split; [reflexivity|]. split; [reflexivity|]. apply Forall2_update_nth; [exact H3|]. split; [reflexivity|apply Hstep, Ra].
  - exact (conj H1 (conj H2 H3)).
Qed.
Lemma run_pool_sim sched : forall p p', prel p p' -> prel (run_pool n block lw sw sched p) (run_pool n block lw' sw sched p').
Proof. induction sched as [|t sched IH]; intros p p' H; [exact H|]. cbn. apply IH, pool_step_sim, H. Qed.
Lemma init_pool_sim k a a' s : R a a' -> prel (init_pool k a s) (init_pool k a' s).
Proof. intros H. split; [reflexivity|]. split; [reflexivity|]. cbn. induction k; cbn; constructor; auto. split; [reflexivity|exact H]. Qed.
Lemma completed_sim p p' : prel p p' -> completed p = completed p'.
Proof.
  intros (_ & _ & H). unfold completed. induction H as [|w w' l l' [E _] H IH]; [reflexivity|]. cbn. unfold worker_done at 1 3. rewrite E, IH. reflexivity.
Qed.
End PoolSim.
Lemma pool_shared_inv {A S} n block (lw : nat -> A -> A) (sw : nat -> S -> S) (P : S -> Prop) :
  (forall r s, P s -> P (sw r s)) -> forall sched p, P (p_shared p) -> P (p_shared (run_pool n block lw sw sched p)).
Proof.
  intros H. induction sched as [|t sched IH]; intros p Hp; [exact Hp|]. cbn. apply IH. unfold pool_step.
  destruct (nth_error _ t) as [w|]; [|exact Hp]. destruct (w_status w) as [|[|r rs]|]; try exact Hp. cbn. apply H, Hp.
Qed.

Lemma run_pool_length {A S} n block (lw : nat -> A -> A) (sw : nat -> S -> S) sched p :
  length (p_workers (run_pool n block lw sw sched p)) = length (p_workers p).
Proof. unfold run_pool. revert p. induction sched as [|t sched IH]; intros p; cbn [fold_left]; [reflexivity|]. rewrite IH. apply workers_length_step. Qed.

(** * The recommended items of a user *)
Lemma collect_snd data base items l : collect data base items = Ok l -> NoDup items -> incl (map snd l) items /\ NoDup (map snd l).
Proof.
  revert l. induction items as [|i items IH]; intros l; cbn [collect]; [intros [= <-] _; split; [apply incl_refl|constructor]|].
  destruct (nth_error data (base + i)) as [s|]; [|discriminate]. destruct (collect data base items) as [l'| | |]; try discriminate.
  cbn. intros [= <-] HN. inversion HN as [|? ? Hi HN']; subst. destruct (IH l' eq_refl HN') as [I1 I2]. destruct (not_neginf s); cbn.
  - split; [apply incl_cons; [now left|apply incl_tl, I1]|]. constructor; [intros X; apply Hi, I1, X|exact I2].
  - split; [apply incl_tl, I1|exact I2].
Qed.
Lemma push_loop_prefix l : forall cnt k, exists r, map snd l = push_loop cnt k l ++ r.
Proof.
  induction l as [|p l IH]; intros cnt k; cbn; [exists []; reflexivity|]. destruct (k <=? S cnt).
  - exists (map snd l). reflexivity.
  - destruct (IH (S cnt) k) as [r E]. exists r. cbn. rewrite <- E. reflexivity.
Qed.
Lemma push_loop_length l : forall cnt k, cnt < k -> length (push_loop cnt k l) <= k - cnt.
Proof.
  induction l as [|p l IH]; intros cnt k H; cbn; [lia|]. destruct (Nat.leb_spec k (S cnt)); cbn; [lia|]. specialize (IH (S cnt) k ltac:(lia)). lia.
Qed.
Lemma ranking_facts c data u uo cutoff recs : ranking c data u uo cutoff = Ok recs -> NoDup (offered_items c uo) -> 0 < cutoff ->
  NoDup recs /\ length recs <= cutoff.
Proof.
  unfold ranking. destruct (collect _ _ _) as [l| | |] eqn:E; try discriminate. cbn. intros [= <-] HN Hc.
  destruct (collect_snd _ _ _ _ E HN) as [_ HN2]. split.
  - destruct (push_loop_prefix (sort_by pair_lt l) 0 (min cutoff (length l))) as [r Er].
    assert (NoDup (map snd (sort_by pair_lt l))) as X.
    { eapply Permutation_NoDup; [|exact HN2]. apply Permutation_map. symmetry. apply sort_by_perm. }
    rewrite Er in X. clear -X. induction (push_loop _ _ _) as [|a f IH]; [constructor|]. cbn in X. inversion X as [|? ? Hni HN]; subst.
    constructor; [|apply IH; auto]. intros Hin; apply Hni, in_or_app; auto.
  - destruct l as [|p l]; [cbn; lia|]. etransitivity; [apply push_loop_length; cbn; lia|]. lia.
Qed.
Lemma nodup_bounded n (l : list nat) : NoDup l -> (forall i, In i l -> i < n) -> length l <= n.
Proof. intros H1 H2. rewrite <- (seq_length n 0). apply NoDup_incl_length; [exact H1|]. intros i Hi. apply in_seq. specialize (H2 i Hi). lia. Qed.

Record core_ok (n : nat) (c : core) : Prop := {
  co_items : c_n_items c = n;
  co_offered : forall uo, NoDup (offered_items c uo);
  co_gt : forall uo, NoDup (gt_set c uo) /\ length (gt_set c uo) <= n }.
Lemma make_core_facts rows n recs c : rows_ok n rows -> make_core rows n recs = Ok c -> core_ok n c.
Proof.
  intros HR Hc. apply make_core_iff in Hc as [-> [_ HF]]. split; [reflexivity| |].
  - intros uo. unfold offered_items. cbn [c_recs c_n_items].
    assert (forall r, In r recs -> NoDup (sort_by Nat.ltb r)) as K.
    { intros r Hr. eapply Permutation_NoDup; [symmetry; apply sort_by_perm|]. rewrite Forall_forall in HF. apply (HF r Hr). }
    destruct recs as [|r [|r2 recs]]; cbn [map]; [apply seq_NoDup|apply K; now left|].
    destruct (Nat.lt_ge_cases uo (length (r :: r2 :: recs))) as [L|L].
    + change (sort_by Nat.ltb r :: sort_by Nat.ltb r2 :: map (sort_by Nat.ltb) recs) with (map (sort_by Nat.ltb) (r :: r2 :: recs)).
      rewrite (nth_indep _ [] (sort_by Nat.ltb [])) by (rewrite map_length; exact L). rewrite map_nth. apply K, nth_In, L.
    + rewrite nth_overflow by (cbn in *; rewrite map_length; lia). constructor.
  - intros uo. assert (NoDup (gt_set (mkCore rows n (map (sort_by Nat.ltb) recs)) uo)) as N.
    { unfold gt_set. cbn [c_recs]. destruct (map (sort_by Nat.ltb) recs) as [|r [|r2 l]]; apply NoDup_nodup. }
    split; [exact N|]. apply nodup_bounded; [exact N|]. intros i Hi. apply gt_set_in in Hi as [Hi _]; [|exact HR].
    destruct (rows_ok_nth n rows uo HR) as [_ X]. rewrite Forall_forall in X. apply X, Hi.
Qed.
Lemma table_facts n c k sched : core_ok n c ->
  Forall (fun gt => NoDup gt /\ length gt <= n) (cache_X_map c k sched).
Proof.
  intros HC. unfold cache_X_map, cache_pool. apply (pool_shared_inv _ _ _ _ (Forall (fun gt => NoDup gt /\ length gt <= n))).
  - intros r s Hs. clear sched. pose proof (co_gt _ _ HC r) as G. revert r G. generalize (gt_set c) as f. intros f r G. revert r G.
    assert (forall r y, NoDup y /\ length y <= n -> Forall (fun gt => NoDup gt /\ length gt <= n) (update_nth s r y)) as X.
    { induction Hs as [|a s Ha Hs IH]; intros [|r] y Hy; cbn; constructor; auto. }
    intros r G. apply X, G.
  - cbn. apply Forall_forall. intros x Hx. apply repeat_spec in Hx. subst. split; [constructor|cbn; lia].
Qed.

(** * The evaluator *)
Section Sim.
Variable B : positive.
Variable rnd : Q -> Q.
Hypothesis FP : fp_rounding B rnd.
Variable n : nat.
Variable disc : nat -> Q.
Hypothesis HT : table_ok B rnd n disc.
Hypothesis Hn : (Z.of_nat n <= Zpos B)%Z.
Local Notation SIM := (sim B n).

Lemma sim_row c table data cutoff offset rwc u a a' : core_ok n c -> Forall (fun gt => NoDup gt /\ length gt <= n) table ->
  0 < cutoff -> cutoff <= n -> orel (SIM cutoff 0) a a' ->
  orel (SIM cutoff 0) (row_work disc c table data cutoff offset rwc u a) (rrow_work rnd disc c table data cutoff offset rwc u a').
Proof.
  intros HC Ht H0 Hc Ha. unfold row_work, rrow_work. eapply orel_bind; [exact Ha|]. intros m m' Hm. cbn zeta.
  destruct (nth_error table (u + offset)) as [gt|] eqn:E; [|reflexivity]. apply nth_error_In in E. rewrite Forall_forall in Ht. destruct (Ht gt E) as [T1 T2].
  pose proof (sim_increment B n cutoff 0 m m' Hm) as HS. destruct gt as [|g0 gt]; [exact HS|].
  destruct (ranking c data u (u + offset) cutoff) as [recs| | |] eqn:Er; try (cbn; auto; fail). cbn [obind].
  destruct (ranking_facts _ _ _ _ _ _ Er (co_offered _ _ HC _) H0) as [R1 R2].
  apply (sim_update B rnd FP n disc HT Hn); auto; [discriminate|]. cbn. pose proof (s_le _ _ _ _ _ _ Hm). lia.
Qed.

Lemma sim_workers cutoff ws ws' : Forall2 (wrel (orel (SIM cutoff 0))) ws ws' -> forall j m m', SIM cutoff j m m' ->
  orel (SIM cutoff (j + length ws)) (ofold (fun a w => omap (merge a) (w_acc w)) ws m) (ofold (fun a w => omap (rmerge rnd a) (w_acc w)) ws' m').
Proof.
  induction 1 as [|w w' ws ws' [_ Hw] H IH]; intros j m m' Hm; cbn [ofold length].
  - rewrite Nat.add_0_r. exact Hm.
  - eapply orel_bind with (R := SIM cutoff (S j)).
    + unfold omap. eapply orel_bind; [exact Hw|]. intros a b Hab. cbn. pose proof (sim_merge B rnd FP n cutoff j 0 m m' a b Hm Hab) as X.
      rewrite Nat.max_0_r in X. exact X.
    + intros a b Hab. rewrite <- Nat.add_succ_comm. apply IH, Hab.
Qed.

Lemma sim_get_metrics c s cutoff offset k rwc x : core_ok n c ->
  orel (SIM cutoff k) (get_metrics disc c s cutoff offset k rwc x) (rget_metrics rnd disc c s cutoff offset k rwc x).
Proof.
  intros HC. unfold get_metrics, rget_metrics, check_arg, await. cbv zeta. destruct (0 <? k); [|reflexivity].
  destruct (completed (cache_pool _ _ _)); [|exact I]. destruct (offset <? _); [|reflexivity]. destruct (offset + _ <=? _); [|reflexivity].
  destruct (Nat.ltb_spec 0 cutoff) as [H0|_]; [|reflexivity]. rewrite (co_items _ _ HC). destruct (Nat.leb_spec cutoff n) as [Hc|_]; [|reflexivity].
  set (table := cache_X_map _ _ _).
  assert (prel (orel (SIM cutoff 0)) (metric_pool disc c table s cutoff offset k rwc (x_sched x)) (rmetric_pool rnd disc c table s cutoff offset k rwc (x_sched x))) as HP.
  { unfold metric_pool, rmetric_pool. apply run_pool_sim.
    - intros r a a' Ha. apply sim_row; auto. apply table_facts, HC.
    - apply init_pool_sim. rewrite (co_items _ _ HC). apply (sim_empty B rnd FP). }
  rewrite (completed_sim _ _ _ HP). destruct (completed (rmetric_pool _ _ _ _ _ _ _ _ _ _)); [|exact I].
  destruct HP as (_ & _ & HW).
  assert (length (p_workers (metric_pool disc c table s cutoff offset k rwc (x_sched x))) = k) as L.
  { unfold metric_pool. rewrite run_pool_length. cbn. apply repeat_length. }
  pose proof (sim_workers cutoff _ _ HW 0 _ _ (sim_empty B rnd FP n cutoff 0)) as X. rewrite L in X. exact X.
Qed.

(** All cutoffs at once. *)
Inductive sims (j : nat) : list nat -> list metrics -> list metrics -> Prop :=
| sims_nil : sims j [] [] []
| sims_cons c m m' cs ms ms' : SIM c j m m' -> sims j cs ms ms' -> sims j (c :: cs) (m :: ms) (m' :: ms').
Lemma sims_empty j cs : sims j cs (map (fun _ => empty_metrics n) cs) (map (fun _ => empty_metrics n) cs).
Proof. induction cs; cbn; constructor; auto. apply (sim_empty B rnd FP). Qed.
Lemma sims_weaken j k cs ms ms' : j <= k -> sims j cs ms ms' -> sims k cs ms ms'.
Proof. intros L. induction 1; constructor; auto. eapply (sim_weaken B rnd FP); eauto. Qed.

Section Ev.
Variable ev : evaluator.
Hypothesis HC : core_ok n (e_core ev).
Hypothesis Hitems : e_n_items ev = n.
Local Notation nt := (e_n_threads ev).

Lemma sims_merge d begin xs j cs ms ms' : sims (nt + j) cs ms ms' -> forall k,
  orel (sims (nt + S j) cs) (merge_cutoffs disc ev d begin xs k cs ms) (rmerge_cutoffs rnd disc ev d begin xs k cs ms').
Proof.
  induction 1 as [|c m m' cs ms ms' Hm H IH]; intros k; cbn [merge_cutoffs rmerge_cutoffs]; [constructor|].
  eapply orel_bind; [apply sim_get_metrics, HC|]. intros r r' Hr. unfold omap. eapply orel_bind; [apply IH|].
  intros l l' Hl. cbn. constructor; [|exact Hl].
  pose proof (sim_merge B rnd FP n c _ _ _ _ _ _ Hm Hr) as X. eapply (sim_weaken B rnd FP); [|exact X]. lia.
Qed.

Lemma sims_chunks mask cs xs chunks : forall j ci start ms ms', j <= start -> sims (nt + j) cs ms ms' ->
  orel (fun a b => fst a = fst b /\ sims (nt + fst a) cs (snd a) (snd b))
       (chunk_loop disc ev mask cs xs ci start chunks ms) (rchunk_loop rnd disc ev mask cs xs ci start chunks ms').
Proof.
  induction chunks as [|d chunks IH]; intros j ci start ms ms' Hj H; cbn [chunk_loop rchunk_loop].
  - split; [reflexivity|]. cbn [fst snd]. eapply sims_weaken; [|exact H]. lia.
  - destruct (negb _); [reflexivity|]. destruct (_ <? _); [reflexivity|].
    destruct (Nat.eqb_spec (length (d_rows d)) 0) as [E|E]; [eapply IH; eauto|].
    apply orel_eq. intros d'. eapply orel_bind; [apply sims_merge, H|]. intros a b Hab. eapply (IH (S j)); [lia|exact Hab].
Qed.

Lemma sims_model md cs xs block_end starts : forall j ci ms ms', sims (nt + j) cs ms ms' ->
  orel (sims (nt + (j + length starts)) cs)
       (model_loop disc ev md cs xs block_end ci starts ms) (rmodel_loop rnd disc ev md cs xs block_end ci starts ms').
Proof.
  induction starts as [|s starts IH]; intros j ci ms ms' H; cbn [model_loop rmodel_loop length].
  - rewrite Nat.add_0_r. exact H.
  - apply orel_eq. intros d'. eapply orel_bind; [apply sims_merge, H|]. intros a b Hab. rewrite <- Nat.add_succ_comm. apply IH, Hab.
Qed.
End Ev.

Lemma sims_cold ce md cs xs block_end starts : core_ok n (e_core (ce_base ce)) -> e_n_items (ce_base ce) = n ->
  forall scorer j ci ms ms', sims (e_n_threads (ce_base ce) + j) cs ms ms' ->
  orel (sims (e_n_threads (ce_base ce) + (j + length starts)) cs)
       (cold_loop disc ce md cs xs scorer block_end ci starts ms) (rcold_loop rnd disc ce md cs xs scorer block_end ci starts ms').
Proof.
  intros HC Hitems. induction starts as [|s starts IH]; intros scorer j ci ms ms' H; cbn [cold_loop rcold_loop length].
  - rewrite Nat.add_0_r. exact H.
  - destruct (match scorer with Some _ => _ | None => _ end) as [d scorer'].
    apply orel_eq. intros d'. eapply orel_bind; [apply (sims_merge _ HC Hitems), H|]. intros a b Hab. rewrite <- Nat.add_succ_comm. apply IH, Hab.
Qed.
End Sim.
