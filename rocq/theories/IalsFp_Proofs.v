From Coq Require Import QArith.
From Verif Require Import Base Sched_Model Sched_Proofs SchedOne_Proofs IalsFp_Model IalsFp_Spec.
Local Open Scope nat_scope.

(** ** Loops over rows *)
Section Table.
Context {R : Type}.
Variable f : nat -> R -> outcome R.
Definition rows_ok (t t' : list R) : Prop :=
  length t' = length t /\ forall i r, nth_error t i = Some r -> exists r', f i r = Ok r' /\ nth_error t' i = Some r'.

Lemma rows_ok_fun t a b : rows_ok t a -> rows_ok t b -> a = b.
Proof.
  intros [La Ha] [Lb Hb].
  assert (H : forall i, nth_error a i = nth_error b i).
  { intros i. destruct (nth_error t i) as [r|] eqn:E.
    - destruct (Ha _ _ E) as (x & Hx & ->). destruct (Hb _ _ E) as (y & Hy & ->). congruence.
    - apply nth_error_None in E. rewrite (proj2 (nth_error_None a i)), (proj2 (nth_error_None b i)) by lia. reflexivity. }
  clear -H. revert b H. induction a as [|x a IH]; intros [|y b] H; auto.
  - specialize (H 0). discriminate.
  - specialize (H 0). discriminate.
  - pose proof (H 0) as H0. cbn in H0. injection H0 as ->. f_equal. apply IH. intros i. exact (H (S i)).
Qed.

Let rfold (l : list nat) (s : outcome (list R)) := fold_left (fun s i => row_work f i s) l s.
Lemma rfold_ok_start l s t' : rfold l s = Ok t' -> exists t, s = Ok t.
Proof.
  revert s. induction l as [|i l IH]; intros s H; cbn in H; [eauto|].
  destruct (IH _ H) as (t1 & H1). unfold row_work in H1. destruct s; cbn in H1; try discriminate. eauto.
Qed.
Lemma rfold_ok l t t' : NoDup l -> (forall i, In i l -> i < length t) -> rfold l (Ok t) = Ok t' ->
  length t' = length t /\
  (forall i r, nth_error t i = Some r -> In i l -> exists r', f i r = Ok r' /\ nth_error t' i = Some r') /\
  (forall i, ~ In i l -> nth_error t' i = nth_error t i).
Proof.
  revert t. induction l as [|i l IH]; intros t Hn Hl H; cbn in H.
  - injection H as <-. repeat split; auto. intros i r _ [].
  - inversion Hn as [|? ? Hi Hn']; subst.
    destruct (rfold_ok_start _ _ _ H) as (t1 & H1). rewrite H1 in H. unfold row_work in H1. cbn in H1.
    destruct (nth_error t i) as [r|] eqn:Er; [|discriminate].
    destruct (f i r) as [r'| | |] eqn:Ef; cbn in H1; try discriminate. injection H1 as <-.
    destruct (IH (update_nth t i r') Hn') as (L & A & B); [intros j Hj; rewrite update_nth_length; apply Hl; cbn; auto|exact H|].
    rewrite update_nth_length in L. split; [exact L|]. split.
    + intros j q Hj [<-|Hin].
      * rewrite Er in Hj. injection Hj as <-. exists r'. split; auto. rewrite B by exact Hi.
        eapply nth_error_update_nth_same; eassumption.
      * apply A; auto. rewrite nth_error_update_nth_other by congruence. exact Hj.
    + intros j Hj. rewrite B by (intros X; apply Hj; cbn; auto). apply nth_error_update_nth_other. intros ->. apply Hj; cbn; auto.
Qed.
Lemma rfold_total l t : NoDup l -> (forall i, In i l -> exists r r', nth_error t i = Some r /\ f i r = Ok r') ->
  exists t', rfold l (Ok t) = Ok t'.
Proof.
  revert t. induction l as [|i l IH]; intros t Hn Hl; cbn; [eauto|].
  inversion Hn as [|? ? Hi Hn']; subst. destruct (Hl i) as (r & r' & Er & Ef); [cbn; auto|].
  rewrite Er, Ef. cbn. apply IH; auto. intros j Hj. destruct (Hl j) as (q & q' & Eq & Fq); [cbn; auto|].
  exists q, q'. split; auto. rewrite nth_error_update_nth_other; auto. intros ->. auto.
Qed.

Lemma table_ok nt sched t t' : 1 <= nt -> step_table f nt sched t = Ok t' -> rows_ok t t'.
Proof.
  unfold step_table. intros Hnt.
  destruct (completed _) eqn:Hc; [|discriminate]. intros H.
  destruct (pool_exactly_once _ _ _ _ nt tt (Ok t) sched (le_n 1) Hnt Hc) as (logs & glog & _ & _ & Hg & _ & Hs).
  rewrite Hs in H. change (rfold glog (Ok t) = Ok t') in H.
  apply rfold_ok in H.
  - destruct H as (L & A & _). split; [exact L|]. intros i r Hi. apply A; auto.
    apply (Permutation_in _ (Permutation_sym Hg)), in_seq.
    assert (i < length t) by (apply nth_error_Some; congruence). lia.
  - apply (Permutation_NoDup (Permutation_sym Hg)), seq_NoDup.
  - intros i Hi. apply (Permutation_in _ Hg), in_seq in Hi. lia.
Qed.
Lemma table_returns nt sched t t' : 1 <= nt -> fair_for (length t) nt sched -> rows_ok t t' ->
  step_table f nt sched t = Ok t'.
Proof.
  intros Hnt Hf Hok. assert (H : exists t1, step_table f nt sched t = Ok t1).
  { unfold step_table. rewrite fair_completes by (auto; lia).
    pose proof (fair_completes (length t) 1 (fun _ a => a) (row_work f) (le_n 1) nt tt (Ok t) sched Hf) as Hc.
    destruct (pool_exactly_once _ _ _ _ nt tt (Ok t) sched (le_n 1) Hnt Hc) as (logs & glog & _ & _ & Hg & _ & Hs).
    rewrite Hs. apply rfold_total.
    - apply (Permutation_NoDup (Permutation_sym Hg)), seq_NoDup.
    - intros i Hi. apply (Permutation_in _ Hg), in_seq in Hi.
      destruct (nth_error t i) as [r|] eqn:E; [|apply nth_error_None in E; lia].
      destruct (proj2 Hok _ _ E) as (r' & Hr & _). eauto. }
  destruct H as (t1 & H). rewrite H. f_equal. exact (rows_ok_fun _ _ _ (table_ok _ _ _ _ Hnt H) Hok).
Qed.
(** Whatever one run of the loop returns every finished run returns. *)
Lemma table_sub nt nt' sched sched' t t' : 1 <= nt -> 1 <= nt' -> fair_for (length t) nt' sched' ->
  step_table f nt sched t = Ok t' -> step_table f nt' sched' t = Ok t' /\ length t' = length t.
Proof.
  intros H1 H2 Hf H. apply table_ok in H; auto. split; [apply table_returns; auto|apply H].
Qed.
End Table.

Lemma obind_ok {A B} (x : outcome A) (g : A -> outcome B) b : obind x g = Ok b -> exists a, x = Ok a /\ g a = Ok b.
Proof. destruct x; cbn; try discriminate. eauto. Qed.
Lemma omap_ok {A B} (g : A -> B) (x : outcome A) b : omap g x = Ok b -> exists a, x = Ok a /\ g a = b.
Proof. destruct x; cbn; try discriminate. intros [= <-]. eauto. Qed.

Section Machine.
Variable M : machine.

(** ** The solvers *)
Section Solver.
Variables (nt nt' : nat).
Hypothesis Hnt : 1 <= nt.
Hypothesis Hnt' : 1 <= nt'.
Lemma range_sub up sched sched' lo hi V P X st st' : fair_for (length (fst st)) nt' sched' -> length (snd st) = length (fst st) ->
  step_range M up nt sched lo hi V P X st = Ok st' ->
  step_range M up nt' sched' lo hi V P X st = Ok st' /\ length (fst st') = length (fst st) /\ length (snd st') = length (fst st).
Proof.
  unfold step_range. intros Hf Hl H. apply omap_ok in H. destruct H as (t & H & <-).
  eapply (table_sub _ nt nt' sched sched') in H; auto.
  - destruct H as [H L]. rewrite combine_length, map_length, Hl, Nat.min_id in L.
    rewrite H. cbn [omap obind fst snd]. split; [reflexivity|]. rewrite !map_length, combine_length, L. split; [lia|exact eq_refl].
  - rewrite combine_length, map_length, Hl, Nat.min_id. exact Hf.
Qed.
Lemma prediction_sub sched sched' V X T pr : fair_for (length T) nt' sched' ->
  prediction M nt sched V X T = Ok pr -> prediction M nt' sched' V X T = Ok pr /\ length pr = length T.
Proof.
  unfold prediction. intros Hf H. eapply (table_sub _ nt nt' sched sched') in H; auto.
  - rewrite map_length in H. exact H.
  - rewrite map_length. exact Hf.
Qed.
Lemma dim_loop_sub K dim sch sch' V P X fuel : forall cursor c st st',
  (forall a, fair_for (length (fst st)) nt' (sch' a)) -> length (snd st) = length (fst st) ->
  dim_loop M K dim nt sch V P X fuel cursor c st = Ok st' ->
  dim_loop M K dim nt' sch' V P X fuel cursor c st = Ok st' /\ length (fst st') = length (fst st).
Proof.
  induction fuel as [|fuel IH]; intros cursor c st st' Hf Hl H; cbn [dim_loop] in *.
  - destruct (cursor <? K); [discriminate|]. injection H as <-. auto.
  - destruct (cursor <? K); [|injection H as <-; auto].
    apply obind_ok in H. destruct H as (st1 & H1 & H).
    apply (range_sub _ _ (sch' c)) in H1; auto. destruct H1 as (H1 & L1 & L2). rewrite H1. cbn [obind].
    rewrite <- L1. apply IH; [rewrite L1; exact Hf|congruence|exact H].
Qed.
Lemma icd_loop_sub sch sch' V P X ks : forall st st',
  (forall a, fair_for (length (fst st)) nt' (sch' a)) -> length (snd st) = length (fst st) ->
  icd_loop M nt sch V P X ks st = Ok st' ->
  icd_loop M nt' sch' V P X ks st = Ok st' /\ length (fst st') = length (fst st).
Proof.
  induction ks as [|k ks IH]; intros st st' Hf Hl H; cbn [icd_loop] in *.
  - injection H as <-. auto.
  - apply obind_ok in H. destruct H as (st1 & H1 & H).
    apply (range_sub _ _ (sch' (S k))) in H1; auto. destruct H1 as (H1 & L1 & L2). rewrite H1. cbn [obind].
    rewrite <- L1. apply IH; [rewrite L1; exact Hf|congruence|exact H].
Qed.
Lemma repeat_sub (g g' : nat -> list (list (num M)) -> outcome (list (list (num M)))) k :
  (forall it T T', length T = k -> g it T = Ok T' -> g' it T = Ok T' /\ length T' = k) ->
  forall iter c T T', length T = k -> repeat_pass g iter c T = Ok T' -> repeat_pass g' iter c T = Ok T' /\ length T' = k.
Proof.
  intros Hg. induction iter as [|iter IH]; intros c T T' Hl H; cbn [repeat_pass] in *.
  - injection H as <-. auto.
  - apply obind_ok in H. destruct H as (T1 & H1 & H). destruct (Hg _ _ _ Hl H1) as [-> L1]. cbn [obind]. apply IH; auto.
Qed.
End Solver.

Lemma solver_sub c nt' sch sch' V P X T T' : 1 <= c_threads c -> 1 <= nt' -> all_fair (length T) nt' sch' ->
  solver_step M c sch V P X T = Ok T' ->
  solver_step M (with_threads c nt') sch' V P X T = Ok T' /\ length T' = length T.
Proof.
  intros H1 H2 Hf. unfold solver_step, step_cholesky, step_cg. cbn [with_threads c_solver c_cg_steps c_threads c_subspace c_K c_iterations].
  destruct (c_solver c).
  - apply table_sub; auto.
  - apply table_sub; auto.
  - destruct (1 <? c_subspace c); apply repeat_sub with (k := length T); auto; intros it T1 T2 L1 HP.
    + unfold ialspp_pass in *. apply obind_ok in HP. destruct HP as (pr & Hp & HP). apply omap_ok in HP. destruct HP as (st & HP & <-).
      apply (prediction_sub _ nt' H1 H2 _ (sch' it 0)) in Hp; [|rewrite L1; apply Hf]. destruct Hp as [-> Lp]. cbn [obind].
      apply (dim_loop_sub _ nt' H1 H2 _ _ _ (sch' it)) in HP; [|cbn; rewrite L1; intros; apply Hf|exact Lp].
      destruct HP as [-> L]. cbn in *. split; [reflexivity|congruence].
    + unfold icd_pass in *. apply obind_ok in HP. destruct HP as (pr & Hp & HP). apply omap_ok in HP. destruct HP as (st & HP & <-).
      apply (prediction_sub _ nt' H1 H2 _ (sch' it 0)) in Hp; [|rewrite L1; apply Hf]. destruct Hp as [-> Lp]. cbn [obind].
      apply (icd_loop_sub _ nt' H1 H2 _ (sch' it)) in HP; [|cbn; rewrite L1; intros; apply Hf|exact Lp].
      destruct HP as [-> L]. cbn in *. split; [reflexivity|congruence].
Qed.

(** ** The Gram matrix *)
(** [prepare_p] with [nt'] workers returns what it returns with [nt]. *)
Definition gram_stable (nt nt' : nat) : Prop := forall V sp sp' P,
  prepare_p M nt sp V = Ok P -> fair_for (length V) nt' sp' -> prepare_p M nt' sp' V = Ok P.

Lemma gram_one : gram_stable 1 1.
Proof.
  intros V sp sp' P. unfold prepare_p. cbn [Nat.eqb]. intros H Hf.
  pose proof (fair_completes (length V) 16 (gram_work M V) (fun _ s => s) ltac:(lia) 1 (p_zero M) tt sp' Hf) as Hc'.
  rewrite Hc'.
  destruct (completed _) eqn:Hc in H; [|discriminate]. injection H as <-.
  apply one_worker in Hc; [|lia]. apply one_worker in Hc'; [|lia].
  assert (HF : forall ws, fold_left (fun P w => p_add M P (w_acc w)) ws (p_zero M) = fold_left (p_add M) (map (@w_acc _) ws) (p_zero M)).
  { intros ws. generalize (p_zero M). induction ws; cbn; auto. }
  rewrite !HF, Hc, Hc'. reflexivity.
Qed.

Section Exact.
Hypothesis HE : exact_sums M.
Definition psum (l : list (pmat M)) := fold_right (p_add M) (p_zero M) l.
Lemma psum_cons x l : psum (x :: l) = p_add M x (psum l).
Proof. reflexivity. Qed.
Lemma psum_nil : psum [] = p_zero M.
Proof. reflexivity. Qed.
Lemma e_zero_r a : p_add M a (p_zero M) = a.
Proof. rewrite (e_comm _ HE). apply (e_zero _ HE). Qed.
Lemma sum_app a b : psum (a ++ b) = p_add M (psum a) (psum b).
Proof. induction a as [|x a IH]; cbn [app]; [rewrite psum_nil; symmetry; apply (e_zero _ HE)|]. rewrite !psum_cons, IH. apply (e_assoc _ HE). Qed.
Lemma sum_perm a b : Permutation a b -> psum a = psum b.
Proof.
  induction 1; rewrite ?psum_cons; auto; try congruence.
  rewrite !(e_assoc _ HE), (e_comm _ HE y x). reflexivity.
Qed.
Lemma fold_sum l a : fold_left (p_add M) l a = p_add M a (psum l).
Proof. revert a. induction l as [|x l IH]; intros a; cbn [fold_left]; [rewrite psum_nil; symmetry; apply e_zero_r|]. rewrite IH, psum_cons. symmetry. apply (e_assoc _ HE). Qed.
Definition part V i := if i mod 16 =? 0 then block_gram M (firstn (min (i + 16) (length V) - i) (skipn i V)) else p_zero M.
Lemma log_sum V log a : fold_left (fun a i => gram_work M V i a) log a = p_add M a (psum (map (part V) log)).
Proof.
  revert a. induction log as [|i log IH]; intros a; cbn [fold_left map]; [rewrite psum_nil; symmetry; apply e_zero_r|].
  rewrite IH, psum_cons. unfold gram_work, part. destruct (i mod 16 =? 0); [symmetry; apply (e_assoc _ HE)|].
  rewrite (e_zero _ HE). reflexivity.
Qed.
Lemma gram_value nt sp V P : prepare_p M nt sp V = Ok P -> P = p_scale M (psum (map (part V) (seq 0 (length V)))).
Proof.
  unfold prepare_p. destruct (nt =? 0) eqn:E0; [discriminate|]. apply Nat.eqb_neq in E0.
  destruct (completed _) eqn:Hc; [|discriminate]. intros [= <-]. f_equal.
  destruct (pool_exactly_once (length V) 16 (gram_work M V) (fun _ s => s) nt (p_zero M) tt sp ltac:(lia) ltac:(lia) Hc) as (logs & glog & _ & Hp & _ & Ha & _).
  assert (HF : forall ws, fold_left (fun P w => p_add M P (w_acc w)) ws (p_zero M) = fold_left (p_add M) (map (@w_acc _) ws) (p_zero M)).
  { intros ws. generalize (p_zero M). induction ws; cbn; auto. }
  rewrite HF, Ha, fold_sum, (e_zero _ HE).
  rewrite <- (sum_perm _ _ (Permutation_map (part V) Hp)).
  clear -HE. induction logs as [|l logs IH]; cbn [map concat]; [reflexivity|].
  rewrite psum_cons, IH, map_app, sum_app. f_equal. etransitivity; [exact (log_sum V l (p_zero M))|]. apply (e_zero _ HE).
Qed.
Lemma gram_exact nt nt' : 1 <= nt' -> gram_stable nt nt'.
Proof.
  intros Hn V sp sp' P H Hf. rewrite (gram_value _ _ _ _ H).
  assert (H' : exists P', prepare_p M nt' sp' V = Ok P').
  { unfold prepare_p. rewrite (proj2 (Nat.eqb_neq nt' 0)) by lia. 
    rewrite (fair_completes (length V) 16 (gram_work M V) (fun _ s => s) ltac:(lia) nt' (p_zero M) tt sp' Hf). eauto. }
  destruct H' as (P' & H'). rewrite H'. f_equal. exact (gram_value _ _ _ _ H').
Qed.
End Exact.

(** ** Training *)
Lemma step_sub c nt' d es es' t t' : 1 <= c_threads c -> 1 <= nt' -> gram_stable (c_threads c) nt' ->
  epoch_fair (length (t_user M t)) (length (t_item M t)) nt' es' ->
  trainer_step M c d es t = Ok t' ->
  trainer_step M (with_threads c nt') d es' t = Ok t' /\ length (t_user M t') = length (t_user M t) /\ length (t_item M t') = length (t_item M t).
Proof.
  intros H1 H2 HG (F1 & F2 & F3 & F4) H. unfold trainer_step in *.
  apply obind_ok in H. destruct H as (P & HP & H). apply obind_ok in H. destruct H as (U & HU & H).
  apply obind_ok in H. destruct H as (P' & HP' & H). apply omap_ok in H. destruct H as (I & HI & <-).
  cbn [with_threads c_threads]. rewrite (HG _ _ _ _ HP F1). cbn [obind].
  apply (solver_sub c nt' _ (s_user es')) in HU; auto. destruct HU as [-> LU]. cbn [obind].
  rewrite (HG _ _ (s_prepare_item es') _ HP') by (rewrite LU; exact F3). cbn [obind].
  apply (solver_sub c nt' _ (s_item es')) in HI; auto. destruct HI as [-> LI]. cbn. auto.
Qed.
Lemma train_sub c nt' d : 1 <= c_threads c -> 1 <= nt' -> gram_stable (c_threads c) nt' -> forall ess ess' t t',
  length ess' = length ess ->
  Forall (epoch_fair (length (t_user M t)) (length (t_item M t)) nt') ess' ->
  train M c d ess t = Ok t' -> train M (with_threads c nt') d ess' t = Ok t'.
Proof.
  intros H1 H2 HG. induction ess as [|es ess IH]; intros [|es' ess'] t t' Hl HF H; try discriminate; cbn in *; [exact H|].
  inversion HF as [|? ? HF1 HF2]; subst. apply obind_ok in H. destruct H as (t1 & H & HT).
  apply (step_sub c nt' d es es') in H; auto. destruct H as (-> & L1 & L2). cbn.
  apply IH; auto. rewrite L1, L2. exact HF2.
Qed.
(** A fair schedule for everything. *)
Definition round_robin (n nt : nat) : list nat := concat (repeat (seq 0 nt) (3 * n + 1)).
Lemma rr_fair k n nt : k <= n -> fair_for k nt (round_robin n nt).
Proof.
  intros Hk t Ht. unfold round_robin.
  assert (H : forall j, count_occ Nat.eq_dec (concat (repeat (seq 0 nt) j)) t = j).
  { induction j; cbn; [reflexivity|]. rewrite count_occ_app, IHj.
    rewrite (proj1 (NoDup_count_occ' Nat.eq_dec (seq 0 nt)) (seq_NoDup _ _) t) by (apply in_seq; lia). reflexivity. }
  rewrite H. lia.
Qed.
Lemma train_agree c nt' d ess ess' t t1 t2 : 1 <= c_threads c -> 1 <= nt' ->
  gram_stable (c_threads c) (c_threads c) -> gram_stable nt' (c_threads c) ->
  length ess' = length ess ->
  train M c d ess t = Ok t1 -> train M (with_threads c nt') d ess' t = Ok t2 -> t1 = t2.
Proof.
  intros H1 H2 G1 G2 Hl E1 E2.
  set (k := max (length (t_user M t)) (length (t_item M t))). set (s := round_robin k (c_threads c)).
  set (e0 := mkSchedules s (fun _ _ => s) s (fun _ _ => s)). set (ess0 := map (fun _ => e0) ess).
  assert (HF : Forall (epoch_fair (length (t_user M t)) (length (t_item M t)) (c_threads c)) ess0).
  { apply Forall_forall. intros e He. apply in_map_iff in He. destruct He as (? & <- & _).
    unfold epoch_fair, all_fair. cbn. repeat split; intros; apply rr_fair; unfold k; lia. }
  apply (train_sub c (c_threads c) d H1 H1 G1 ess ess0) in E1; [|unfold ess0; apply map_length|exact HF].
  apply (train_sub (with_threads c nt') (c_threads c) d H2 H1 G2 ess' ess0) in E2;
    [|unfold ess0; rewrite map_length; auto|exact HF].
  change (with_threads (with_threads c nt') (c_threads c)) with (with_threads c (c_threads c)) in E2. congruence.
Qed.

Theorem one_thread c d ess ess' t t1 t2 : c_threads c = 1 -> length ess' = length ess ->
  train M c d ess t = Ok t1 -> train M c d ess' t = Ok t2 -> t1 = t2.
Proof.
  intros H1 Hl E1 E2. assert (Ec : with_threads c 1 = c) by (unfold with_threads; rewrite <- H1; destruct c; reflexivity).
  apply (train_agree c 1 d ess ess' t); try lia; rewrite ?H1, ?Ec; auto using gram_one.
Qed.
Theorem one_thread_returns c d ess ess' t t' : c_threads c = 1 -> length ess' = length ess ->
  Forall (epoch_fair (length (t_user M t)) (length (t_item M t)) 1) ess' ->
  train M c d ess t = Ok t' -> train M c d ess' t = Ok t'.
Proof.
  intros H1 Hl HF E1. assert (Ec : with_threads c 1 = c) by (unfold with_threads; rewrite <- H1; destruct c; reflexivity).
  rewrite <- Ec. apply (train_sub c 1 d ltac:(lia) ltac:(lia)) with (ess := ess); auto. rewrite H1. apply gram_one.
Qed.
Theorem exact_threads c nt' d ess ess' t t1 t2 : exact_sums M -> 1 <= c_threads c -> 1 <= nt' -> length ess' = length ess ->
  train M c d ess t = Ok t1 -> train M (with_threads c nt') d ess' t = Ok t2 -> t1 = t2.
Proof. intros HE H1 H2. apply train_agree; auto using gram_exact. Qed.
Theorem exact_threads_returns c nt' d ess ess' t t' : exact_sums M -> 1 <= c_threads c -> 1 <= nt' -> length ess' = length ess ->
  Forall (epoch_fair (length (t_user M t)) (length (t_item M t)) nt') ess' ->
  train M c d ess t = Ok t' -> train M (with_threads c nt') d ess' t = Ok t'.
Proof. intros HE H1 H2 Hl HF. apply train_sub; auto using gram_exact. Qed.
Theorem given_gram c nt' sch sch' V P X T T1 T2 : 1 <= c_threads c -> 1 <= nt' ->
  solver_step M c sch V P X T = Ok T1 -> solver_step M (with_threads c nt') sch' V P X T = Ok T2 -> T1 = T2.
Proof.
  intros H1 H2 E1 E2. set (s := fun _ _ : nat => round_robin (length T) (c_threads c)).
  assert (HF : all_fair (length T) (c_threads c) s) by (intros a b; apply rr_fair; lia).
  apply (solver_sub c (c_threads c) sch s) in E1; auto.
  apply (solver_sub (with_threads c nt') (c_threads c) sch' s) in E2; auto.
  change (with_threads (with_threads c nt') (c_threads c)) with (with_threads c (c_threads c)) in E2.
  destruct E1 as [E1 _], E2 as [E2 _]. congruence.
Qed.
Theorem given_gram_returns c nt' sch sch' V P X T T' : 1 <= c_threads c -> 1 <= nt' -> all_fair (length T) nt' sch' ->
  solver_step M c sch V P X T = Ok T' -> solver_step M (with_threads c nt') sch' V P X T = Ok T'.
Proof. intros H1 H2 HF H. eapply solver_sub; eauto. Qed.
Theorem transform_one c sp sp' sch sch' t X T1 T2 : c_threads c = 1 ->
  transform_user M c sp sch t X = Ok T1 -> transform_user M c sp' sch' t X = Ok T2 -> T1 = T2.
Proof.
  intros H1 E1 E2. unfold transform_user in *. rewrite H1 in *.
  apply obind_ok in E1. destruct E1 as (P1 & HP1 & E1). apply obind_ok in E2. destruct E2 as (P2 & HP2 & E2).
  pose proof (gram_one _ _ (round_robin (length (t_item M t)) 1) _ HP1 (rr_fair _ _ 1 (le_n _))) as G1.
  pose proof (gram_one _ _ (round_robin (length (t_item M t)) 1) _ HP2 (rr_fair _ _ 1 (le_n _))) as G2.
  rewrite G1 in G2. injection G2 as <-.
  assert (Ec : with_threads c 1 = c) by (unfold with_threads; rewrite <- H1; destruct c; reflexivity).
  eapply (given_gram c 1); try lia; [exact E1|rewrite Ec; exact E2].
Qed.

(** ** Start *)
Theorem start_fixed c d j j' : (0 < c_stdev c)%Q -> new_trainer M c d j = new_trainer M c d j'.
Proof.
  intros H. unfold new_trainer, initialize. destruct (Qle_bool (c_stdev c) 0) eqn:E; [|reflexivity].
  apply Qle_bool_iff in E. exfalso. exact (Qlt_not_le _ _ H E).
Qed.
Definition start_row (seed : Z) (stdev : Q) (K i : nat) := map (fun k => draw M seed stdev K (i * K + k)) (seq 0 K).
Lemma start_rows c d j : (0 < c_stdev c)%Q ->
  t_user M (new_trainer M c d j) = map (start_row (c_seed c) (c_stdev c) (c_K c)) (seq 0 (length (d_X M d))) /\
  t_item M (new_trainer M c d j) = map (start_row (c_seed c) (c_stdev c) (c_K c)) (seq 0 (length (d_Xt M d))).
Proof.
  intros H. unfold new_trainer, initialize. destruct (Qle_bool (c_stdev c) 0) eqn:E.
  - apply Qle_bool_iff in E. exfalso. exact (Qlt_not_le _ _ H E).
  - split; reflexivity.
Qed.
Lemma start_nth {A} (f : nat -> A) n i : i < n -> nth_error (map f (seq 0 n)) i = Some (f i).
Proof.
  intros H. rewrite nth_error_map, (nth_error_nth' _ 0) by (rewrite seq_length; assumption). rewrite seq_nth by assumption. reflexivity.
Qed.
Theorem start_equal c c' d d' j j' i : (0 < c_stdev c)%Q -> c_seed c' = c_seed c -> c_stdev c' = c_stdev c -> c_K c' = c_K c ->
  i < length (d_X M d) ->
  length (t_user M (new_trainer M c d j)) = length (d_X M d) /\ length (t_item M (new_trainer M c d j)) = length (d_Xt M d) /\
  exists x, nth_error (t_user M (new_trainer M c d j)) i = Some x /\ length x = c_K c /\
    (i < length (d_Xt M d) -> nth_error (t_item M (new_trainer M c d j)) i = Some x) /\
    (i < length (d_X M d') -> nth_error (t_user M (new_trainer M c' d' j')) i = Some x) /\
    (i < length (d_Xt M d') -> nth_error (t_item M (new_trainer M c' d' j')) i = Some x).
Proof.
  intros H E1 E2 E3 Hi. destruct (start_rows c d j H) as [-> ->].
  destruct (start_rows c' d' j') as [-> ->]; [rewrite E2; exact H|]. rewrite E1, E2, E3, !map_length, !seq_length.
  split; [reflexivity|]. split; [reflexivity|]. exists (start_row (c_seed c) (c_stdev c) (c_K c) i).
  split; [apply start_nth, Hi|]. split; [unfold start_row; rewrite map_length, seq_length; reflexivity|].
  repeat split; apply start_nth.
Qed.
Theorem one_thread_runs c d j j' ess ess' t t' : c_threads c = 1 -> (0 < c_stdev c)%Q -> length ess' = length ess ->
  train M c d ess (new_trainer M c d j) = Ok t -> train M c d ess' (new_trainer M c d j') = Ok t' -> t = t'.
Proof. intros H1 H2 Hl E1 E2. rewrite (start_fixed c d j' j H2) in E2. eapply one_thread; eauto. Qed.

(** ** Scores *)
Lemma nth_error_firstn {A} (l : list A) k i : i < k -> nth_error (firstn k l) i = nth_error l i.
Proof. revert l i. induction k as [|k IH]; intros [|x l] [|i] H; cbn; auto; try lia. apply IH. lia. Qed.
Lemma nth_error_skipn {A} (l : list A) a i : nth_error (skipn a l) i = nth_error l (a + i).
Proof. revert l. induction a as [|a IH]; intros [|x l]; cbn; auto. destruct i; reflexivity. Qed.
Section Scores.
Hypothesis Hshape : forall U V, length (score_block M U V) = length U.
Variables (U V : list (list (num M))) (cs : nat).
Hypothesis Hcs : 1 <= cs.
Let n := length U.
Let blk b := firstn (min (b + cs) n - b) (skipn b U).
Let good (s : list (list (num M))) (r : nat) : Prop :=
  let b := r / cs * cs in nth_error s r = nth_error (score_block M (blk b) V) (r - b).
Lemma blk_length b : b <= n -> length (blk b) = min (b + cs) n - b.
Proof. intros H. unfold blk. rewrite firstn_length, skipn_length. fold n. lia. Qed.
Lemma work_length i s : i < n -> length s = n -> length (score_work M U V cs i s) = n.
Proof.
  intros Hi Hs. unfold score_work. destruct (i mod cs =? 0); [|exact Hs].
  unfold write_rows. fold n. fold (blk i). rewrite !app_length, firstn_length, skipn_length, Hshape, blk_length by lia. lia.
Qed.
Lemma work_same i s r : i < n -> length s = n -> r < n -> i = r / cs * cs -> good (score_work M U V cs i s) r.
Proof.
  intros Hi Hs Hr He. unfold good. rewrite <- He. unfold score_work.
  assert (Hm : i mod cs = 0) by (rewrite He; apply Nat.mod_mul; lia). rewrite Hm. cbn [Nat.eqb].
  unfold write_rows. fold n. fold (blk i).
  assert (Hir : i <= r < i + cs).
  { rewrite He. pose proof (Nat.div_mod r cs ltac:(lia)). pose proof (Nat.mod_upper_bound r cs ltac:(lia)). nia. }
  rewrite nth_error_app2 by (rewrite firstn_length; lia). rewrite firstn_length, Hs.
  replace (min i n) with i by lia. rewrite nth_error_app1; [reflexivity|]. rewrite Hshape, blk_length; lia.
Qed.
Lemma work_other i s r : i < n -> length s = n -> r < n -> i <> r / cs * cs ->
  nth_error (score_work M U V cs i s) r = nth_error s r.
Proof.
  intros Hi Hs Hr Hne. unfold score_work. destruct (i mod cs =? 0) eqn:Em; [|reflexivity]. apply Nat.eqb_eq in Em.
  unfold write_rows. fold n. fold (blk i).
  assert (Hb := blk_length i ltac:(lia)).
  assert (Hout : r < i \/ i + cs <= r).
  { pose proof (Nat.div_mod r cs ltac:(lia)). pose proof (Nat.mod_upper_bound r cs ltac:(lia)).
    pose proof (Nat.div_mod i cs ltac:(lia)) as Hdi. rewrite Em, Nat.add_0_r in Hdi.
    destruct (Nat.lt_trichotomy (i / cs) (r / cs)) as [Hl|[Hl|Hl]].
    - right. nia.
    - exfalso. apply Hne. rewrite Hdi, Hl. lia.
    - left. nia. }
  destruct Hout as [Ho|Ho].
  - rewrite nth_error_app1 by (rewrite firstn_length; lia). rewrite <- (firstn_skipn i s) at 2.
    rewrite nth_error_app1 by (rewrite firstn_length; lia). reflexivity.
  - rewrite nth_error_app2 by (rewrite firstn_length; lia). rewrite firstn_length, Hs.
    replace (min i n) with i by lia. rewrite nth_error_app2 by (rewrite Hshape; lia).
    rewrite Hshape, Hb, nth_error_skipn. f_equal. lia.
Qed.
Lemma work_all glog s : (forall i, In i glog -> i < n) -> length s = n ->
  let s' := fold_left (fun s i => score_work M U V cs i s) glog s in
  length s' = n /\ forall r, r < n -> (In (r / cs * cs) glog -> good s' r) /\ (~ In (r / cs * cs) glog -> nth_error s' r = nth_error s r).
Proof.
  induction glog as [|i glog IH] using rev_ind; intros Hg Hs s'; unfold s'.
  - cbn. split; auto. intros r _. split; [intros []|auto].
  - rewrite fold_left_app. cbn [fold_left]. destruct IH as [L IH]; auto.
    { intros j Hj. apply Hg, in_or_app. auto. }
    assert (Hi : i < n) by (apply Hg, in_or_app; cbn; auto).
    set (s1 := fold_left _ glog s) in *. split; [apply work_length; auto|].
    intros r Hr. destruct (IH r Hr) as [A B]. destruct (Nat.eq_dec i (r / cs * cs)) as [He|He].
    + split; [intros _; apply work_same; auto|]. intros Hn. exfalso. apply Hn, in_or_app. right. cbn. auto.
    + unfold good in *. rewrite work_other by auto. split.
      * intros Hin. apply in_app_or in Hin. destruct Hin as [Hin|[Hin|[]]]; [auto|congruence].
      * intros Hn. apply B. intros Hin. apply Hn, in_or_app. auto.
Qed.
End Scores.

Lemma chunk_pos n nt : 1 <= chunk_size n nt.
Proof. unfold chunk_size. lia. Qed.
(** Row [b + r] of the scores is a row of the product of its chunk. *)
Theorem scores_value nt sched b e t junk S : (forall U V, length (score_block M U V) = length U) -> length junk = e - b ->
  user_scores M nt sched b e t junk = Ok S ->
  length S = e - b /\ forall r, r < e - b ->
    let cs := chunk_size (e - b) nt in
    let lo := r / cs * cs in
    nth_error S r = nth_error (score_block M (firstn (min (lo + cs) (e - b) - lo) (skipn lo (firstn (e - b) (skipn b (t_user M t))))) (t_item M t)) (r - lo).
Proof.
  intros Hshape Hj. unfold user_scores, check_arg. destruct (0 <? nt) eqn:E0; [|discriminate]. apply Nat.ltb_lt in E0.
  destruct (b <=? e) eqn:E1; [|discriminate]. apply Nat.leb_le in E1.
  destruct (e <=? _) eqn:E2; [|discriminate]. apply Nat.leb_le in E2.
  destruct (completed _) eqn:Hc; [|discriminate]. intros [= <-].
  set (U := firstn (e - b) (skipn b (t_user M t))) in *. set (cs := chunk_size (e - b) nt) in *.
  pose proof (chunk_pos (e - b) nt) as Hcs. fold cs in Hcs.
  destruct (pool_exactly_once (e - b) cs (fun _ a => a) (score_work M U (t_item M t) cs) nt tt junk sched Hcs E0 Hc) as (_ & glog & _ & _ & Hg & _ & ->).
  assert (HU : length U = e - b) by (unfold U; rewrite firstn_length, skipn_length; lia).
  destruct (work_all Hshape U (t_item M t) cs Hcs glog junk) as [L A].
  - intros i Hi. rewrite HU. apply (Permutation_in _ Hg), in_seq in Hi. lia.
  - lia.
  - rewrite HU in *. split; [exact L|]. intros r Hr. apply A; auto.
    apply (Permutation_in _ (Permutation_sym Hg)), in_seq. split; [lia|].
    pose proof (Nat.div_mod r cs ltac:(lia)). nia.
Qed.
Lemma nth_error_same {A} (a b : list A) : (forall i, nth_error a i = nth_error b i) -> a = b.
Proof.
  revert b. induction a as [|x a IH]; intros [|y b] H; auto.
  - specialize (H 0). discriminate.
  - specialize (H 0). discriminate.
  - pose proof (H 0) as H0. cbn in H0. injection H0 as ->. f_equal. apply IH. intros i. exact (H (Datatypes.S i)).
Qed.
Theorem scores_same nt sched sched' b e t junk junk' S S' : (forall U V, length (score_block M U V) = length U) ->
  length junk = e - b -> length junk' = e - b ->
  user_scores M nt sched b e t junk = Ok S -> user_scores M nt sched' b e t junk' = Ok S' -> S = S'.
Proof.
  intros Hs Hj Hj' H H'. apply scores_value in H; auto. apply scores_value in H'; auto.
  destruct H as [L A], H' as [L' A']. apply nth_error_same. intros i. destruct (Nat.lt_ge_cases i (e - b)) as [Hi|Hi].
  - rewrite (A _ Hi), (A' _ Hi). reflexivity.
  - rewrite (proj2 (nth_error_None S i)), (proj2 (nth_error_None S' i)) by lia. reflexivity.
Qed.
Theorem scores_rowwise score_row nt sched b e t junk S : rowwise M score_row -> length junk = e - b ->
  user_scores M nt sched b e t junk = Ok S ->
  S = map (fun u => score_row u (t_item M t)) (firstn (e - b) (skipn b (t_user M t))).
Proof.
  intros Hr Hj H. assert (Hs : forall U V, length (score_block M U V) = length U) by (intros; rewrite Hr; apply map_length).
  assert (He : e <= length (t_user M t)).
  { unfold user_scores, check_arg in H. destruct (0 <? nt); [|discriminate]. destruct (b <=? e); [|discriminate].
    destruct (e <=? _) eqn:E; [|discriminate]. apply Nat.leb_le, E. }
  apply scores_value in H; auto. destruct H as [L A]. apply nth_error_same. intros i.
  set (U := firstn (e - b) (skipn b (t_user M t))) in *.
  assert (HU : length U = e - b) by (unfold U; rewrite firstn_length, skipn_length; lia).
  destruct (Nat.lt_ge_cases i (e - b)) as [Hi|Hi].
  - rewrite (A _ Hi). cbn zeta. set (cs := chunk_size (e - b) nt). set (lo := i / cs * cs).
    pose proof (chunk_pos (e - b) nt) as Hcs. fold cs in Hcs.
    pose proof (Nat.div_mod i cs ltac:(lia)). pose proof (Nat.mod_upper_bound i cs ltac:(lia)).
    assert (Hlo : lo <= i < lo + cs) by (unfold lo; nia).
    rewrite Hr, !nth_error_map. f_equal.
    rewrite nth_error_firstn by lia. rewrite nth_error_skipn. f_equal. lia.
  - rewrite (proj2 (nth_error_None S i)) by lia. symmetry. apply nth_error_None. rewrite map_length. lia.
Qed.
End Machine.
