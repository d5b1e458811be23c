(** Early stopping. *)
From Verif Require Import Base EarlyStop_Model EarlyStop_Spec.
From Coq Require Import QArith.
Local Open Scope nat_scope.

Lemma fgt_trans_le a b c : fgt a b = true -> fgt c b = false -> fgt a c = true \/ c = NaN.
Proof.
  destruct a, b, c; cbn; intros H1 H2; try discriminate; auto.
  left. apply negb_true_iff in H1. apply negb_false_iff in H2. apply negb_true_iff, not_true_iff_false. intros H.
  apply not_true_iff_false in H1. apply H1. apply Qle_bool_iff in H, H2. apply Qle_bool_iff. eapply Qle_trans; eassumption.
Qed.
Lemma fgt_irr a : fgt a a = false.
Proof. destruct a; cbn; auto. apply negb_false_iff, Qle_bool_iff, Qle_refl. Qed.
Lemma fgt_neg a : fgt NegInf a = false.
Proof. now destruct a. Qed.
Lemma fgt_asym a b : fgt a b = true -> fgt b a = false.
Proof.
  destruct a, b; cbn; auto. intros H. apply negb_true_iff in H. apply negb_false_iff, Qle_bool_iff.
  apply Qlt_le_weak, Qnot_le_lt. intros L. apply Qle_bool_iff in L. congruence.
Qed.
Lemma fgt_above a b : fgt a b = true -> fgt a NegInf = true.
Proof. destruct a, b; cbn; auto. Qed.
Lemma fgt_not_nan a b : fgt a b = true -> a <> NaN.
Proof. intros H ->. destruct b; discriminate. Qed.

Section Proofs.
Context {T B : Type}.
Variable create : T.
Variable run : T -> T.
Variable save : T -> B.
Variable load : B -> T -> T.
Notation recommender := (recommender (T := T) (B := B)).

Notation after := (trained create run).

(** ** A run with an evaluator and without a trial *)
Section Run.
Variable score : T -> fval.
Variable v : nat.
Variable d : Z.
Hypothesis v_pos : 1 <= v.
Notation D := (Z.to_nat (Z.max 1 d)).
Notation ss := (validation create run score v).
Notation epochs := (epochs run save (Some score) None (Z.of_nat v) d).

Notation log_upto := (validations create run score v).

(** State after the first [k] validations, none of which ended the run. *)
Definition best_inv (r0 : recommender) (k : nat) (r : recommender) (best : fval) (bad : Z) : Prop :=
  (best = NegInf /\ (forall i, 1 <= i <= k -> fgt (ss i) NegInf = false) /\ bad = Z.of_nat k /\
   r_best r = r_best r0 /\ r_epochs r = r_epochs r0) \/
  (exists b, first_best ss k b /\ best = ss b /\ bad = Z.of_nat (k - b) /\
   r_best r = Some (save (after (b * v))) /\ r_epochs r = Some (Z.of_nat (b * v))).

Lemma improves_iff r0 k r best bad : best_inv r0 k r best bad -> (improves ss (S k) <-> fgt (ss (S k)) best = true).
Proof.
  intros [(-> & N & _)|(b & (Hb & Hn & Hm & Hf) & -> & _)].
  - split; [now intros []|]. intros H. split; [exact H|]. intros i Hi.
    apply (fgt_trans_le _ NegInf); [exact H|]. apply N. lia.
  - split.
    + intros [_ H]. destruct (H b ltac:(lia)) as [?|E]; [assumption|]. rewrite E in Hn. discriminate.
    + intros H. split; [eapply fgt_above; exact H|]. intros i Hi. eapply fgt_trans_le; [exact H|]. apply Hm. lia.
Qed.

Lemma no_improve_between r0 k r best bad : best_inv r0 k r best bad ->
  forall i, k - Z.to_nat bad < i <= k -> ~ improves ss i.
Proof.
  intros [(-> & N & -> & _)|(b & (Hb & Hn & Hm & Hf) & -> & -> & _)] i Hi [H1 H2].
  - rewrite N in H1 by lia. discriminate.
  - destruct (H2 b ltac:(lia)) as [H|H]; [rewrite Hm in H by lia; discriminate|]. rewrite H in Hn. discriminate.
Qed.
Lemma improve_at r0 k r best bad : best_inv r0 k r best bad -> Z.to_nat bad < k -> improves ss (k - Z.to_nat bad).
Proof.
  intros [(-> & N & -> & _)|(b & (Hb & Hn & Hm & Hf) & -> & -> & _)] H; [lia|].
  replace (k - Z.to_nat (Z.of_nat (k - b))) with b by lia. split; [exact Hn|]. exact Hf.
Qed.
Lemma bad_range r0 k r best bad : best_inv r0 k r best bad -> (0 <= bad <= Z.of_nat k)%Z.
Proof. intros [(-> & N & -> & _)|(b & (Hb & Hn & Hm & Hf) & -> & -> & _)]; lia. Qed.

Lemma not_degraded r0 k r best bad : best_inv r0 k r best bad -> (bad < Z.of_nat D)%Z -> ~ degraded ss D k.
Proof.
  intros I H [Hd Hq]. pose proof (bad_range _ _ _ _ _ I). apply (Hq (k - Z.to_nat bad)); [lia|].
  eapply improve_at; [exact I|lia].
Qed.

Lemma div_step e : S e / v = if ((Z.of_nat e + 1) mod Z.of_nat v =? 0)%Z then S (e / v) else e / v.
Proof.
  replace (Z.of_nat e + 1)%Z with (Z.of_nat (S e)) by lia. rewrite <- Nat2Z.inj_mod.
  pose proof (Nat.div_mod (S e) v ltac:(lia)) as E1. pose proof (Nat.div_mod e v ltac:(lia)) as E2.
  pose proof (Nat.mod_upper_bound (S e) v ltac:(lia)). pose proof (Nat.mod_upper_bound e v ltac:(lia)).
  destruct (Z.eqb_spec (Z.of_nat (S e mod v)) 0); nia.
Qed.
Lemma validated e : ((Z.of_nat e + 1) mod Z.of_nat v =? 0)%Z = true -> S e = S (e / v) * v.
Proof.
  intros H. replace (Z.of_nat e + 1)%Z with (Z.of_nat (S e)) in H by lia. rewrite <- Nat2Z.inj_mod in H. apply Z.eqb_eq in H.
  pose proof (Nat.div_mod (S e) v ltac:(lia)) as E1. pose proof (Nat.div_mod e v ltac:(lia)) as E2.
  pose proof (Nat.mod_upper_bound e v ltac:(lia)) as U. assert (H0 : S e mod v = 0) by lia. rewrite H0 in E1.
  set (q := S e / v) in *. set (k := e / v) in *. set (c := e mod v) in *. assert (q = S k) by nia. nia.
Qed.

Lemma seq_S_end s m : seq s (S m) = seq s m ++ [s + m].
Proof. rewrite <- Nat.add_1_r, seq_app. reflexivity. Qed.
Lemma log_S m : log_upto (S m) = log_upto m ++ [(Z.of_nat (S m * v), ss (S m))].
Proof. unfold validations. rewrite seq_S_end, map_app. reflexivity. Qed.

Lemma iter_S k : after (S k) = run (after k).
Proof. reflexivity. Qed.

Lemma epochs_run r0 n : forall e r best bad log,
  r_trainer r = Some (after e) -> log = log_upto (e / v) -> best_inv r0 (e / v) r best bad -> (bad < Z.of_nat D)%Z ->
  (forall m, m <= e / v -> ~ degraded ss D m) ->
  exists m r' n_run best' bad', epochs (map Z.of_nat (seq e n)) r best bad log = (r', log_upto m, Ok tt) /\
    m <= (e + n) / v /\ (forall m', m' < m -> ~ degraded ss D m') /\
    ((degraded ss D m /\ n_run = m * v) \/ (m = (e + n) / v /\ ~ degraded ss D m /\ n_run = e + n)) /\
    r_trainer r' = Some (after n_run) /\ best_inv r0 m r' best' bad'.
Proof.
  induction n as [|n IH]; intros e r best bad log Ht Hlog Hb Hbad Hnd.
  - cbn [seq map EarlyStop_Model.epochs]. exists (e / v), r, e, best, bad. rewrite Hlog, Nat.add_0_r.
    split; [reflexivity|]. split; [lia|]. split; [intros m' Hm'; apply Hnd; lia|]. split; [|split; [exact Ht|exact Hb]].
    right. split; [reflexivity|]. split; [apply Hnd; lia|reflexivity].
  - cbn [seq map EarlyStop_Model.epochs]. unfold run_epoch. rewrite Ht.
    destruct (Z.eqb_spec (Z.of_nat v) 0) as [|_]; [lia|].
    replace (e + S n) with (S e + n) by lia.
    pose proof (div_step e) as DS. destruct ((Z.of_nat e + 1) mod Z.of_nat v =? 0)%Z eqn:Ev; cbn [negb].
    2: { apply IH; cbn [r_trainer r_best r_epochs]; rewrite ?DS; auto. }
    pose proof (validated e Ev) as EV. cbn [r_trainer]. set (k := e / v) in *.
    assert (Es : score (run (after e)) = ss (S k)) by (unfold validation; rewrite <- EV; reflexivity).
    assert (El : log ++ [((Z.of_nat e + 1)%Z, score (run (after e)))] = log_upto (S k)).
    { rewrite log_S, Hlog, Es. do 3 f_equal. rewrite <- EV. lia. }
    rewrite El, Es. pose proof (improves_iff _ _ _ _ _ Hb) as II. pose proof (bad_range _ _ _ _ _ Hb) as BR.
    destruct (fgt (ss (S k)) best) eqn:Eg.
    + unfold save_state, reported. cbn [r_trainer r_best r_epochs].
      assert (FB : first_best ss (S k) (S k)).
      { destruct (proj2 II eq_refl) as [I1 I2]. split; [lia|]. split; [exact I1|]. split; [|intros i Hi; apply I2; lia].
        intros i Hi. destruct (Nat.eq_dec i (S k)) as [->|]; [apply fgt_irr|].
        destruct (I2 i ltac:(lia)) as [H|H]; [now apply fgt_asym|]. now rewrite H. }
      assert (NB : best_inv r0 (S k) (mkRec (Some (run (after e))) (Some (save (run (after e)))) (Some (Z.of_nat e + 1)%Z)) (ss (S k)) 0%Z).
      { right. exists (S k). split; [exact FB|]. split; [reflexivity|]. split; [lia|]. cbn [r_best r_epochs]. rewrite <- EV.
        split; [reflexivity|]. f_equal. lia. }
      apply IH; rewrite ?DS; auto; [lia|]. intros m Hm. destruct (Nat.eq_dec m (S k)) as [->|]; [|apply Hnd; lia].
      eapply not_degraded; [exact NB|lia].
    + assert (NI : ~ improves ss (S k)) by (intros H; apply II in H; congruence).
      assert (NB : best_inv r0 (S k) (mkRec (Some (run (after e))) (r_best r) (r_epochs r)) best (bad + 1)%Z).
      { destruct Hb as [(-> & N & -> & R1 & R2)|(b & (Hb & Hn & Hm & Hf) & -> & -> & R1 & R2)].
        - left. split; [reflexivity|]. split; [|split; [lia|auto]]. intros i Hi. destruct (Nat.eq_dec i (S k)) as [->|]; [exact Eg|apply N; lia].
        - right. exists b. split; [|split; [reflexivity|split; [lia|auto]]]. split; [lia|]. split; [exact Hn|]. split; [|exact Hf].
          intros i Hi. destruct (Nat.eq_dec i (S k)) as [->|]; [exact Eg|apply Hm; lia]. }
      destruct (Z.leb_spec d (bad + 1)) as [Hd|Hd].
      * assert (DG : degraded ss D (S k)).
        { assert (Z.of_nat D <= bad + 1)%Z by lia. split; [lia|]. intros i Hi. eapply (no_improve_between _ _ _ _ _ NB). lia. }
        exists (S k), (mkRec (Some (run (after e))) (r_best r) (r_epochs r)), (S e), best, (bad + 1)%Z.
        split; [reflexivity|]. split; [rewrite <- DS; apply Nat.div_le_mono; lia|]. split; [intros m' Hm'; apply Hnd; lia|].
        split; [left; split; [exact DG|exact EV]|]. split; [reflexivity|exact NB].
      * unfold reported.
        apply IH; rewrite ?DS; auto; [lia|]. intros m Hm. destruct (Nat.eq_dec m (S k)) as [->|]; [|apply Hnd; lia].
        eapply not_degraded; [exact NB|lia].
Qed.

Theorem early_stopping max_epoch r : exists m n_run,
  let M := Z.to_nat max_epoch / v in
  let res := learn_with_optimizer create run save load (Some score) None (Z.of_nat v) d max_epoch r in
  snd (fst res) = log_upto m /\
  m <= M /\ (forall m', m' < m -> ~ degraded ss D m') /\
  ((degraded ss D m /\ n_run = m * v) \/ (m = M /\ ~ degraded ss D m /\ n_run = Z.to_nat max_epoch)) /\
  ((exists b, first_best ss m b /\ snd res = Ok tt /\
     fst (fst res) = mkRec (Some (load (save (after (b * v))) (after n_run))) (Some (save (after (b * v)))) (Some (Z.of_nat (b * v)))) \/
   ((forall i, 1 <= i <= m -> fgt (ss i) NegInf = false) /\
    match r_best r with
    | None => snd res = Fail RuntimeError
    | Some old => snd res = Ok tt /\ fst (fst res) = mkRec (Some (load old (after n_run))) (Some old) (r_epochs r)
    end)).
Proof.
  assert (D1 : 1 <= D) by lia.
  destruct (epochs_run r (Z.to_nat max_epoch) 0 (start_learning create r) NegInf 0%Z []) as (m & r' & n_run & best & bad & E & Hm & Hnd & Hst & Ht & Hb).
  - reflexivity.
  - rewrite Nat.div_small by lia. reflexivity.
  - rewrite Nat.div_small by lia. left. repeat split; auto. intros; lia.
  - lia.
  - rewrite Nat.div_small by lia. intros m Hm [H _]. lia.
  - rewrite Nat.add_0_l in *. exists m, n_run. cbn zeta. unfold learn_with_optimizer, zrange. rewrite E.
    unfold load_state. rewrite Ht.
    destruct Hb as [(-> & N & _ & R1 & R2)|(b & FB & -> & _ & R1 & R2)].
    + rewrite R1, R2.
      destruct (r_best r) as [old|]; cbn [fst snd]; (split; [reflexivity|]); (split; [exact Hm|]); (split; [exact Hnd|]); (split; [exact Hst|]); right; (split; [exact N|]); auto.
    + rewrite R1, R2. cbn [fst snd]. split; [reflexivity|]. split; [exact Hm|]. split; [exact Hnd|]. split; [exact Hst|]. left. exists b. auto.
Qed.

(** The invariant after a validation. *)
Lemma better_inv r0 k r best bad t : best_inv r0 k r best bad -> fgt (ss (S k)) best = true ->
  best_inv r0 (S k) (mkRec t (Some (save (after (S k * v)))) (Some (Z.of_nat (S k * v)))) (ss (S k)) 0%Z.
Proof.
  intros Hb Eg. pose proof (improves_iff _ _ _ _ _ Hb) as II. destruct (proj2 II Eg) as [I1 I2].
  right. exists (S k). split; [|split; [reflexivity|split; [lia|split; reflexivity]]].
  split; [lia|]. split; [exact I1|]. split; [|intros i Hi; apply I2; lia].
  intros i Hi. destruct (Nat.eq_dec i (S k)) as [->|]; [apply fgt_irr|].
  destruct (I2 i ltac:(lia)) as [H|H]; [now apply fgt_asym|]. now rewrite H.
Qed.
Lemma worse_inv r0 k r best bad t : best_inv r0 k r best bad -> fgt (ss (S k)) best = false ->
  best_inv r0 (S k) (mkRec t (r_best r) (r_epochs r)) best (bad + 1)%Z.
Proof.
  intros [(-> & N & -> & R1 & R2)|(b & (Hb & Hn & Hm & Hf) & -> & -> & R1 & R2)] Eg.
  - left. split; [reflexivity|]. split; [|split; [lia|auto]]. intros i Hi. destruct (Nat.eq_dec i (S k)) as [->|]; [exact Eg|apply N; lia].
  - right. exists b. split; [|split; [reflexivity|split; [lia|auto]]]. split; [lia|]. split; [exact Hn|]. split; [|exact Hf].
    intros i Hi. destruct (Nat.eq_dec i (S k)) as [->|]; [exact Eg|apply Hm; lia].
Qed.

(** ** Pruned runs *)
Section Prune.
Variable prune : Z -> fval -> bool.
Notation fired m := (prune (Z.of_nat (m * v) - 1) (ss m)).
Notation epochs' := (EarlyStop_Model.epochs run save (Some score) (Some prune) (Z.of_nat v) d).
Notation pruned_at := (pruned_at ss v D prune).

Lemma epochs_pruned r0 n : forall e r best bad log,
  r_trainer r = Some (after e) -> log = log_upto (e / v) -> best_inv r0 (e / v) r best bad -> (bad < Z.of_nat D)%Z ->
  (forall m, m <= e / v -> ~ degraded ss D m) -> (forall m, 1 <= m <= e / v -> fired m = false) ->
  let res := epochs' (map Z.of_nat (seq e n)) r best bad log in
  (snd res = Fail TrialPruned -> exists m, m <= (e + n) / v /\ snd (fst res) = log_upto m /\ pruned_at m) /\
  ((exists m, m <= (e + n) / v /\ pruned_at m) -> snd res = Fail TrialPruned).
Proof.
  induction n as [|n IH]; intros e r best bad log Ht Hlog Hb Hbad Hnd Hnf; cbn zeta.
  - cbn [seq map EarlyStop_Model.epochs snd]. rewrite Nat.add_0_r. split; [discriminate|]. intros (m & Hm & P1 & P2 & _).
    rewrite Hnf in P2 by lia. discriminate.
  - cbn [seq map EarlyStop_Model.epochs]. unfold run_epoch. rewrite Ht.
    destruct (Z.eqb_spec (Z.of_nat v) 0) as [|_]; [lia|].
    replace (e + S n) with (S e + n) by lia.
    pose proof (div_step e) as DS. destruct ((Z.of_nat e + 1) mod Z.of_nat v =? 0)%Z eqn:Ev; cbn [negb].
    2: { apply IH; cbn [r_trainer r_best r_epochs]; rewrite ?DS; auto. }
    pose proof (validated e Ev) as EV. cbn [r_trainer]. set (k := e / v) in *.
    assert (Le : S k <= (S e + n) / v) by (rewrite <- DS; apply Nat.div_le_mono; lia).
    assert (Es : score (run (after e)) = ss (S k)) by (unfold validation; rewrite <- EV; reflexivity).
    assert (El : log ++ [((Z.of_nat e + 1)%Z, score (run (after e)))] = log_upto (S k)).
    { rewrite log_S, Hlog, Es. do 3 f_equal. rewrite <- EV. lia. }
    assert (Ee : prune (Z.of_nat e) (ss (S k)) = fired (S k)) by (f_equal; rewrite <- EV; lia).
    rewrite El, Es. pose proof (improves_iff _ _ _ _ _ Hb) as II. pose proof (bad_range _ _ _ _ _ Hb) as BR.
    assert (FIRE : forall q, ~ degraded ss D (S k) -> fired (S k) = true ->
      let res : ending (T := T) (B := B) := (q, log_upto (S k), Fail TrialPruned) in
      (snd res = Fail TrialPruned -> exists m, m <= (S e + n) / v /\ snd (fst res) = log_upto m /\ pruned_at m) /\
      ((exists m, m <= (S e + n) / v /\ pruned_at m) -> snd res = Fail TrialPruned)).
    { intros q Nd F. cbn [fst snd]. split; [|auto]. intros _. exists (S k). split; [exact Le|]. split; [reflexivity|].
      split; [lia|]. split; [exact F|]. split; [intros m' Hm'; apply Hnf; lia|]. intros m' Hm'. destruct (Nat.eq_dec m' (S k)) as [->|]; [exact Nd|apply Hnd; lia]. }
    assert (NF : fired (S k) = false -> forall m, 1 <= m <= S k -> fired m = false).
    { intros F m Hm. destruct (Nat.eq_dec m (S k)) as [->|]; [exact F|apply Hnf; lia]. }
    destruct (fgt (ss (S k)) best) eqn:Eg.
    + unfold save_state, reported. cbn [r_trainer r_best r_epochs]. rewrite Ee.
      pose proof (better_inv r0 k r best bad (Some (run (after e))) Hb Eg) as NB. rewrite <- EV in NB.
      replace (Z.of_nat (S e)) with (Z.of_nat e + 1)%Z in NB by lia. rewrite iter_S in NB.
      assert (Nd : ~ degraded ss D (S k)) by (eapply not_degraded; [exact NB|lia]).
      destruct (fired (S k)) eqn:F; [apply FIRE; auto|].
      apply IH; rewrite ?DS; auto; [lia|]. intros m Hm. destruct (Nat.eq_dec m (S k)) as [->|]; [exact Nd|apply Hnd; lia].
    + pose proof (worse_inv r0 k r best bad (Some (run (after e))) Hb Eg) as NB.
      destruct (Z.leb_spec d (bad + 1)) as [Hd|Hd].
      * assert (DG : degraded ss D (S k)).
        { assert (Z.of_nat D <= bad + 1)%Z by lia. split; [lia|]. intros i Hi. eapply (no_improve_between _ _ _ _ _ NB). lia. }
        cbn [snd]. split; [discriminate|]. intros (m & _ & P1 & P2 & _ & P4). destruct (Nat.le_gt_cases m k) as [L|L]; [rewrite Hnf in P2 by lia; discriminate|].
        destruct (P4 (S k) ltac:(lia) DG).
      * unfold reported. rewrite Ee. assert (Nd : ~ degraded ss D (S k)) by (eapply not_degraded; [exact NB|lia]).
        destruct (fired (S k)) eqn:F; [apply FIRE; auto|].
        apply IH; rewrite ?DS; auto; [lia|]. intros m Hm. destruct (Nat.eq_dec m (S k)) as [->|]; [exact Nd|apply Hnd; lia].
Qed.

Lemma learn_pruned max_epoch r :
  let res := learn_with_optimizer create run save load (Some score) (Some prune) (Z.of_nat v) d max_epoch r in
  let M := Z.to_nat max_epoch / v in
  (snd res = Fail TrialPruned -> exists m, m <= M /\ snd (fst res) = log_upto m /\ pruned_at m) /\
  ((exists m, m <= M /\ pruned_at m) -> snd res = Fail TrialPruned).
Proof.
  assert (D1 : 1 <= D) by lia.
  pose proof (epochs_pruned r (Z.to_nat max_epoch) 0 (start_learning create r) NegInf 0%Z []) as E.
  rewrite !Nat.div_small, Nat.add_0_l in E by lia. cbn zeta in E.
  destruct E as [E1 E2]; [reflexivity|reflexivity|left; repeat split; auto; intros; lia|lia|intros m Hm [H _]; lia|intros; lia|].
  cbn zeta. unfold learn_with_optimizer, zrange. destruct (EarlyStop_Model.epochs _ _ _ _ _ _ _ _ _ _ _) as [[q log] [[]|e| |]]; cbn [fst snd] in *.
  - split.
    + intros H. exfalso. revert H. unfold load_state. destruct (r_trainer q); [|discriminate]. destruct (r_best q); discriminate.
    + intros H. specialize (E2 H). discriminate.
  - split; [exact E1|exact E2].
  - split; [exact E1|exact E2].
  - split; [exact E1|exact E2].
Qed.
End Prune.
End Run.

(** ** Without an evaluator *)
Lemma epochs_plain v d trial n : (v <> 0)%Z -> forall e r best bad log, r_trainer r = Some (after e) ->
  epochs run save None trial v d (map Z.of_nat (seq e n)) r best bad log = (mkRec (Some (after (e + n))) (r_best r) (r_epochs r), log, Ok tt).
Proof.
  intros Hv. induction n as [|n IH]; intros e r best bad log Ht.
  - rewrite Nat.add_0_r, <- Ht. now destruct r.
  - cbn [seq map EarlyStop_Model.epochs]. unfold run_epoch. rewrite Ht. destruct (Z.eqb_spec v 0); [contradiction|].
    cbn [r_trainer]. replace (e + S n) with (S e + n) by lia.
    destruct (negb _); rewrite IH by reflexivity; reflexivity.
Qed.
Lemma learn_plain train_epochs r : learn create run save load train_epochs r =
  (mkRec (Some (after (Z.to_nat train_epochs))) (r_best r) (r_epochs r), [], Ok tt).
Proof.
  unfold learn, learn_with_optimizer, zrange. rewrite (epochs_plain 5 5 None _ ltac:(discriminate) 0) by reflexivity. reflexivity.
Qed.

(** ** With a trial *)
Lemma epochs_trial evaluator prune v d es : forall r best bad log,
  snd (epochs run save evaluator (Some prune) v d es r best bad log) = Fail TrialPruned \/
  epochs run save evaluator (Some prune) v d es r best bad log = epochs run save evaluator None v d es r best bad log.
Proof.
  induction es as [|e es IH]; intros r best bad log; cbn [EarlyStop_Model.epochs]; [now right|].
  destruct (run_epoch run r) as [r1| | |]; try (right; reflexivity). destruct (v =? 0)%Z; [now right|].
  destruct (negb _); [apply IH|]. destruct evaluator as [score|]; [|apply IH]. destruct (r_trainer r1) as [t|]; [|apply IH].
  destruct (fgt (score t) best).
  - destruct (save_state save r1); try (right; reflexivity). cbn [reported]. destruct (prune e (score t)); [now left|apply IH].
  - destruct (d <=? bad + 1)%Z; [now right|]. cbn [reported]. destruct (prune e (score t)); [now left|apply IH].
Qed.
Lemma learn_trial evaluator prune v d max_epoch r :
  snd (learn_with_optimizer create run save load evaluator (Some prune) v d max_epoch r) = Fail TrialPruned \/
  learn_with_optimizer create run save load evaluator (Some prune) v d max_epoch r = learn_with_optimizer create run save load evaluator None v d max_epoch r.
Proof.
  unfold learn_with_optimizer. destruct (epochs_trial evaluator prune v d (zrange max_epoch) (start_learning create r) NegInf 0%Z []) as [E|E].
  - left. destruct (epochs _ _ _ (Some prune) _ _ _ _ _ _ _) as [[r' log] o]. cbn [snd] in E. subst o. reflexivity.
  - right. now rewrite E.
Qed.

(** ** Two runs *)
Definition same_run (seen : bool) (r1 r2 : recommender) : Prop :=
  r_trainer r1 = r_trainer r2 /\ (seen = true -> r_best r1 = r_best r2 /\ r_epochs r1 = r_epochs r2).
Lemma epochs_lockstep evaluator trial v d es : forall r1 r2 best bad log seen, same_run seen r1 r2 ->
  (seen = false -> best = NegInf) ->
  let e1 := epochs run save evaluator trial v d es r1 best bad log in
  let e2 := epochs run save evaluator trial v d es r2 best bad log in
  snd e1 = snd e2 /\ snd (fst e1) = snd (fst e2) /\ r_trainer (fst (fst e1)) = r_trainer (fst (fst e2)) /\
  exists seen', same_run seen' (fst (fst e1)) (fst (fst e2)) /\ (seen = true -> seen' = true) /\
    exists new, snd (fst e1) = log ++ new /\ (seen' = true <-> seen = true \/ exists x, In x new /\ fgt (snd x) NegInf = true).
Proof.
  induction es as [|e es IH]; intros r1 r2 best bad log seen [R1 R2] SB; cbn [EarlyStop_Model.epochs] in *.
  - cbn [fst snd]. split; [reflexivity|]. split; [reflexivity|]. split; [exact R1|]. exists seen. split; [split; auto|]. split; [auto|].
    exists []. split; [now rewrite app_nil_r|]. split; [auto|]. intros [H|(x & [] & _)]; exact H.
  - assert (STOP : forall (o : outcome unit) lg new s' q1 q2, same_run s' q1 q2 -> lg = log ++ new -> (seen = true -> s' = true) ->
      (s' = true <-> seen = true \/ exists x, In x new /\ fgt (snd x) NegInf = true) ->
      let e1 : ending (T := T) (B := B) := (q1, lg, o) in let e2 : ending (T := T) (B := B) := (q2, lg, o) in
      snd e1 = snd e2 /\ snd (fst e1) = snd (fst e2) /\ r_trainer (fst (fst e1)) = r_trainer (fst (fst e2)) /\
      exists seen', same_run seen' (fst (fst e1)) (fst (fst e2)) /\ (seen = true -> seen' = true) /\
      exists new, snd (fst e1) = log ++ new /\ (seen' = true <-> seen = true \/ exists x, In x new /\ fgt (snd x) NegInf = true)).
    { intros o lg new s' q1 q2 S -> H1 H2. cbn [fst snd]. split; [reflexivity|]. split; [reflexivity|]. split; [apply S|]. exists s'. split; [exact S|]. split; [exact H1|].
      exists new. auto. }
    assert (NIL : seen = true <-> seen = true \/ exists x : Z * fval, In x [] /\ fgt (snd x) NegInf = true).
    { split; [auto|]. intros [H|(x & [] & _)]; exact H. }
    unfold run_epoch. rewrite <- R1. destruct (r_trainer r1) as [t|] eqn:Et1.
    2: { apply (STOP _ log [] seen); auto; [split; auto; congruence|now rewrite app_nil_r]. }
    set (q1 := mkRec (Some (run t)) (r_best r1) (r_epochs r1)). set (q2 := mkRec (Some (run t)) (r_best r2) (r_epochs r2)).
    assert (S : same_run seen q1 q2) by (split; [reflexivity|exact R2]).
    destruct (v =? 0)%Z; [apply (STOP _ log [] seen); auto; now rewrite app_nil_r|].
    destruct (negb _); [now apply IH|]. destruct evaluator as [score|]; [|now apply IH]. cbn [r_trainer].
    change (r_trainer q1) with (Some (run t)). change (r_trainer q2) with (Some (run t)). cbn iota.
    set (s := score (run t)). set (log' := log ++ [((e + 1)%Z, s)]).
    destruct (fgt s best) eqn:Eg.
    + unfold save_state. cbn [r_trainer r_best r_epochs q1 q2].
      assert (S' : same_run true (mkRec (Some (run t)) (Some (save (run t))) (Some (e + 1)%Z)) (mkRec (Some (run t)) (Some (save (run t))) (Some (e + 1)%Z))) by (split; auto).
      assert (HI : exists x, In x [((e + 1)%Z, s)] /\ fgt (snd x) NegInf = true) by (exists ((e + 1)%Z, s); split; [now left|eapply fgt_above; exact Eg]).
      destruct (reported trial e s).
      * apply (STOP _ log' [((e + 1)%Z, s)] true); auto. split; auto.
      * destruct (IH _ _ s 0%Z log' true S' ltac:(discriminate)) as (A & C & E' & seen' & G1 & G2 & new & G3 & G4).
        cbn zeta. split; [exact A|]. split; [exact C|]. split; [exact E'|]. exists seen'. split; [exact G1|]. split; [auto|].
        exists ([((e + 1)%Z, s)] ++ new). split; [rewrite G3; unfold log'; now rewrite <- app_assoc|]. split; [|intros _; auto].
        intros _. right. destruct HI as (x & Hx & Hy). exists x. split; [apply in_or_app; now left|exact Hy].
    + assert (NI : seen = true <-> seen = true \/ exists x, In x [((e + 1)%Z, s)] /\ fgt (snd x) NegInf = true).
      { split; [auto|]. intros [H|(x & [<-|[]] & Hx)]; [exact H|]. destruct seen; auto. rewrite SB in Eg by reflexivity. cbn in Hx. congruence. }
      destruct (d <=? bad + 1)%Z; [apply (STOP _ log' [((e + 1)%Z, s)] seen); auto|].
      destruct (reported trial e s); [apply (STOP _ log' [((e + 1)%Z, s)] seen); auto|].
      destruct (IH q1 q2 best (bad + 1)%Z log' seen S SB) as (A & C & E' & seen' & G1 & G2 & new & G3 & G4).
      cbn zeta. split; [exact A|]. split; [exact C|]. split; [exact E'|]. exists seen'. split; [exact G1|]. split; [auto|].
      exists ([((e + 1)%Z, s)] ++ new). split; [rewrite G3; unfold log'; now rewrite <- app_assoc|]. rewrite G4.
      split.
      * intros [H|(x & Hx & Hy)]; [auto|]. right. exists x. split; [apply in_or_app; now right|exact Hy].
      * intros [H|(x & Hx & Hy)]; [auto|]. apply in_app_or in Hx. destruct Hx as [Hx|Hx]; [|right; exists x; auto].
        left. apply NI. right. exists x. auto.
Qed.

Lemma learn_independent evaluator trial v d max_epoch r1 r2 :
  let run1 := learn_with_optimizer create run save load (Some evaluator) trial v d max_epoch r1 in
  let run2 := learn_with_optimizer create run save load (Some evaluator) trial v d max_epoch r2 in
  snd (fst run1) = snd (fst run2) /\
  ((exists x, In x (snd (fst run1)) /\ fgt (snd x) NegInf = true) -> run1 = run2).
Proof.
  cbn zeta. unfold learn_with_optimizer.
  destruct (epochs_lockstep (Some evaluator) trial v d (zrange max_epoch) (start_learning create r1) (start_learning create r2) NegInf 0%Z [] false) as (A & C & E & seen & S1 & _ & new & G1 & G2);
    [split; [reflexivity|discriminate]|reflexivity|].
  destruct (epochs _ _ _ _ _ _ _ (start_learning create r1) _ _ _) as [[q1 lg1] o1].
  destruct (epochs _ _ _ _ _ _ _ (start_learning create r2) _ _ _) as [[q2 lg2] o2]. cbn [fst snd] in *. subst lg2 o2. cbn [app] in G1. subst new.
  assert (SEEN : (exists x, In x lg1 /\ fgt (snd x) NegInf = true) -> q1 = q2).
  { intros H. destruct S1 as [T1 T2]. destruct (T2 (proj2 G2 (or_intror H))). destruct q1, q2; cbn in *; congruence. }
  destruct o1 as [[]| | |]; cbn [fst snd]; try (split; [reflexivity|]; intros H; now rewrite (SEEN H)).
  split.
  - unfold load_state. rewrite E. destruct (r_trainer q2); [|reflexivity]. destruct (r_best q1), (r_best q2); reflexivity.
  - intros H. assert (H' : exists x, In x lg1 /\ fgt (snd x) NegInf = true).
    { revert H. unfold load_state. destruct (r_trainer q1); [|auto]. destruct (r_best q1); auto. }
    now rewrite (SEEN H').
Qed.
End Proofs.

Lemma first_best_unique ss m b b' : first_best ss m b -> first_best ss m b' -> b = b'.
Proof.
  intros (R1 & N1 & M1 & F1) (R2 & N2 & M2 & F2). destruct (Nat.lt_trichotomy b b') as [H|[H|H]]; [|exact H|].
  - destruct (F2 b ltac:(lia)) as [G|G]; [rewrite M1 in G by lia; discriminate|]. rewrite G in N1. discriminate.
  - destruct (F1 b' ltac:(lia)) as [G|G]; [rewrite M2 in G by lia; discriminate|]. rewrite G in N2. discriminate.
Qed.

Lemma reproducible T B (create : T) (run : T -> T) (save : T -> B) (load : B -> T -> T) (score : T -> fval) (v : nat) (d : Z) :
  1 <= v -> forall (max_epoch : Z) (r r' : recommender) log train_epochs,
  learn_with_optimizer create run save load (Some score) None (Z.of_nat v) d max_epoch fresh_recommender = (r, log, Ok tt) ->
  r_epochs r = Some train_epochs ->
  exists t, r_trainer (fst (fst (learn create run save load train_epochs r'))) = Some t /\ r_best r = Some (save t) /\
    In (train_epochs, score t) log.
Proof.
  intros Hv max_epoch r r' log n E He.
  destruct (early_stopping create run save load score v d Hv max_epoch fresh_recommender) as (m & n_run & L & _ & _ & _ & H).
  cbn zeta in *. rewrite E in *. cbn [fst snd] in *. destruct H as [(b & FB & _ & ->)|(_ & H)]; [|discriminate].
  cbn [r_epochs] in He. injection He as <-. rewrite learn_plain. cbn [fst snd r_trainer r_best]. rewrite Nat2Z.id.
  exists (trained create run (b * v)). split; [reflexivity|]. split; [reflexivity|]. rewrite L. unfold validations.
  apply in_map_iff. exists b. split; [reflexivity|]. destruct FB as [FB _]. apply in_seq. lia.
Qed.

Lemma fgt_order a b : fgt a b = true <-> exceeds a b.
Proof.
  destruct a as [| |p|], b as [| |q|]; cbn [fgt]; split; intros H; try discriminate; try constructor; try reflexivity; try (inversion H; fail).
  - apply Qnot_le_lt. intros L. apply Qle_bool_iff in L. rewrite L in H. discriminate.
  - destruct (Qle_bool p q) eqn:E; [|reflexivity]. exfalso. apply Qle_bool_iff in E. inversion H as [? ? L| | |]. apply Qle_not_lt in E. contradiction.
Qed.
