(** C35, C36: early stopping.  Only theorem statements; the proofs are in
    EarlyStop_Proofs.v. *)
From Verif Require Import Base EarlyStop_Model EarlyStop_Spec EarlyStop_Proofs Ex_EarlyStop.
From Coq Require Import QArith.
Local Open Scope nat_scope.

(** C35.  For every trainer, score function, period [v >= 1], patience [d] and
    number of epochs: the model is validated after epochs v, 2v, ..., m*v and
    nowhere else; m is the first number of validations the last max(1,d) of
    which did not improve, or else max_epoch / v.  If some validation scored
    above -inf, the earliest best one is restored and its epoch reported.
    Otherwise the state remembered from before is restored, or RuntimeError
    raised when there is none. *)
Theorem C35_early_stopping : forall (T B : Type) (create : T) (run : T -> T) (save : T -> B) (load : B -> T -> T)
    (score : T -> fval) (v : nat) (d : Z), 1 <= v -> forall (max_epoch : Z) (r : recommender),
  let ss := validation create run score v in
  let D := Z.to_nat (Z.max 1 d) in
  let M := Z.to_nat max_epoch / v in
  let res := learn_with_optimizer create run save load (Some score) None (Z.of_nat v) d max_epoch r in
  exists m n_run : nat,
    snd (fst res) = validations create run score v m /\
    m <= M /\ (forall m', m' < m -> ~ degraded ss D m') /\
    ((degraded ss D m /\ n_run = m * v) \/ (m = M /\ ~ degraded ss D m /\ n_run = Z.to_nat max_epoch)) /\
    ((exists b, first_best ss m b /\ snd res = Ok tt /\
       let best_state := save (trained create run (b * v)) in
       fst (fst res) = mkRec (Some (load best_state (trained create run n_run))) (Some best_state) (Some (Z.of_nat (b * v)))) \/
     ((forall i, 1 <= i <= m -> fgt (ss i) NegInf = false) /\
      match r_best r with
      | None => snd res = Fail RuntimeError
      | Some old => snd res = Ok tt /\ fst (fst res) = mkRec (Some (load old (trained create run n_run))) (Some old) (r_epochs r)
      end)).
Proof. intros. exact (early_stopping create run save load score v d H max_epoch r). Qed.
Print Assumptions C35_early_stopping.

(** Best at the third validation (the fourth ties, the second is NaN); with
    patience 2 the sixth, which would be better, is not reached. *)
Example C35_early_stopping_example :
  es_learn es_scores 2 2 100 fresh_recommender =
    (mkRec (Some 6) (Some 6) (Some 6%Z),
     [(2%Z, Fin (1 # 10)%Q); (4%Z, NaN); (6%Z, Fin (3 # 10)%Q); (8%Z, Fin (3 # 10)%Q); (10%Z, Fin (2 # 10)%Q)], Ok tt) /\
  fst (fst (es_learn es_scores 2 3 100 fresh_recommender)) = mkRec (Some 12) (Some 12) (Some 12%Z) /\
  first_best (validation 0 S (es_score es_scores) 2) 5 3.
Proof.
  split; [reflexivity|]. split; [reflexivity|]. split; [lia|]. split; [reflexivity|]. split.
  - intros i Hi. assert (i = 1 \/ i = 2 \/ i = 3 \/ i = 4 \/ i = 5) as [-> | [-> | [-> | [-> | ->]]]] by lia; reflexivity.
  - intros i Hi. assert (i = 1 \/ i = 2) as [->| ->] by lia; [now left|now right].
Qed.

(** The first best validation is unique, so the one reported is determined. *)
(** Better means larger. *)
Theorem C35_order a b : fgt a b = true <-> exceeds a b.
Proof. exact (fgt_order a b). Qed.
Print Assumptions C35_order.
Theorem C35_first_best_unique : forall (ss : scores) (m b b' : nat), first_best ss m b -> first_best ss m b' -> b = b'.
Proof. exact first_best_unique. Qed.
Print Assumptions C35_first_best_unique.

(** Under a trial a run either ends in TrialPruned or is the run without it. *)
Theorem C35_trial : forall (T B : Type) (create : T) (run : T -> T) (save : T -> B) (load : B -> T -> T)
    (evaluator : option (T -> fval)) (prune : Z -> fval -> bool) (v d max_epoch : Z) (r : recommender),
  snd (learn_with_optimizer create run save load evaluator (Some prune) v d max_epoch r) = Fail TrialPruned \/
  learn_with_optimizer create run save load evaluator (Some prune) v d max_epoch r =
  learn_with_optimizer create run save load evaluator None v d max_epoch r.
Proof. intros. exact (learn_trial create run save load evaluator prune v d max_epoch r). Qed.
Print Assumptions C35_trial.
Example C35_trial_example :
  snd (learn_with_optimizer 0 S es_save es_load (Some (es_score es_scores)) (Some (fun e _ => (4 <? e)%Z)) 2 2 100 fresh_recommender) = Fail TrialPruned /\
  snd (learn_with_optimizer 0 S es_save es_load (Some (es_score es_scores)) (Some (fun e _ => (10 <? e)%Z)) 2 2 100 fresh_recommender) = Ok tt.
Proof. split; reflexivity. Qed.

(** It is pruned exactly at the first validation where the pruner says so,
    unless patience ended before or there. *)
Theorem C35_pruned : forall (T B : Type) (create : T) (run : T -> T) (save : T -> B) (load : B -> T -> T)
    (score : T -> fval) (v : nat) (d : Z), 1 <= v -> forall (prune : Z -> fval -> bool) (max_epoch : Z) (r : recommender),
  let ss := validation create run score v in
  let D := Z.to_nat (Z.max 1 d) in
  let M := Z.to_nat max_epoch / v in
  let res := learn_with_optimizer create run save load (Some score) (Some prune) (Z.of_nat v) d max_epoch r in
  (snd res = Fail TrialPruned -> exists m, m <= M /\ snd (fst res) = validations create run score v m /\ pruned_at ss v D prune m) /\
  ((exists m, m <= M /\ pruned_at ss v D prune m) -> snd res = Fail TrialPruned).
Proof. intros T B create run save load score v d Hv prune max_epoch r. exact (learn_pruned create run save load score v d Hv prune max_epoch r). Qed.
Print Assumptions C35_pruned.
Example C35_pruned_example :
  let res := learn_with_optimizer 0 S es_save es_load (Some (es_score es_scores)) (Some (fun e _ => (4 <? e)%Z)) 2 2 100 fresh_recommender in
  snd (fst res) = validations 0 S (es_score es_scores) 2 3 /\ snd res = Fail TrialPruned.
Proof. split; reflexivity. Qed.

(** Learning again for the reported number of epochs, without an evaluator,
    reaches the state that was saved as the best one. *)
Theorem C35_reproducible : forall (T B : Type) (create : T) (run : T -> T) (save : T -> B) (load : B -> T -> T)
    (score : T -> fval) (v : nat) (d : Z), 1 <= v -> forall (max_epoch : Z) (r r' : recommender) log train_epochs,
  learn_with_optimizer create run save load (Some score) None (Z.of_nat v) d max_epoch fresh_recommender = (r, log, Ok tt) ->
  r_epochs r = Some train_epochs ->
  exists t, r_trainer (fst (fst (learn create run save load train_epochs r'))) = Some t /\ r_best r = Some (save t) /\
    In (train_epochs, score t) log.
Proof. exact @reproducible. Qed.
Print Assumptions C35_reproducible.
Example C35_reproducible_example :
  learn 0 S es_save es_load 6 fresh_recommender = (mkRec (Some 6) None None, [], Ok tt).
Proof. reflexivity. Qed.

(** validate_epoch = 0 raises ZeroDivisionError in the first epoch; fewer
    epochs than a validation period, or only NaN scores, RuntimeError. *)
Theorem C35_short_run_refuted :
  (exists l, snd (es_learn l 0 2 100 fresh_recommender) = Fail ZeroDivision) /\
  (exists l max_epoch, (0 < max_epoch)%Z /\ snd (es_learn l 2 2 max_epoch fresh_recommender) = Fail RuntimeError) /\
  (exists l, snd (es_learn l 2 2 100 fresh_recommender) = Fail RuntimeError).
Proof.
  split; [exists es_scores; vm_compute; reflexivity|]. split.
  - exists es_scores, 1%Z. split; [reflexivity|vm_compute; reflexivity].
  - exists [NaN; NaN; NaN]. vm_compute. reflexivity.
Qed.
Print Assumptions C35_short_run_refuted.

(** C36.  Two recommenders with different histories learn alike: the same
    validations, and the same final state and result, as soon as one validation
    of the new run scores above -inf. *)
Theorem C36_no_stale_state : forall (T B : Type) (create : T) (run : T -> T) (save : T -> B) (load : B -> T -> T)
    (score : T -> fval) (trial : option (Z -> fval -> bool)) (v d max_epoch : Z) (r : recommender),
  let second := learn_with_optimizer create run save load (Some score) trial v d max_epoch r in
  let first := learn_with_optimizer create run save load (Some score) trial v d max_epoch fresh_recommender in
  snd (fst second) = snd (fst first) /\
  ((exists x, In x (snd (fst second)) /\ fgt (snd x) NegInf = true) -> second = first).
Proof. intros. exact (learn_independent create run save load score trial v d max_epoch r fresh_recommender). Qed.
Print Assumptions C36_no_stale_state.
Example C36_no_stale_state_example :
  es_learn [Fin 0%Q; Fin 1%Q] 2 2 100 (fst (fst (es_learn es_scores 2 2 100 fresh_recommender))) =
  es_learn [Fin 0%Q; Fin 1%Q] 2 2 100 fresh_recommender.
Proof. reflexivity. Qed.

(** Without such a validation the state of the earlier run is restored and
    no error raised, although a new recommender would raise RuntimeError. *)
Theorem C36_stale_state_refuted : exists l v d max_epoch r,
  r = fst (fst (es_learn l v d 100 fresh_recommender)) /\ r_trainer r = Some 6 /\
  fst (fst (es_learn l v d max_epoch r)) = r /\ snd (es_learn l v d max_epoch r) = Ok tt /\
  snd (es_learn l v d max_epoch fresh_recommender) = Fail RuntimeError.
Proof. exists es_scores, 2%Z, 2%Z, 1%Z. eexists. vm_compute. repeat split; reflexivity. Qed.
Print Assumptions C36_stale_state_refuted.
