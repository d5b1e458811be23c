(** Tuning a recommender with early stopping. *)
From Verif Require Import Base EarlyStop_Model EarlyStop_Spec EarlyStop_Proofs PyStr_Model PyStr_Spec PyStr_Proofs Tune_Model Tune_Spec Tune_Proofs Doubling_Proofs.
From Coq Require Import QArith.
Local Open Scope nat_scope.

Lemma stops_unique ss D M m m' : stops_after ss D M m -> stops_after ss D M m' -> m = m'.
Proof.
  intros (H1 & H2 & H3) (G1 & G2 & G3). destruct (Nat.lt_trichotomy m m') as [L|[L|L]]; [|exact L|].
  - destruct H3 as [H3| ->]; [|lia]. now apply (G2 m) in H3.
  - destruct G3 as [G3| ->]; [|lia]. now apply (H2 m') in G3.
Qed.

Section ES.
Context {T B : Type}.
Variable create : dict -> T.
Variable run : dict -> T -> T.
Variable save : T -> B.
Variable load : B -> T -> T.
Variable score : T -> fval.
Variable prune : nat -> Z -> fval -> bool.
Variable v : nat.
Variables d max_epoch : Z.
Variable train_epochs : pystr.
Hypothesis v_pos : 1 <= v.
Hypothesis load_saved : forall t t', score (load (save t) t') = score t.
Notation D := (Z.to_nat (Z.max 1 d)).
Notation M := (Z.to_nat max_epoch / v).
Notation ss p := (validation (create p) (run p) score v).
Notation train := (train_early_stopping create run save load score prune (Z.of_nat v) d max_epoch train_epochs).

Lemma train_scored n p sc learnt : train n p = Scored sc learnt -> exists m b,
  stops_after (ss p) D M m /\ first_best (ss p) m b /\ sc = ss p b /\ learnt = [(train_epochs, VInt (Z.of_nat (b * v)))].
Proof.
  unfold train_early_stopping. destruct (learn_trial (create p) (run p) save load (Some score) (prune n) (Z.of_nat v) d max_epoch fresh_recommender) as [E|E].
  - destruct (learn_with_optimizer _ _ _ _ _ (Some _) _ _ _ _) as [[r log] o]. cbn [snd] in E. subst o. discriminate.
  - rewrite E. clear E. destruct (early_stopping (create p) (run p) save load score v d v_pos max_epoch fresh_recommender) as (m & n_run & H1 & H2 & H3 & H4 & H5).
    cbn zeta in *. destruct (learn_with_optimizer _ _ _ _ _ None _ _ _ _) as [[r log] o]. cbn [fst snd] in *.
    assert (ST : stops_after (ss p) D M m) by (split; [exact H2|]; split; [exact H3|]; destruct H4 as [[? _]|[? _]]; auto).
    destruct H5 as [(b & FB & -> & ->)|(_ & ->)]; [|discriminate]. cbn [r_trainer r_epochs]. intros [= <- <-]. exists m, b.
    split; [exact ST|]. split; [exact FB|]. split; [apply load_saved|reflexivity].
Qed.

Lemma train_pruned n p : (exists x, train n p = PrunedAt x) <-> exists m, m <= M /\ pruned_at (ss p) v D (prune n) m.
Proof.
  destruct (learn_pruned (create p) (run p) save load score v d v_pos (prune n) max_epoch fresh_recommender) as [E1 E2]. cbn zeta in *.
  unfold train_early_stopping. destruct (learn_with_optimizer _ _ _ _ _ (Some _) _ _ _ _) as [[r log] o]. cbn [fst snd] in *. split.
  - intros (x & Hx). destruct o as [[]|e| |]; try discriminate; [destruct (r_trainer r); discriminate|]. destruct e; try discriminate.
    destruct (E1 eq_refl) as (m & H1 & _ & H2). exists m. auto.
  - intros H. specialize (E2 H). subst o. eauto.
Qed.
Lemma train_pruned_value n p x m : train n p = PrunedAt x -> pruned_at (ss p) v D (prune n) m -> x = Some (ss p m).
Proof.
  destruct (learn_pruned (create p) (run p) save load score v d v_pos (prune n) max_epoch fresh_recommender) as [E1 E2]. cbn zeta in *.
  unfold train_early_stopping. destruct (learn_with_optimizer _ _ _ _ _ (Some _) _ _ _ _) as [[r log] o]. cbn [fst snd] in *. intros Hx Pm.
  destruct o as [[]|e| |]; try discriminate; [destruct (r_trainer r); discriminate|]. destruct e; try discriminate.
  destruct (E1 eq_refl) as (m' & H1 & H2 & H3).
  assert (m = m') as <-.
  { destruct Pm as (A1 & A2 & A3 & _), H3 as (B1 & B2 & B3 & _). destruct (Nat.lt_trichotomy m m') as [L|[L|L]]; [|exact L|].
    - rewrite B3 in A2 by lia. discriminate.
    - rewrite A3 in B2 by lia. discriminate. }
  injection Hx as <-. rewrite H2. destruct m as [|m]; [destruct Pm; lia|]. rewrite log_S, rev_unit. reflexivity.
Qed.

Variable digit_value : Z -> option Z.
Variable sample : nat -> sampler.
Hypothesis train_epochs_name : is_valid_param_name digit_value train_epochs = true.

Lemma tune_early_stopping suggest range fixed n best :
  let res := tune digit_value sample train true false suggest range fixed n [] in
  snd res = Ok best -> exists t m b, In t (fst res) /\
    stops_after (ss (t_used t)) D M m /\ first_best (ss (t_used t)) m b /\
    In (train_epochs, VInt (Z.of_nat (b * v))) best /\
    forall t' w m', In t' (fst res) -> t_state t' = Complete w -> stops_after (ss (t_used t')) D M m' ->
      forall i, 1 <= i <= m' -> fgt (ss (t_used t') i) (ss (t_used t) b) = false.
Proof.
  cbn zeta. intros E. destruct (best_score digit_value sample train suggest range fixed n best E) as (t & sc & learnt & I & Tr & NN & B' & MX).
  destruct (train_scored _ _ _ _ Tr) as (m & b & ST & FB & -> & ->). exists t, m, b. split; [exact I|]. split; [exact ST|]. split; [exact FB|]. split.
  - apply B'. right. split; [now left|exact train_epochs_name].
  - intros t' w m' I' S' ST' i Hi.
    destruct (tune_trials digit_value sample train true false suggest range fixed n [] (or_introl eq_refl)) as (k & _ & Et). cbn [app length] in Et.
    pose proof I' as J. rewrite Et in J. apply in_map_iff in J. destruct J as (j & <- & _).
    destruct (trial_fields sample train (used_suggest suggest range fixed) fixed j) as (N & _ & _ & C & _). cbn zeta in *.
    apply C in S'. destruct S' as (sc' & learnt' & Tr' & NN' & _). rewrite <- N in Tr' at 1.
    pose proof (MX _ _ _ I' Tr') as MX'. destruct (train_scored _ _ _ _ Tr') as (m'' & b' & ST'' & FB' & -> & _).
    rewrite (stops_unique _ _ _ _ _ ST' ST'') in Hi. destruct FB' as (_ & _ & F & _).
    eapply nle_trans; [apply F; exact Hi|exact MX'|exact NN'].
Qed.
End ES.

Lemma train_epochs_valid digit_value : is_valid_param_name digit_value (map Z.of_nat [116; 114; 97; 105; 110; 95; 101; 112; 111; 99; 104; 115]) = true.
Proof.
  apply valid_name. left. cbn. eexists _, _. split; [reflexivity|]. split; [left; left; lia|].
  intros x H. repeat (destruct H as [<-|H]; [solve [left; left; left; lia|right; auto]|]). destruct H.
Qed.
