(** C47: the mini-batches of MultVAE. *)
From Verif Require Import Base Vae_Model Vae_Spec Vae_Proofs Ex_Vae.
From Coq Require Import QArith Qround Qminmax.
Local Open Scope Z_scope.

(** Every epoch of a training run goes through every user exactly once, in the
    order of its shuffle, in full batches but for the last; the weight of the
    i-th update of epoch e is the goal times the share of the annealing steps
    done so far, at most 1. *)
Theorem C47_epochs : forall r64 r32 shuffles t,
  0 <= t_users t -> 0 < t_batch t -> ~ (t_total t == 0)%Q ->
  Forall (fun u => Permutation u (seq 0 (Z.to_nat (t_users t)))) shuffles ->
  let per_epoch := (t_users t + t_batch t - 1) / t_batch t in
  exists t' logs, run_epochs r64 r32 shuffles t = Ok (t', logs) /\
    length logs = length shuffles /\
    t_count t' = t_count t + Z.of_nat (length shuffles) * per_epoch /\
    forall e, (e < length shuffles)%nat ->
      let log := nth e logs [] in
      partition_of_users (Z.to_nat (t_users t)) (map fst log) /\
      batch_sizes (Z.to_nat (t_batch t)) (map fst log) /\
      concat (map fst log) = nth e shuffles [] /\
      Z.of_nat (length log) = per_epoch /\
      (forall i, (i < length log)%nat ->
         nth_error (map snd log) i =
         Some (weight r64 r32 (t_goal t) (t_total t)
           (t_count t + Z.of_nat e * per_epoch + Z.of_nat i))).
Proof.
  intros r64 r32 shuffles t N B T F per_epoch.
  assert (Q : Qeq_bool (t_total t) 0 = false)
    by (destruct (Qeq_bool (t_total t) 0) eqn:E; [apply Qeq_bool_eq in E; contradiction | reflexivity]).
  destruct (run_epochs_eq r64 r32 shuffles t (conj N (conj B Q)) F) as (logs & E & L & H).
  eexists. exists logs. split; [exact E|]. split; [exact L|]. split; [reflexivity | exact H].
Qed.
Print Assumptions C47_epochs.

(** The weight of an update after [j] others never exceeds the (rounded) goal,
    is never negative, does not decrease, *)
Theorem C47_weight : forall r64 r32, monotone r64 -> monotone r32 -> forall goal total j,
  (0 <= goal)%Q ->
  (weight r64 r32 goal total j <= r32 (r64 goal))%Q /\
  ((0 < total)%Q -> forall k, j <= k -> (weight r64 r32 goal total j <= weight r64 r32 goal total k)%Q) /\
  ((0 < total)%Q -> 0 <= j -> (r64 0 == 0)%Q -> (r32 0 == 0)%Q -> (0 <= weight r64 r32 goal total j)%Q).
Proof.
  intros r64 r32 M64 M32 goal total j G. split; [exact (weight_cap r64 r32 M64 M32 goal total j G)|].
  split; [intros T k; exact (weight_mono r64 r32 M64 M32 goal total j k G T)
         | intros T J; exact (weight_nonneg r64 r32 M64 M32 goal total j G T J)].
Qed.
Print Assumptions C47_weight.

(** and is the goal from epoch [anneal_end_epoch] on, whether or not the batch
    size divides the number of users. *)
Theorem C47_annealed : forall r64 r32, monotone r64 -> monotone r32 -> (r64 1 == 1)%Q ->
  forall n goal a mb t, 0 < n -> 0 < mb -> make_trainer r64 n goal a mb = Ok t -> (0 < t_total t)%Q ->
  forall e i, 0 <= a <= e -> 0 <= i ->
  let j := t_count t + e * ((n + mb - 1) / mb) + i in
  (r64 (inject_Z j) == inject_Z j)%Q ->
  (weight r64 r32 (t_goal t) (t_total t) j == r32 (r64 goal))%Q.
Proof.
  intros r64 r32 M64 M32 One n goal a mb t N B E T e i A I j X.
  unfold make_trainer in E. destruct (mb =? 0) eqn:Z0; [discriminate|]. inversion E; subst t. cbn in *.
  apply weight_full; auto. apply (anneal_reached r64 M64 n mb a e i); auto. lia.
Qed.
Print Assumptions C47_annealed.

(** Scores do not depend on the batch size, provided the network treats rows
    separately. *)
Theorem C47_scores : forall (row srow : Type) (f : row -> srow) score_batch X mb,
  (forall b, score_batch b = map f b) -> 0 < mb -> X <> [] ->
  get_score_cold_user score_batch mb X = Ok (map f X).
Proof. exact @scores_eq. Qed.
Print Assumptions C47_scores.

(** ** Where it fails *)
(** No annealing ([anneal_end_epoch=0]) is an error once there is a user. *)
Theorem C47_no_annealing_refuted : exists r64 r32 t,
  make_trainer r64 7 (1 # 5) 0 3 = Ok t /\
  run_epoch r64 r32 (seq 0 7) t = Fail ZeroDivision.
Proof. exists (fun q => q), (fun q => q). eexists. split; [reflexivity|]. vm_compute. reflexivity. Qed.
Print Assumptions C47_no_annealing_refuted.
(** A negative batch size is accepted and trains on nobody. *)
Theorem C47_negative_batch_refuted : exists r64 r32 t t',
  make_trainer r64 7 (1 # 5) 2 (-3) = Ok t /\
  run_epoch r64 r32 (seq 0 7) t = Ok (t', []).
Proof. exists (fun q => q), (fun q => q). do 2 eexists. split; vm_compute; reflexivity. Qed.
Print Assumptions C47_negative_batch_refuted.
(** Scoring nobody is an error. *)
Theorem C47_no_users_refuted : exists mb, 0 < mb /\
  get_score_cold_user (fun b : list nat => b) mb [] = Fail ValueError.
Proof. exists 3. split; [lia | reflexivity]. Qed.
Print Assumptions C47_no_users_refuted.

(** ** Examples *)
Example epochs_example :
  make_trainer tenths 7 (1 # 5) 2 3 = Ok small_trainer /\
  Forall (fun u => Permutation u (seq 0 7)) two_shuffles /\
  omap (fun '(t, logs) => (t_count t, map (map (fun '(u, w) => (u, Qred w))) logs))
       (run_epochs tenths tenths two_shuffles small_trainer) =
  Ok (6, [[([3; 0; 6]%nat, 0); ([1; 2; 5]%nat, 0); ([4]%nat, 0)];
          [([6; 5; 4]%nat, 1 # 10); ([3; 2; 1]%nat, 1 # 10); ([0]%nat, 1 # 5)]]%Q).
Proof.
  split; [reflexivity|]. split; [|vm_compute; reflexivity].
  unfold two_shuffles. repeat constructor.
  - apply NoDup_Permutation; [repeat constructor; cbn; intuition lia | apply seq_NoDup | intros x; cbn; intuition].
  - apply NoDup_Permutation; [repeat constructor; cbn; intuition lia | apply seq_NoDup | intros x; cbn; intuition].
Qed.
Example scores_example :
  get_score_cold_user (map S) 3 [5; 6; 7; 8]%nat = Ok [6; 7; 8; 9]%nat.
Proof. reflexivity. Qed.
