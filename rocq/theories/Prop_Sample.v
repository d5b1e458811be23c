(** C62: example data of the wanted density. *)
From Verif Require Import Base Sample_Model Sample_Spec Sample_Proofs.
From Coq Require Import Reals Lra.
Local Open Scope R_scope.

(** The probability that entry (i, j) of the result is stored. *)
Definition chance (U V : list (list R)) (target : R) (i j : nat) : R :=
  expectation (concat (probabilities U V target)) (fun flips =>
    if existsb (Nat.eqb j) (nth i (value_or [] (mf_example_data U V target flips)) []) then 1 else 0).
(** The expected share of stored entries. *)
Definition mean_density (U V : list (list R)) (target : R) : R :=
  expectation (concat (probabilities U V target)) (fun flips =>
    density (length U) (length V) (value_or [] (mf_example_data U V target flips))).

Theorem C62_density : forall U V target, U <> [] -> V <> [] ->
  Rabs (mean_density U V target - clamp (density_at U V (-100)) (density_at U V 100) target) <= / 400000.
Proof. exact expected_near. Qed.
Print Assumptions C62_density.

Theorem C62_target_reached : forall U V target, U <> [] -> V <> [] ->
  (forall u v, In u U -> In v V -> -80 <= vdot u v <= 80) ->
  / 1000000 <= target <= 1 - / 1000000 ->
  Rabs (mean_density U V target - target) <= / 400000.
Proof. exact expected_reached. Qed.
Print Assumptions C62_target_reached.

Theorem C62_entries : forall U V target flips, length flips = (length U * length V)%nat ->
  exists rows, mf_example_data U V target flips = Ok rows /\ length rows = length U /\
  forall i j, In j (nth i rows []) <->
    (i < length U)%nat /\ (j < length V)%nat /\ nth (i * length V + j) flips false = true.
Proof. exact result_shape. Qed.
Print Assumptions C62_entries.

Theorem C62_chance : forall U V target, exists b, -100 <= b <= 100 /\
  forall i j, (i < length U)%nat -> (j < length V)%nat ->
    chance U V target i j = / (1 + exp (- (vdot (nth i U []) (nth j V []) + b))).
Proof. exact chance_of. Qed.
Print Assumptions C62_chance.

(** Two users and three items. *)
Definition ex_U : list (list R) := [[1; 0]; [-1; 2]].
Definition ex_V : list (list R) := [[2; 1]; [0; 3]; [-1; 0]].
Example C62_density_ex : Rabs (mean_density ex_U ex_V (3 / 10) - 3 / 10) <= / 400000.
Proof.
  apply C62_target_reached; try discriminate; [|lra].
  intros u v [<-|[<-|[]]] [<-|[<-|[<-|[]]]]; unfold vdot, Rsum; cbn; lra.
Qed.
Example C62_chance_ex :
  chance ex_U ex_V (3 / 10) 0 0 > chance ex_U ex_V (3 / 10) 0 1 /\
  chance ex_U ex_V (3 / 10) 1 1 > chance ex_U ex_V (3 / 10) 0 0.
Proof.
  destruct (C62_chance ex_U ex_V (3 / 10)) as [b [_ H]]. rewrite !H by (cbn; lia).
  assert (forall x y, x < y -> / (1 + exp (- (y + b))) > / (1 + exp (- (x + b)))) as Hm.
  { intros x y Hxy. pose proof (exp_pos (- (x + b))). pose proof (exp_pos (- (y + b))).
    pose proof (exp_increasing (- (y + b)) (- (x + b)) ltac:(lra)). apply Rlt_gt.
    apply Rinv_lt_contravar; [apply Rmult_lt_0_compat; lra|lra]. }
  split; apply Hm; unfold vdot, Rsum; cbn; lra.
Qed.
Example C62_entries_ex : exists rows, mf_example_data ex_U ex_V (3 / 10) [true; false; true; false; false; true] = Ok rows /\
  In 2%nat (nth 0 rows []) /\ ~ In 1%nat (nth 0 rows []) /\ ~ In 0%nat (nth 1 rows []) /\ In 2%nat (nth 1 rows []).
Proof.
  destruct (C62_entries ex_U ex_V (3 / 10) [true; false; true; false; false; true] eq_refl) as [rows [E [_ H]]].
  exists rows. rewrite E, !H. cbn. repeat split; try lia; intros [_ [_ X]]; discriminate X.
Qed.

(** A target that no matrix can have is accepted; the result misses it. *)
Theorem C62_any_target_refuted : exists U V target,
  (forall flips, length flips = (length U * length V)%nat -> exists rows, mf_example_data U V target flips = Ok rows) /\
  Rabs (mean_density U V target - target) >= 1.
Proof.
  exists ex_U, ex_V, 2. split.
  - intros flips H. destruct (C62_entries ex_U ex_V 2 flips H) as [rows [E _]]. exists rows. exact E.
  - pose proof (mean_density_le_1 ex_U ex_V 2 ltac:(discriminate) ltac:(discriminate)) as H.
    fold (mean_density ex_U ex_V 2) in H. rewrite Rabs_minus_sym, Rabs_right; lra.
Qed.
Print Assumptions C62_any_target_refuted.
