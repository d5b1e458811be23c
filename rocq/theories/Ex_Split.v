(** Concrete oracles and data for the examples and counterexamples of C17-C22, C43. *)
From Verif Require Import Base Sort_Proofs Rec_Model Rec_Proofs Split_Spec Split_Proofs SplitDf_Proofs SplitTop_Proofs SplitTotal_Proofs Float_Model.
Local Open Scope nat_scope.

Definition exact_rnd (q : Q) : Q := q.
Lemma exact_faithful B : faithful exact_rnd B.
Proof. split; intros; unfold exact_rnd; [auto|reflexivity]. Qed.
Definition ex_uniq (_ : listing) : list nat -> list nat := nodup Nat.eq_dec.
Lemma ex_uniq_ok : lists_distinct ex_uniq.
Proof. intros s l. split; [apply NoDup_nodup|]. intros x. apply nodup_In. Qed.

Fixpoint insert {X} (le : X -> X -> bool) (x : X) (l : list X) : list X :=
  match l with [] => [x] | y :: l' => if le x y then x :: l else y :: insert le x l' end.
Definition isort {X} (le : X -> X -> bool) (l : list X) : list X := fold_right (insert le) [] l.
Lemma insert_perm {X} (le : X -> X -> bool) x l : Permutation (insert le x l) (x :: l).
Proof. induction l as [|y l IH]; cbn; auto. destruct (le x y); auto. rewrite IH. apply perm_swap. Qed.
Lemma isort_perm {X} (le : X -> X -> bool) l : Permutation (isort le l) l.
Proof. induction l as [|x l IH]; cbn; auto. rewrite insert_perm. now constructor. Qed.
Lemma isort_sorted {X} (le : X -> X -> bool) (l : list X) : (forall a b, le a b = true \/ le b a = true) -> (forall a b c, le a b = true -> le b c = true -> le a c = true) ->
  StronglySorted (fun a b => le a b = true) (isort le l).
Proof.
  intros Ht Htr. induction l as [|x l IH]; cbn; [constructor|]. fold (isort le l). induction IH as [|y s HS IHs HF]; cbn; [repeat constructor|].
  destruct (le x y) eqn:E.
  - constructor; [now constructor|]. constructor; auto. eapply Forall_impl; [|exact HF]. cbn. intros a Ha. eauto.
  - constructor; auto. rewrite insert_perm. constructor; auto. destruct (Ht x y); congruence.
Qed.
Notation ex_event := (event nat nat nat).
Definition before (a b : ex_event) : bool := (ev_u a <? ev_u b) || ((ev_u a =? ev_u b) && (ev_t a <=? ev_t b)).
Definition ex_sort : list ex_event -> list ex_event := isort before.
Lemma ex_sort_ok : sorts_time Nat.le ex_sort.
Proof.
  intros l. split; [apply isort_perm|].
  assert (G : forall a b, before a b = true <-> ev_u a < ev_u b \/ (ev_u a = ev_u b /\ ev_t a <= ev_t b)).
  { intros a b. unfold before. rewrite orb_true_iff, andb_true_iff, Nat.ltb_lt, Nat.eqb_eq, Nat.leb_le. tauto. }
  eapply sorted_impl_in; [|apply (isort_sorted before)].
  - cbn. intros a b _ _ H E. apply G in H. unfold Nat.le. lia.
  - intros a b. rewrite !G. lia.
  - intros a b c. rewrite !G. lia.
Qed.
Lemma ex_oracles : oracles_ok ex_uniq ex_uniq Nat.le ex_sort.
Proof. constructor; [apply ex_uniq_ok|apply ex_uniq_ok|apply ex_sort_ok]. Qed.
(** Shuffles: reversal. *)
Definition ex_row_shuffle (r n : nat) : list nat := rev (seq 0 n).
Lemma ex_row_shuffle_ok : row_shuffles ex_row_shuffle.
Proof. intros r n. symmetry. apply Permutation_rev. Qed.
Definition ex_shuffle (l : list nat) : list nat := rev l.
Lemma ex_shuffle_ok : shuffles ex_shuffle.
Proof. intros l. symmetry. apply Permutation_rev. Qed.
Definition ex_choices : choices nat := mkChoices ex_shuffle ex_shuffle ex_row_shuffle ex_row_shuffle.
Lemma ex_choices_ok : choices_ok ex_choices.
Proof. constructor; [apply ex_shuffle_ok|apply ex_shuffle_ok|apply ex_row_shuffle_ok|apply ex_row_shuffle_ok]. Qed.

(** A 3 x 5 matrix. *)
Definition ex_rows : list (list (nat * Q)) := [[(0, 2%Q); (1, 3%Q); (4, 1%Q)]; []; [(0, 7%Q); (2, (-1)%Q); (3, 5%Q); (4, 5%Q)]].
(** Five users, a duplicate row (user 1, item 11), tied times. *)
Definition ex_df : list ex_event :=
  [mkEvent 1 10 5 2%Q; mkEvent 1 11 3 1%Q; mkEvent 1 12 5 4%Q; mkEvent 2 10 1 5%Q; mkEvent 2 12 2 3%Q; mkEvent 3 11 4 2%Q;
   mkEvent 1 11 9 3%Q; mkEvent 4 10 2 1%Q; mkEvent 4 11 2 1%Q; mkEvent 4 12 7 1%Q; mkEvent 5 12 1 (1 # 2)%Q; mkEvent 5 10 3 (5 # 2)%Q].
Definition base_options : options :=
  mkOptions false false (Some 1%Z) (Some 2%Z) (1 # 10) (1 # 2) (1 # 2) None (1 # 2) None true.
Definition ex_split (o : options) (df : list ex_event) := partial_user_holdout Nat.eq_dec Nat.eq_dec ex_uniq ex_uniq exact_rnd ex_sort df o ex_choices.
Definition many_users (n : nat) : list ex_event := map (fun u => mkEvent u 0 0 1%Q) (seq 0 n).
