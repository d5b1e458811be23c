(** Generators and data for the examples of C68. *)
From Verif Require Import Base Rec_Model Seed_Spec Ex_Split.
Local Open Scope nat_scope.

(** Generators that count, and rotate by the count. *)
Definition ex_permute (g : Z) (n : nat) : list nat * Z :=
  let k := Z.to_nat (g mod Z.of_nat n) in (skipn k (seq 0 n) ++ firstn k (seq 0 n), (g + 1)%Z).
Lemma ex_permute_ok : permutes ex_permute.
Proof. intros g n. unfold ex_permute. cbn [fst]. rewrite Permutation_app_comm, firstn_skipn. reflexivity. Qed.
Definition ex_randint (g : Z) : Z * Z := ((7 * g + 3) mod 11, g + 1)%Z.
Definition ex_rowwise := rowwise_seeded (fun z => z) 0%Z ex_randint (fun z => z) ex_permute exact_rnd.
Definition ex_partial uniq_i := partial_seeded (fun z => z) 0%Z ex_permute ex_randint (fun z => z) ex_permute exact_rnd Nat.eq_dec Nat.eq_dec ex_uniq uniq_i ex_sort.
(** Another order of sets. *)
Definition ex_uniq' (s : listing) (l : list nat) : list nat := match s with BySet => rev (ex_uniq s l) | _ => ex_uniq s l end.
Lemma ex_uniq'_ok : lists_distinct ex_uniq' /\ same_but_sets ex_uniq ex_uniq'.
Proof.
  split; [|intros l; split; reflexivity]. intros s l. destruct (ex_uniq_ok s l) as [N H]. destruct s; cbn [ex_uniq']; auto.
  split; [now apply NoDup_rev|]. intros x. rewrite <- in_rev. apply H.
Qed.
Definition timed_options : options := mkOptions true false (Some 1%Z) (Some 2%Z) (1 # 10) (1 # 2) (1 # 2) None (1 # 2) None true.
