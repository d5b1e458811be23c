(** Concrete inputs used by the examples of Prop_Knn.v. *)
From Verif Require Import Base Eval_Model Sort_Proofs Rec_Proofs Knn_Model Knn_Spec.
From Coq Require Import QArith Reals Lra.
Local Open Scope nat_scope.

(** Library calls that meet their contracts: entries stored backwards,
    std::nth_element by a full sort. *)
Definition ex_layout {V} (r : srow V) : srow V := rev r.
Definition ex_nth (comp : nat -> nat -> bool) (_ : nat) (l : list nat) : list nat := sort_by comp l.
Definition ex_sort (l : list nat) : list nat := sort_by Nat.ltb l.

Lemma ex_layout_ok {V} : layout_ok (@ex_layout V).
Proof. intros r. symmetry. apply Permutation_rev. Qed.
Lemma ex_nth_ok : nth_element_ok ex_nth.
Proof.
  intros comp k l (irr & tr & neg) Hk. unfold ex_nth. split; [apply sort_by_perm|].
  assert (P : partial_sorted comp k l (sort_by comp l)).
  { apply sort_by_partial_sorted.
    - intros a b H. destruct (comp b a) eqn:E; auto. rewrite <- (irr a). symmetry. now apply (tr a b a).
    - intros a b c H1 H2. destruct (comp a c) eqn:E; auto. destruct (neg a c b E); congruence. }
  intros a b Ha Hb. exact (psc_rest _ _ _ _ P a b Ha Hb).
Qed.
Lemma ex_sort_ok : sort_nat_ok ex_sort.
Proof.
  intros l. split; [apply sort_by_perm|]. unfold ex_sort.
  eapply sorted_impl_in; [|apply sort_by_sorted; intros; [apply nat_ltb_asym|eapply nat_ltb_negtrans]; eauto].
  cbn. intros a b _ _ H. unfold nle in H. now apply Nat.ltb_ge in H.
Qed.
Lemma ex_library_ok : library_ok ex_layout ex_layout ex_nth ex_sort.
Proof. split; [apply ex_layout_ok|]. split; [apply ex_layout_ok|]. split; [apply ex_nth_ok|apply ex_sort_ok]. Qed.

(** Four items described by the users 0-4 who chose them. *)
Definition ex_items : smat Q :=
  {| m_cols := 5;
     m_rows := [[(0, 1%Q); (1, 2%Q); (2, 1%Q)]; [(1, 1%Q); (2, 1%Q)]; [(0, 3%Q); (1, 1%Q); (2, 1%Q); (4, 1%Q)]; [(3, 1%Q)]] |}.
(** The same as an interaction matrix (users by items). *)
Definition ex_X : smat Q := transpose ex_items.
Lemma ex_items_good : good_mat ex_items.
Proof.
  intros r [<-|[<-|[<-|[<-|[]]]]]; cbn; (split; [repeat constructor; cbn; intuition discriminate|]); cbn; intros c Hc; intuition lia.
Qed.
Lemma ex_X_positive : positive_values ex_X.
Proof. intros r e Hr He. cbn in Hr. repeat (destruct Hr as [<-|Hr]; [cbn in He; intuition (subst; reflexivity)|]). destruct Hr. Qed.

Definition ex_pair : smat R := {| m_cols := 2; m_rows := [[(0, 3%R); (1, 4%R)]] |}.
Lemma ex_pair_good : good_mat ex_pair.
Proof.
  intros r [<-|[]]; cbn; (split; [repeat constructor; cbn; intuition discriminate|]); cbn; intros c Hc; intuition lia.
Qed.

Definition ex_unwrap {V} (o : outcome (smat V)) : list (srow V) :=
  match o with Ok M => m_rows M | _ => [] end.

Lemma ex_pair_cosine : exists M v,
  obind (cosine_ctor ex_layout ex_pair 0 true 1 1) (fun q => compute_R ex_nth ex_sort q ex_pair 5) = Ok M /\
  stored M 0 0 = [v] /\ (9 / 10 < v)%R.
Proof.
  unfold cosine_ctor, base_ctor_R, check_arg. destruct (Rlt_dec 0 0) as [H|_]; [lra|].
  eexists. eexists. split; [cbn -[Rplus Rmult sqrt Rdiv eps_R]; reflexivity|]. split; [cbn -[Rplus Rmult sqrt Rdiv eps_R]; reflexivity|].
  unfold norm, sq_norm, eps_R; cbn -[Rplus Rmult sqrt Rdiv].
  replace (0 + 3 * 3 + 4 * 4)%R with (5 * 5)%R by lra. rewrite sqrt_square by lra. lra.
Qed.
