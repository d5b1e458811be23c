(** Concrete inputs used by the examples of Prop_KnnK.v. *)
From Verif Require Import Base Knn_Model Knn_Spec Ex_Knn KnnK_Spec KnnSim_Proofs.
From Coq Require Import QArith.
Local Open Scope nat_scope.

(** Three users; all of them chose item 0, and each one item of their own. *)
Definition ex_hub : smat Q :=
  {| m_cols := 4; m_rows := [[(0, 1%Q); (1, 1%Q)]; [(0, 1%Q); (2, 1%Q)]; [(0, 1%Q); (3, 1%Q)]] |}.
Lemma ex_hub_good : good_mat ex_hub.
Proof.
  intros r [<-|[<-|[<-|[]]]]; cbn; (split; [repeat constructor; cbn; intuition discriminate|]); cbn; intros c Hc; intuition lia.
Qed.
Lemma ex_hub_users u i : interacted ex_hub u i <-> u < 3 /\ (i = 0 \/ i = S u).
Proof.
  unfold interacted, stored. destruct u as [|[|[|u]]]; cbn [nth m_rows ex_hub].
  1-3: destruct i as [|[|[|[|i]]]]; cbn; (split; [intros H; try congruence; lia|intros H; try discriminate; lia]).
  cbn. destruct u; cbn; split; [congruence|lia|congruence|lia].
Qed.
Lemma ex_hub_distinct i j u : interacted ex_hub u i -> j <> i -> ~ same_users ex_hub i j.
Proof.
  intros H Hj S. apply ex_hub_users in H. destruct H as [Hu [->| ->]].
  - pose proof (proj1 (S 0) (proj2 (ex_hub_users 0 0) ltac:(lia))) as A. pose proof (proj1 (S 1) (proj2 (ex_hub_users 1 0) ltac:(lia))) as B.
    apply ex_hub_users in A. apply ex_hub_users in B. lia.
  - pose proof (proj1 (S u) (proj2 (ex_hub_users u (Datatypes.S u)) ltac:(lia))) as A. apply ex_hub_users in A.
    destruct A as [_ [->|A]]; [|lia].
    assert (exists u', u' < 3 /\ u' <> u) as (u' & H1 & H2) by (destruct u; [exists 1|exists 0]; lia).
    pose proof (proj2 (S u') (proj2 (ex_hub_users u' 0) ltac:(lia))) as B. apply ex_hub_users in B. lia.
Qed.
