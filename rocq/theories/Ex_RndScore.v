(** Concrete inputs used by the examples of Prop_RndScore.v. *)
From Coq Require Import QArith Qreals Reals.
From Verif Require Import Base Knn_Model Knn_Spec KnnRnd_Model KnnRnd_Spec RndScore_Model RndScore_Spec Float_Model Ex_Knn Ex_KnnRnd.
Local Open Scope nat_scope.

Definition ex_item_learn (kd : rkind) := ritem_learn round64 sqrt64 ex_pow ex_apow ex_layout ex_nth ex_sort kd 3 2 (fun Y => Y).
Definition ex_user_learn (kd : rkind) := ruser_learn round64 sqrt64 ex_pow ex_apow ex_layout ex_nth ex_sort kd 3 2 (fun Y => Y).
(** The scores of all items, as reduced fractions. *)
Definition ex_item_scores (kd : rkind) (X : smat Q) (k : nat) (x : srow Q) : list Q :=
  match ex_item_learn kd X k with Ok W => map (fun i => Qred (ritem_score round64 W x i)) (seq 0 (m_cols X)) | _ => [] end.
Definition ex_user_scores (kd : rkind) (X : smat Q) (k : nat) (u : nat) : list Q :=
  match ex_user_learn kd X k with Ok U => map (fun i => Qred (ruser_score round64 U X u i)) (seq 0 (m_cols X)) | _ => [] end.

Lemma ex_X_good : good_mat ex_X.
Proof.
  intros r Hr. cbn in Hr. repeat (destruct Hr as [<-|Hr]; [cbn; (split; [repeat constructor; cbn; intuition discriminate|]); cbn; intros c Hc; intuition lia|]). destruct Hr.
Qed.
Lemma ex_X_moderate : moderate_values 16 ex_X.
Proof.
  intros r e Hr He. cbn in Hr. repeat (destruct Hr as [<-|Hr]; [cbn in He;
    repeat match type of He with _ \/ _ => destruct He as [<-|He] | False => destruct He end; right; split; discriminate|]). destruct Hr.
Qed.

(** Four users and five items; items 3 and 4 are equally similar to the items of
    the profile. *)
Definition ex_tie : smat Q :=
  {| m_cols := 5;
     m_rows := [[(0, 1%Q); (1, 1%Q); (4, 1%Q)]; []; [(0, 1%Q); (2, 1%Q); (3, 1%Q); (4, 1%Q)]; [(1, 1%Q); (2, 1%Q); (3, 1%Q)]] |}.
Definition ex_profile : srow Q := [(0, 1%Q); (1, 1%Q); (2, 1%Q)].
Lemma ex_tie_good : good_mat ex_tie.
Proof. intros r [<-|[<-|[<-|[<-|[]]]]]; cbn; (split; [repeat constructor; cbn; intuition discriminate|]); cbn; intros c Hc; intuition lia. Qed.
Lemma ex_tie_equal :
  let score := full_item_score (fun j i => documented (RJaccard 0) (column ex_tie j) (column ex_tie i)) ex_profile in
  score 3 = score 4 /\ (0 < score 3%nat)%R.
Proof.
  assert (forall i a b c, (i =? 0) = false -> (i =? 1) = false -> (i =? 2) = false ->
    jaccard_index 0 (support (column ex_tie 0)) (support (column ex_tie i)) = a ->
    jaccard_index 0 (support (column ex_tie 1)) (support (column ex_tie i)) = b ->
    jaccard_index 0 (support (column ex_tie 2)) (support (column ex_tie i)) = c ->
    full_item_score (fun j i => documented (RJaccard 0) (column ex_tie j) (column ex_tie i)) ex_profile i = Q2R (1 * a + (1 * b + (1 * c + 0)))) as H.
  { intros i a b c H0 H1 H2 <- <- <-. unfold full_item_score, ex_profile. cbn [map fst snd documented]. rewrite Nat.eqb_sym in H0, H1, H2. rewrite H0, H1, H2.
    unfold Rsum. cbn [fold_right]. rewrite !Q2R_plus, !Q2R_mult. f_equal. f_equal. f_equal. unfold Q2R. cbn. symmetry. apply Rmult_0_l. }
  cbn zeta. rewrite (H 3 _ _ _ eq_refl eq_refl eq_refl eq_refl eq_refl eq_refl), (H 4 _ _ _ eq_refl eq_refl eq_refl eq_refl eq_refl eq_refl). split.
  - apply Qeq_eqR. vm_compute. reflexivity.
  - rewrite <- RMicromega.Q2R_0. apply Qlt_Rlt. vm_compute. reflexivity.
Qed.
