(** Concrete inputs used by the examples of Prop_Sparse.v. *)
From Verif Require Import Base Sched_Model Knn_Model Knn_Spec Sparse_Model Sparse_Spec Sparse_Proofs.
From Coq Require Import QArith Reals Lra.
Local Open Scope nat_scope.

(** A 3x3 matrix by rows and a 3x2 matrix by columns. *)
Definition ex_left : smat Q :=
  {| m_cols := 3; m_rows := [[(0, 1%Q); (2, 2%Q)]; []; [(1, (1 # 2)%Q); (2, 3%Q)]] |}.
Definition ex_right : smat Q :=
  {| m_cols := 3; m_rows := [[(0, 4%Q); (2, 5%Q)]; [(1, 6%Q)]] |}.
Lemma ex_left_good : good_mat ex_left.
Proof.
  intros r [<-|[<-|[<-|[]]]]; cbn; (split; [repeat constructor; cbn; intuition discriminate|]); cbn; intros c Hc; intuition lia.
Qed.

(** Two users; item 0 was chosen by both, item 1 by the first one. *)
Definition ex_counts : smat R :=
  {| m_cols := 2; m_rows := [[(0, 1%R); (1, 2%R)]; [(0, 3%R)]] |}.
Lemma ex_counts_good : good_mat ex_counts.
Proof.
  intros r [<-|[<-|[]]]; cbn; (split; [repeat constructor; cbn; intuition discriminate|]); cbn; intros c Hc; intuition lia.
Qed.
Lemma ex_counts_positive : positive_reals ex_counts.
Proof. intros r e [<-|[<-|[]]] He; cbn in He; intuition (subst; cbn; lra). Qed.
Lemma ex_counts_tf_idf : exists w, In w (stored (tf_idf_weight ex_counts true) 1 0).
Proof. eexists. cbn. left. reflexivity. Qed.
Lemma ex_counts_bm25 : exists w, In w (stored (okapi_BM_25_weight ex_counts (6 / 5) (3 / 4)) 0 1).
Proof. eexists. cbn. left. reflexivity. Qed.
Lemma ex_counts_split v : with_value 2 [] [[(0, 3%R)]] [(0, 1%R)] [] 1 v
  = {| m_cols := 2; m_rows := [[(0, 1%R); (1, v)]; [(0, 3%R)]] |}.
Proof. reflexivity. Qed.
Lemma ex_tf_idf_negative : exists X i j w,
  good_mat X /\ positive_reals X /\ In w (stored (tf_idf_weight X true) i j) /\ (w < 0)%R.
Proof.
  destruct ex_counts_tf_idf as (w & H). exists ex_counts, 1, 0, w.
  split; [exact ex_counts_good|]. split; [exact ex_counts_positive|]. split; [exact H|].
  apply (proj2 (proj2 (tf_idf_sign ex_counts true 1 0 w ex_counts_good ex_counts_positive H))). vm_compute. auto.
Qed.
