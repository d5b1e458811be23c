(** Data for the examples about the scoring interface. *)
From Coq Require Import QArith.
From Verif Require Import Base Eval_Model Score_Model Score_Spec.
Local Open Scope nat_scope.

(** three users, two items; the second user has an explicitly stored zero *)
Definition ex_X : list srow := [[(0, 1%Q)]; [(0, 0%Q); (1, 2%Q)]; []].
Definition ex_sim := mkRec ex_X 2 (Similarity (Some [[0; 3]; [5; 0]]%Q)).
Definition ex_usim := mkRec ex_X 2 (UserSimilarity (Some [[0; 1; 0]; [1; 0; 0]; [0; 0; 0]]%Q)).
Definition ex_bpr := mkRec ex_X 2 (Bprfm (Some ([[1]; [2]; [3]], [[1]; [4]], [7; 9])%Q)).
Definition ex_svd := mkRec ex_X 2 (TruncSVD (Some ([[1]; [2]; [3]], [[1; 4]])%Q)).
Definition ex_ials := mkRec ex_X 2 (Ials (Some ([[1]; [2]; [3]], [[1]; [4]])%Q)).
Definition ex_pop := mkRec ex_X 2 (TopPop (Some (toppop_learn ex_X 2))).
Definition ex_new := mkRec ex_X 2 (Similarity None).

Lemma ex_cols x e : In x ex_X -> In e x -> fst e < 2.
Proof. cbn. intros [<-|[<-|[<-|[]]]]; cbn; intuition (subst; cbn; auto). Qed.
Lemma ex_sim_wf : well_formed ex_sim.
Proof. split; [exact ex_cols|]. split; [reflexivity|]. cbn. intuition (subst; auto). Qed.
Lemma ex_bpr_wf : well_formed ex_bpr.
Proof. split; [exact ex_cols|]. cbn. split; [exists 1; split; split; cbn; auto; intuition (subst; auto)|reflexivity]. Qed.
Lemma ex_svd_wf : well_formed ex_svd.
Proof. split; [exact ex_cols|]. cbn. exists 1; split; split; cbn; auto; intuition (subst; auto). Qed.
Lemma ex_ials_wf : well_formed ex_ials.
Proof. split; [exact ex_cols|]. cbn. exists 1; split; split; cbn; auto; intuition (subst; auto). Qed.
