(** Concrete inputs used by the examples of Prop_Slim.v. *)
From Verif Require Import Base Eval_Model Sort_Proofs Sched_Model Knn_Model Knn_Spec Slim_Model Slim_Spec.
From Coq Require Import QArith Qabs.
Local Open Scope nat_scope.

(** A generator that reverses every other time. *)
Definition ex_shuffle (g : nat) (l : list nat) : list nat * nat := (if Nat.even g then l else rev l, S g).
Lemma ex_shuffle_ok : shuffle_ok ex_shuffle.
Proof. intros g l. unfold ex_shuffle. destruct (Nat.even g); cbn; [reflexivity|symmetry; apply Permutation_rev]. Qed.
Definition ex_sort_desc (l : list (Q * nat)) : list (Q * nat) := sort_by (fun a b => qltb (fst b) (fst a)) l.

Lemma exact_is_zero_ok : exact_test exact_is_zero.
Proof.
  intros d. unfold exact_is_zero. rewrite forallb_forall. split; intros H x Hx; specialize (H x Hx); now apply Qeq_bool_iff.
Qed.

(** Three rows, four items. *)
Definition ex_cols : list (srow Q) :=
  [[(0, 5%Q); (1, 8%Q); (2, 20%Q)]; [(0, 1%Q)]; [(0, 1%Q); (1, 1%Q)]; [(2, 1%Q)]].
Lemma ex_cols_good : good_columns 3 ex_cols.
Proof.
  intros c [<-|[<-|[<-|[<-|[]]]]]; cbn; (split; [repeat constructor; cbn; intuition discriminate|]); cbn; intros i Hi; intuition lia.
Qed.

(** SLIM with the exact test on [ex_cols]. *)
Definition ex_slim (l2 l1 tol : Q) n_iter top_k n_threads sched : outcome (smat Q) :=
  slim_Q exact_is_zero 0 ex_shuffle ex_sort_desc true 2 3 ex_cols l2 l1 tol n_iter top_k n_threads sched.

Definition ex_reduced (o : outcome (smat Q)) : list (srow Q) :=
  match o with Ok W => map (map (fun e => (fst e, Qred (snd e)))) (m_rows W) | _ => [] end.

(** One row: 0.001, 100, 100, 1. *)
Definition ex_tiny : list (srow Q) := [[(0, (1 # 1000)%Q)]; [(0, 100%Q)]; [(0, 100%Q)]; [(0, 1%Q)]].

(** Two orthogonal items and a third one; the descent settles in one sweep. *)
Definition ex_easy : list (srow Q) := [[(0, 2%Q); (1, 3%Q)]; [(0, 1%Q)]; [(1, 1%Q)]].
Lemma ex_easy_good : good_columns 2 ex_easy.
Proof.
  intros c [<-|[<-|[<-|[]]]]; cbn; (split; [repeat constructor; cbn; intuition discriminate|]); cbn; intros i Hi; intuition lia.
Qed.
