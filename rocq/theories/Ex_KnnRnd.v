(** Concrete inputs used by the examples of Prop_KnnRnd.v. *)
From Verif Require Import Base Knn_Model Knn_Spec KnnRnd_Model KnnRnd_Spec Float_Model Ex_Knn.
From Coq Require Import QArith.
Local Open Scope nat_scope.

(** Double precision; the powers of the examples have exponent 1. *)
Definition ex_pow (x _ : Q) : Q := x.
Definition ex_apow (l : list Q) (_ : Q) : list Q := l.
Definition ex_double (kd : rkind) : nat -> nat -> smat Q -> smat Q -> nat -> outcome (smat Q) :=
  rsimilarity round64 sqrt64 ex_pow ex_apow ex_layout ex_nth ex_sort kd.
(** The double nearest to 0.1, to 0.5 and so on. *)
Definition ex_tenth : Q := Qred (round64 (1 # 10)).
(** Two items with 3 and 5 users, one in common. *)
Definition ex_two : smat Q :=
  {| m_cols := 7;
     m_rows := [[(0, 1%Q); (1, 1%Q); (2, 1%Q)]; [(2, 1%Q); (3, 1%Q); (4, 1%Q); (5, 1%Q); (6, 1%Q)]] |}.
(** One item with three large equal values. *)
Definition ex_large : smat Q :=
  {| m_cols := 3; m_rows := [[(0, inject_Z 1048576); (1, inject_Z 1048576); (2, inject_Z 1048576)]] |}.
(** Nine users with the same only item. *)
Definition ex_nine : smat Q := {| m_cols := 1; m_rows := repeat [(0, 1%Q)] 9 |}.

Lemma ex_two_good : good_mat ex_two.
Proof. intros r [<-|[<-|[]]]; cbn; (split; [repeat constructor; cbn; intuition discriminate|]); cbn; intros c Hc; intuition lia. Qed.
Lemma ex_large_good : good_mat ex_large.
Proof. intros r [<-|[]]; cbn; (split; [repeat constructor; cbn; intuition discriminate|]); cbn; intros c Hc; intuition lia. Qed.
Lemma ex_nine_good : good_mat ex_nine.
Proof. intros r Hr. apply repeat_spec in Hr. subst r. cbn. split; [repeat constructor; cbn; intuition|]. cbn. intros c Hc. intuition lia. Qed.
Lemma ex_items_moderate : moderate_values 16 ex_items.
Proof.
  intros r e [<-|[<-|[<-|[<-|[]]]]] He; cbn in He;
    repeat match type of He with _ \/ _ => destruct He as [<-|He] | False => destruct He end; right; split; discriminate.
Qed.
Lemma ex_large_moderate : moderate_values (2 ^ 26) ex_large.
Proof.
  intros r e [<-|[]] He; cbn in He;
    repeat match type of He with _ \/ _ => destruct He as [<-|He] | False => destruct He end; right; split; vm_compute; discriminate.
Qed.
Lemma ex_items_sorted : sorted_rows ex_items.
Proof. intros r [<-|[<-|[<-|[<-|[]]]]]; cbn; repeat (constructor; [|repeat constructor; lia]); constructor. Qed.
Lemma ex_items_nonneg : nonneg_values ex_items.
Proof.
  intros r e [<-|[<-|[<-|[<-|[]]]]] He; cbn in He;
    repeat match type of He with _ \/ _ => destruct He as [<-|He] | False => destruct He end; discriminate.
Qed.
Lemma ex_items_whole : whole_values ex_items.
Proof.
  intros r e [<-|[<-|[<-|[<-|[]]]]] He; cbn in He;
    repeat match type of He with _ \/ _ => destruct He as [<-|He] | False => destruct He end;
    first [exists 1; reflexivity|exists 2; reflexivity|exists 3; reflexivity].
Qed.
(** The stored entries as reduced fractions. *)
Definition ex_reduced (o : outcome (smat Q)) : list (srow Q) :=
  map (map (fun e => (fst e, Qred (snd e)))) (ex_unwrap o).
