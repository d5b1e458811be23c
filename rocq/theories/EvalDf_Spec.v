(** What evaluating a recommendation frame must return. *)
From Coq Require Export QArith.
From Verif Require Import Base.
From Verif Require Export Eval_Spec EvalPy_Spec EvalDf_Model.
Local Open Scope nat_scope.

(** Items of one user in row order. *)
Definition items_of (df : frame) (u : Z) : list Z := map snd (filter (fun r => (fst r =? u)%Z) df).

(** Users that are evaluated: those with both a recommendation and a ground truth row. *)
Definition in_both (df df' : frame) (u : Z) : Prop := (exists i, In (u, i) df) /\ (exists i, In (u, i) df').

(** The position of an id in a list of distinct ids. *)
Fixpoint zposition (ids : list Z) (x : Z) : nat :=
  match ids with
  | [] => 0
  | y :: ids' => if (x =? y)%Z then 0 else S (zposition ids' x)
  end.

(** The report for the two frames: [users] enumerates the evaluated users,
    [ids] the items that occur in their rows. *)
Definition df_report_means (disc : nat -> Q) (rec gt : frame) (r : report) : Prop :=
  exists users ids,
    NoDup users /\ (forall u, In u users <-> in_both rec gt u) /\
    NoDup ids /\ (forall i, In i ids <-> exists u, in_both rec gt u /\ (In (u, i) rec \/ In (u, i) gt)) /\
    let tops := map (fun u => map (zposition ids) (items_of rec u)) users in
    let gts := map (fun u => map (zposition ids) (items_of gt u)) users in
    report_means disc false (length ids) (list_users (length ids) tops gts) tops r.

(** No user gets an item twice. *)
Definition no_repeats (df : frame) : Prop := NoDup df.
