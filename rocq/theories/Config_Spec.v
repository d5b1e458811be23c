(** Notions for C64: what a value means, which values a field accepts, when two
    lists of arguments mean the same. *)
From Coq Require Import String.
From Coq Require Import List.
From Verif Require Import Base PyStr_Model EarlyStop_Model Tune_Model Tune_Spec Config_Model.
From Coq Require Import QArith.
Local Open Scope Z_scope.

(** The number a value is, if any: 1, 1.0 and True are the same number. *)
Definition number (v : pyval) : option Q :=
  match v with
  | VInt z => Some (inject_Z z)
  | VFloat q => Some q
  | VBool true => Some 1%Q
  | VBool false => Some 0%Q
  | VStr _ | VNone => None
  end.
Definition same_value (v w : pyval) : Prop :=
  match number v, number w with
  | Some a, Some b => (a == b)%Q
  | None, None => v = w
  | _, _ => False
  end.
Definition same_args (d e : dict) : Prop := Forall2 (fun a b => fst a = fst b /\ same_value (snd a) (snd b)) d e.

(** The values a field of a type is for. *)
Fixpoint fits (t : ftype) (v : pyval) : Prop :=
  match t with
  | TInt => exists z q, number v = Some q /\ (q == inject_Z z)%Q
  | TFloat => number v <> None
  | TBool => exists q, number v = Some q /\ (q == 0 \/ q == 1)%Q
  | TStr => exists s, v = VStr s
  | TLit l => exists s, v = VStr s /\ In s l
  | TOpt t => v = VNone \/ fits t v
  end.
Fixpoint textual (t : ftype) : Prop :=
  match t with TStr | TLit _ => True | TOpt t => textual t | _ => False end.
(** No string is given for a number. *)
Definition no_numerals (c : config_class) (kw : dict) : Prop :=
  forall k s t d, In (k, VStr s) kw -> In (k, (t, d)) (fields c) -> textual t.

(** The arguments whose default in the configuration differs from that of the
    constructor. *)
Definition differing (r : recommender) : list pystr :=
  match r with
  | IALSRecommender => [str "alpha0"]
  | BPRFMRecommender | MultVAERecommender => [str "train_epochs"]
  | _ => []
  end.
(** The arguments a configuration has no field for. *)
Definition missing_fields (r : recommender) : list pystr :=
  match r with
  | IALSRecommender => [str "ialspp_subspace_dimension"; str "prediction_time_ialspp_iteration"; str "user_features"; str "item_features"]
  | _ => []
  end.

(** What optuna may answer. *)
Definition in_dist (d : dist) (v : pyval) : Prop :=
  match d with
  | DFloat low high _ => exists q, v = VFloat q /\ (low <= q <= high)%Q
  | DInt low high step _ => exists z, v = VInt z /\ low <= z <= high /\ exists i, z = low + i * step
  | DChoice l => In v l
  end.
(** Recommenders with early stopping learn the number of epochs. *)
Definition early_stopping (r : recommender) : bool :=
  match r with IALSRecommender | BPRFMRecommender | MultVAERecommender => true | _ => false end.
Definition learns (r : recommender) (learnt : dict) : Prop :=
  if early_stopping r then exists e, learnt = [(str "train_epochs", VInt e)] else learnt = [].
