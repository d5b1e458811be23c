(** Concrete cases for C64. *)
From Coq Require Import String.
From Coq Require Import List.
From Verif Require Import Base PyStr_Model EarlyStop_Model Tune_Model Tune_Spec Config_Model Config_Spec.
From Coq Require Import QArith.
Local Open Scope Z_scope.

(** pydantic on a few strings. *)
Definition cf_int (s : pystr) : option Z := if pystr_eqb s (str "5") then Some 5 else None.
Definition cf_float (s : pystr) : option Q := if pystr_eqb s (str "0.5") then Some (1 # 2)%Q else None.
Definition cf_bool (s : pystr) : option bool := if pystr_eqb s (str "yes") then Some true else None.
(** A constructor that keeps its arguments. *)
Definition cf_build (r : recommender) (d : dict) : outcome (recommender * dict) := Ok (r, d).

Definition cf_kw : dict := [arg "top_k" (VFloat 5); arg "alpha" (VInt 1); arg "feature_weighting" (VStr (str "BM_25"))].
(** top_k, shrinkage, feature_weighting and alpha of trial [n]. *)
Definition cf_sample (n : nat) (k : pystr) (d : dist) : pyval :=
  match d with
  | DFloat low high _ => VFloat high
  | DInt low high _ _ => VInt (low + 1)
  | DChoice l => nth 1 l VNone
  end.
Definition cf_train (n : nat) (d : dict) : trial_result := Scored (Fin (inject_Z (Z.of_nat n))) [].
Definition cf_train_epochs (n : nat) (d : dict) : trial_result :=
  Scored (Fin (inject_Z (Z.of_nat n))) [(str "train_epochs", VInt 15)].
