(** What the dictionaries of an evaluator must contain. *)
From Coq Require Import String.
From Coq Require Import List.
From Verif Require Import Base PyStr_Model History_Model.
From Coq Require Import QArith.
From Verif Require Import Eval_Model EvalPy_Model EvalPy_Spec EvalNames_Model.
Local Open Scope nat_scope.

(** Equal values. *)
Definition same_value (a b : mvalue) : Prop :=
  match a, b with
  | VNum p, VNum q => (p == q)%Q
  | VNan, VNan => True
  | VEntropy l, VEntropy l' => l = l'
  | _, _ => False
  end.
(** The entry [k] of [d] and the entry [k'] of [d'] exist and are equal. *)
Definition same_entry (d : mdict) (k : pystr) (d' : mdict) (k' : pystr) : Prop :=
  exists v v', mget d k = Some v /\ mget d' k' = Some v' /\ same_value v v'.
(** The key "name@cutoff", the cutoff in decimal. *)
Definition at_cutoff (name : String.string) (cutoff : nat) : pystr := str name ++ str "@" ++ show (N.of_nat cutoff).
(** The quantities of a report under their names at one cutoff. *)
Record shows (d : mdict) (c : nat) (r : report * option Q) : Prop := {
  sw_hit : mget d (at_cutoff "hit" c) = Some (VNum (r_hit (fst r)));
  sw_recall : mget d (at_cutoff "recall" c) = Some (VNum (r_recall (fst r)));
  sw_ndcg : mget d (at_cutoff "ndcg" c) = Some (VNum (r_ndcg (fst r)));
  sw_map : mget d (at_cutoff "map" c) = Some (VNum (r_map (fst r)));
  sw_precision : mget d (at_cutoff "precision" c) = Some (VNum (r_precision (fst r)));
  sw_gini : mget d (at_cutoff "gini_index" c) = Some (VNum (r_gini_index (fst r)));
  sw_entropy : mget d (at_cutoff "entropy" c) = Some (VEntropy (r_probs (fst r)));
  sw_appeared : mget d (at_cutoff "appeared_item" c) = Some (VNum (inject_Z (Z.of_nat (r_appeared_item (fst r)))));
  sw_coverage : mget d (at_cutoff "catalog_coverage" c) = Some (match snd r with None => VNan | Some q => VNum q end) }.

(** The three ways to call an evaluator built from [g] on inputs that describe
    the users [us]. *)
Inductive entry_point (disc : nat -> Q) (g : config) : list user -> (list nat -> outcome (list (report * option Q))) -> Prop :=
| ep_matrix ev d xs : config_ok g -> build g = Ok ev -> scores_ok g d -> launched xs ->
    entry_point disc g (g_users g (d_rows d)) (fun cutoffs => matrix_scores disc ev d cutoffs xs)
| ep_chunks ev ds xs : config_ok g -> build g = Ok ev -> Forall dense_wf ds -> launched xs ->
    entry_point disc g (g_users g (chunks_rows ds)) (fun cutoffs => chunk_scores disc ev ds cutoffs xs)
| ep_model ev md S xs : config_ok g -> build g = Ok ev -> recommender_ok g md S -> launched xs ->
    entry_point disc g (g_model_users g md S) (fun cutoffs => scores_from_model disc ev md cutoffs xs).
