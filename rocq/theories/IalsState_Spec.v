(** Vocabulary for saving and loading iALS trainers. *)
From Verif Require Import Base Sched_Model.
From mathcomp Require Import all_ssreflect all_algebra.
Import GRing.Theory Num.Theory.
From Verif Require Import Ials_Model Ials_Spec IalsState_Model.
Set Implicit Arguments.
Unset Strict Implicit.
Unset Printing Implicit Defensive.
Local Open Scope ring_scope.

Section StateSpec.
Variable F : realFieldType.
Variable pow : F -> F -> F.
Variable cfg : model_config F.
(** The history after confidence scaling. *)
Definition scaled (scale : F -> F) m n (obs : observations F m n) : observations F m n :=
  fun i j => match obs i j with Some c => Some (scale c) | None => None end.
(** Nobody has interacted with anything. *)
Definition nothing m n : observations F m n := fun _ _ => None.

Section Shape.
Variables (m n K fu fi : nat).
Notation trainer := (trainer F m n K fu fi).

(** Two trainers that answer every question that does not train in the same
    way: scores of known users, embeddings of new users and items from any
    history and features, with every solver configuration and schedule. *)
Definition same_answers (t t' : trainer) : Prop :=
  [/\ forall nt sched b e (junk : 'M[F]_(e - b, n)),
        user_scores nt sched (t_user t) (t_item t) junk = user_scores nt sched (t_user t') (t_item t') junk,
      forall scale init sc sp sch m' n' (X : sparse F m' n') feat,
        compute_user_embedding pow cfg scale (Some t) init sc sp sch X feat =
        compute_user_embedding pow cfg scale (Some t') init sc sp sch X feat,
      forall scale init sc sp sch m' n' (X : sparse F m' n') feat,
        compute_item_embedding pow cfg scale (Some t) init sc sp sch X feat =
        compute_item_embedding pow cfg scale (Some t') init sc sp sch X feat &
      forall scale init sc sp sch hf f m' n' (X : sparse F m' n'),
        score_with_item_features pow cfg scale (Some t) init sc sp sch hf f X =
        score_with_item_features pow cfg scale (Some t') init sc sp sch hf f X].

(** What a user of a trainer can do to it.  Files are numbered. *)
Inductive op := Epoch (sc : solver_config) (es : epoch_schedules) | Save (k : nat) | Load (k : nat).
Definition files := nat -> option (saved F m n K fu fi).
Definition write (fs : files) k s : files := fun k' => if k' == k then Some s else fs k'.

(** A cache that is empty or what the data say. *)
Definition right_cache m' n' f (feat : 'M[F]_(m', f)) lambda (X : sparse F m' n') (c : option (feature_cache F m' f)) : Prop :=
  match c with Some c => init_cache pow cfg feat lambda X n' = Ok c | None => True end.

(** After an exception the matrices can be anything; a cache is as before or
    has been filled; the epoch counter has not moved. *)
Definition interrupted (d : train_data F m n fu fi) (t t' : trainer) : Prop :=
  [/\ t_user_cache t' = t_user_cache t \/
        (exists c, t_user_cache t' = Some c /\ right_cache (d_user_features d) (lambda_user_feature cfg) (d_X d) (Some c)),
      t_item_cache t' = t_item_cache t \/
        (exists c, t_item_cache t' = Some c /\
                   right_cache (d_item_features d) (lambda_item_feature cfg) (transpose (d_X d)) (Some c)) &
      t_epoch t' = t_epoch t].

Inductive runs (d : train_data F m n fu fi) : trainer * files -> seq op -> trainer * files -> Prop :=
| runs_nil s : runs d s [::] s
| runs_epoch sc es t t' fs ops s : trainer_step pow cfg sc es d t = Ok t' ->
    runs d (t', fs) ops s -> runs d (t, fs) (Epoch sc es :: ops) s
| runs_epoch_fail sc es t t' fs ops s e : trainer_step pow cfg sc es d t = Fail e -> interrupted d t t' ->
    runs d (t', fs) ops s -> runs d (t, fs) (Epoch sc es :: ops) s
| runs_save k t fs ops s : runs d (t, write fs k (save_state t)) ops s -> runs d (t, fs) (Save k :: ops) s
| runs_load k t fs p ops s : fs k = Some p -> runs d (load_state p t, fs) ops s -> runs d (t, fs) (Load k :: ops) s
| runs_load_missing k t fs ops s : fs k = None -> runs d (t, fs) ops s -> runs d (t, fs) (Load k :: ops) s.

Definition saves (k : nat) (o : op) : bool := if o is Save k' then k' == k else false.

(** Several epochs in a row. *)
Fixpoint epochs (d : train_data F m n fu fi) (l : seq (solver_config * epoch_schedules)) (t : trainer) : outcome trainer :=
  match l with
  | [::] => Ok t
  | se :: l => obind (trainer_step pow cfg se.1 se.2 d t) (epochs d l)
  end.
(** The warm-up does not matter any more. *)
Definition past_warmup (d : train_data F m n fu fi) (t : trainer) : Prop :=
  d_feature_aware d -> (feature_warmup_epochs cfg <= t_epoch t)%N.
(** The result of training: the same vectors and weights, or the same failure. *)
Definition model_of (t : trainer) := (t_user t, t_item t, (t_user_weight t, t_item_weight t)).
End Shape.
End StateSpec.
