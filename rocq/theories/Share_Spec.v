(** Vocabulary for what the caller and the library share. *)
From Verif Require Import Base Eval_Model EvalPy_Model Rec_Model Share_Model.
Local Open Scope nat_scope.

Section Spec.
Context {I K M : Type}.

(** The objects named in a call. *)
Definition mask_uses (mask : option (format * nat)) : list nat := match mask with None => [] | Some (_, m) => [m] end.
Definition uses (act : action I K) : list nat :=
  match act with
  | Write a _ | NewRec _ _ a | ScoreCold _ a | ScoreColdRemoveSeen _ a | NewMapper a | Recommend _ a _ _ _ _
  | RecommendBatch _ a _ _ _ _ _ _ _ => [a]
  | NewEval gt mask _ _ => gt :: mask_uses mask
  | NewColdEval _ input gt mask _ => input :: gt :: mask_uses mask
  | Make _ | Learn _ | Score _ _ | ScoreRemoveSeen _ _ | Embedding _ _ | Evaluate _ _ => []
  end.
(** A program uses only objects it has a reference to. *)
Fixpoint permitted (step : state I K -> action I K -> state I K) (s : state I K) (acts : list (action I K)) : Prop :=
  match acts with
  | [] => True
  | act :: rest => Forall (fun a => In a (s_known s)) (uses act) /\ permitted step (step s act) rest
  end.

(** The contents of the array that a call returned. *)
Definition returned (o : outcome (result I M)) (h : heap I) : outcome dense :=
  match o with
  | Ok (RArray a) => match nth_error h a with Some (CArr d) => Ok d | _ => UB end
  | Ok _ => UB
  | Fail e => Fail e
  | UB => UB
  | Pending => Pending
  end.

(** The score arrays that an evaluation judges: those of the blocks, with the
    positions of the mask at minus infinity; IndexError for an unknown user or
    a position outside of the scores. *)
Definition judged (n_users : nat) (scores : nat -> nat -> dense) (mask : list srow) (offset : nat) (blocks : list (nat * nat)) : outcome (list dense) :=
  oall (map (fun b => if forallb (fun u => u <? n_users) (seq (fst b) (snd b - fst b))
                      then apply_mask (scores (fst b) (snd b)) (map nonzero_row (slice mask (fst b - offset) (snd b - offset)))
                      else Fail IndexError) blocks).
(** The same for given histories. *)
Definition judged_cold (scores : list srow -> dense) (input mask : list srow) (blocks : list (nat * nat)) : outcome (list dense) :=
  oall (map (fun b => apply_mask (scores (slice input (fst b) (snd b))) (map nonzero_row (slice mask (fst b) (snd b)))) blocks).
End Spec.
