(** Example data for the history of a search. *)
From Coq Require Import String.
From Coq Require Import List.
From Verif Require Import Base EarlyStop_Model PyStr_Model Tune_Model Tune_Spec History_Model History_Spec Ex_PyStr Ex_Tune.
From Coq Require Import QArith.
Local Open Scope nat_scope.

Definition m_ndcg : pystr := str "ndcg"%string.
Definition m_hit : pystr := str "hit"%string.
(** Trial 1 is pruned; the others score 1/2, 1/4, ... *)
Definition hi_run (n : nat) (d : dict) : run_result :=
  if n =? 1 then RunPruned (Some (Fin 0))
  else Evaluated [(m_ndcg, Fin (1 # 2 + Pos.of_succ_nat n)); (m_hit, Fin 1)] [(k_epochs, VInt (Z.of_nat n + 5))].
Definition hi_call (cutoff : N) (n : nat) : call :=
  mkCall tu_sample hi_run m_ndcg cutoff true false None tu_range [] n.
(** Three trials at cutoff 10, then two more at cutoff 5. *)
Definition hi_first : history := fst (tune_call ascii_table (hi_call 10 3) (mkHist [] [])).
Definition hi_second : history := fst (tune_call ascii_table (hi_call 5 2) hi_first).
Definition hi_frame : frame := match study_to_dataframe hi_second with Ok f => f | _ => mkFrame [] [] end.

Lemma hi_proper cutoff n : proper_call (hi_call cutoff n).
Proof.
  intros k d r learnt E. cbn in E. unfold hi_run in E. destruct (k =? 1); [discriminate|]. injection E as <- _. split.
  - split; [|intros x [<-|[<-|[]]]; cbn; intuition discriminate].
    cbn. repeat constructor; cbn; intuition discriminate.
  - now left.
Qed.
Definition hi_log : list (option (N * report)) :=
  [] ++ map (verdict (hi_call 10 3)) (h_trials hi_first) ++ map (verdict (hi_call 5 2)) (skipn 3 (h_trials hi_second)).
Lemma hi_session : session ascii_table hi_second hi_log.
Proof.
  pose proof (session_tune ascii_table _ _ (hi_call 10 3) (session_new ascii_table) (hi_proper 10 3)) as S.
  pose proof (session_tune ascii_table _ _ (hi_call 5 2) S (hi_proper 5 2)) as S'. exact S'.
Qed.
Ltac all_cases := repeat match goal with
  | H : _ \/ _ |- _ => destruct H as [H|H] | H : False |- _ => destruct H | H : _ = _ |- _ => subst || discriminate H end.
Lemma hi_clear : clear_names (h_trials hi_second).
Proof.
  split.
  - intros t k I. vm_compute in I. intros K. destruct I as [<-|[<-|[<-|[<-|[<-|[]]]]]]; vm_compute in K;
      (split; vm_compute; intros X; all_cases).
  - intros t t' k I I' K K'. vm_compute in I, I'.
    destruct I as [<-|[<-|[<-|[<-|[<-|[]]]]]]; vm_compute in K; destruct I' as [<-|[<-|[<-|[<-|[<-|[]]]]]]; vm_compute in K'; all_cases.
Qed.

(** A parameter with the name of a column of optuna. *)
Definition k_value : pystr := str "value"%string.
Definition hi_clash : call :=
  mkCall tu_sample hi_run m_ndcg 10 true false None [(k_value, DFloat 0 1 false)] [] 1.
