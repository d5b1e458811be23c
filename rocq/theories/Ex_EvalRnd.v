(** Concrete inputs of Prop_EvalRnd.v. *)
From Coq Require Import QArith Lqa.
From Verif Require Import Base Sched_Model Eval_Spec EvalPy_Spec EvalProps_Proofs Float_Model EvalRnd_Model EvalRnd_Spec EvalRnd_Proofs EvalRndTop_Proofs EvalRndFloat_Proofs Ex_Eval.
Local Open Scope nat_scope.

(** [std::log2(2 + i)] as doubles, i = 0 .. 3. *)
Definition ex_logs (i : nat) : Q :=
  nth i [1; 892254565955501 # 562949953421312; 2; 5228517251457905 # 2251799813685248]%Q 3%Q.
Definition ex_table (i : nat) : Q := round64 (1 / ex_logs i).
Lemma ex_logs_range i : i < 4 -> (1 <= ex_logs i)%Q /\ (ex_logs i <= inject_Z (Zpos (2 ^ 53)))%Q.
Proof. intros H. destruct i as [|[|[|[|i]]]]; try lia; split; vm_compute; discriminate. Qed.
Lemma ex_logs_mono i j : i <= j -> j < 4 -> (ex_logs i <= ex_logs j)%Q.
Proof. intros H H'. destruct i as [|[|[|[|i]]]], j as [|[|[|[|j]]]]; try lia; vm_compute; discriminate. Qed.
Lemma ex_table_ok : table_ok (2 ^ 53) round64 4 ex_table.
Proof. exact (table_of_logs _ _ round64_fp 4 ex_logs ex_logs_range ex_logs_mono). Qed.

Definition exr_rs := Eval vm_compute in match rmatrix_scores round64 ex_table ex_ev ex_d [1; 2; 4] ex_xs with Ok rs => rs | _ => [] end.
Lemma exr_result : rmatrix_scores round64 ex_table ex_ev ex_d [1; 2; 4] ex_xs = Ok exr_rs.
Proof. vm_compute. reflexivity. Qed.
Lemma exr_evaluated : revaluated round64 ex_table ex_g (g_users ex_g (d_rows ex_d)) [1; 2; 4] exr_rs.
Proof. eapply rby_matrix; [exact ex_g_ok|exact ex_built|exact ex_d_ok|exact ex_cutoffs|exact ex_launched|exact exr_result]. Qed.
Lemma ex_fits : fits (2 ^ 53) ex_g.
Proof. split; vm_compute; discriminate. Qed.

(** Three users with recall 1, 1 and 1/3 at cutoff 1. *)
Definition ord_g : config := mkConfig [[0]; [0]; [0; 1; 2]] 4 0 None None None 2 false 3%Z.
Definition ord_row := [fin 4; fin 3; fin 2; fin 1].
Definition ord_d : dense := mkDense 4 [ord_row; ord_row; ord_row].
Lemma ord_g_ok : config_ok ord_g.
Proof. constructor; cbn; auto with arith; try lia. - repeat constructor; cbn; lia. - discriminate. Qed.
Lemma ord_d_ok : scores_ok ord_g ord_d.
Proof. constructor; try reflexivity. repeat constructor. Qed.
Definition ord_ev : evaluator := Eval vm_compute in match build ord_g with Ok ev => ev | _ => ex_ev end.
Lemma ord_built : build ord_g = Ok ord_ev.
Proof. reflexivity. Qed.
(** The same evaluator with one thread. *)
Definition one_ev : evaluator := Eval vm_compute in match build (with_blocks ord_g (g_mb ord_g) 1) with Ok ev => ev | _ => ex_ev end.
(** All users by the first worker / the last two users by the second. *)
Definition one_worker : nat -> nat -> execution := fun _ _ => mkExec 2 ex_turns (repeat 0 12 ++ repeat 1 12).
Definition two_workers : nat -> nat -> execution := fun _ _ => mkExec 2 ex_turns ([0] ++ repeat 1 12 ++ repeat 0 12).
Lemma ord_launched : launched one_worker /\ launched two_workers.
Proof. split; intros i k; cbn; lia. Qed.
Definition ord_rs := Eval vm_compute in match rmatrix_scores round64 ex_table ord_ev ord_d [1] one_worker with Ok rs => rs | _ => [] end.
Definition ord_rs' := Eval vm_compute in match rmatrix_scores round64 ex_table ord_ev ord_d [1] two_workers with Ok rs => rs | _ => [] end.
Lemma ord_result : rmatrix_scores round64 ex_table ord_ev ord_d [1] one_worker = Ok ord_rs.
Proof. vm_compute. reflexivity. Qed.
Lemma ord_result' : rmatrix_scores round64 ex_table ord_ev ord_d [1] two_workers = Ok ord_rs'.
Proof. vm_compute. reflexivity. Qed.
Lemma ord_evaluated : revaluated round64 ex_table ord_g (g_users ord_g (d_rows ord_d)) [1] ord_rs.
Proof. eapply rby_matrix; [exact ord_g_ok|exact ord_built|exact ord_d_ok|repeat constructor|exact (proj1 ord_launched)|exact ord_result]. Qed.
Lemma ord_evaluated' : revaluated round64 ex_table ord_g (g_users ord_g (d_rows ord_d)) [1] ord_rs'.
Proof. eapply rby_matrix; [exact ord_g_ok|exact ord_built|exact ord_d_ok|repeat constructor|exact (proj2 ord_launched)|exact ord_result']. Qed.
Lemma ord_fits : fits (2 ^ 53) ord_g.
Proof. split; vm_compute; discriminate. Qed.

(** Three cold users with recall 1, 1 and 1/3 at cutoff 1; item 3 is known by its features only. *)
Definition cold_h : cold_config :=
  mkColdConfig (mkSparse 3 [[1]; [2]; []]) [[0]; [3]; [0; 1; 2]] 4 (Some 1) None None None 2 false 3%Z.
Definition cold_F (r : list nat) : list score := match r with [2] => [fin 1; fin 2; fin 3; fin 9] | _ => ord_row end.
Definition cold_md : cold_model :=
  mkColdModel 3 (fun l => mkDense 3 (map (fun _ => [fin 1; fin 2; fin 3]) l)) (Some (fun l => Some (mkDense 4 (map cold_F l)))).
Lemma cold_h_ok : cold_config_ok cold_h.
Proof. constructor; cbn; auto with arith; try lia; try discriminate; repeat constructor; cbn; lia. Qed.
Lemma cold_scored : cold_scorer cold_h cold_md cold_F.
Proof.
  left. split; [discriminate|]. split; [intros [|[|[|[|]]] [|]]; reflexivity|].
  eexists. split; reflexivity.
Qed.
Definition cold_ce : cold_evaluator := Eval vm_compute in match build_cold cold_h with Ok ce => ce | _ => mkCold ex_ev (mkSparse 0 []) 0 0 false [] end.
Lemma cold_built : build_cold cold_h = Ok cold_ce.
Proof. reflexivity. Qed.
Definition cold_rs := Eval vm_compute in match rcold_scores round64 ex_table cold_ce cold_md [1] two_workers with Ok rs => rs | _ => [] end.
Lemma cold_evaluated : revaluated round64 ex_table (cold_as_config cold_h) (cold_users cold_h cold_F) [1] cold_rs.
Proof.
  eapply (rby_cold _ _ _ cold_h cold_ce cold_md); [exact cold_h_ok|reflexivity|exact cold_built|reflexivity|exact cold_scored|repeat constructor|exact (proj2 ord_launched)|vm_compute; reflexivity].
Qed.
Lemma cold_fits : fits (2 ^ 53) (cold_as_config cold_h).
Proof. split; vm_compute; discriminate. Qed.
Definition cold_one_ce : cold_evaluator := Eval vm_compute in
  match build_cold (mkColdConfig (mkSparse 3 [[1]; [2]; []]) [[0]; [3]; [0; 1; 2]] 4 (Some 1) None None None 1 false 3%Z) with Ok ce => ce | _ => cold_ce end.
