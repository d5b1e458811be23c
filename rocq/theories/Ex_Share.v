(** Concrete classes and programs over shared objects. *)
From Verif Require Import Base Eval_Model EvalPy_Model Rec_Model Ex_Rec Share_Model Share_Spec.
Local Open Scope nat_scope.

(** Classes that recommend popular items: one like those of the package, one
    that hands out its array of counts, one that returns it as the scores. *)
Inductive ex_kind := Plain | Viewing | Keeping.
Definition ex_keeps (k : ex_kind) : bool := match k with Keeping => true | _ => false end.
Definition ex_view (k : ex_kind) : bool := match k with Viewing => true | _ => false end.
Definition ex_count (X : list srow) (i : nat) : Z := Z.of_nat (length (filter (Nat.eqb i) (concat (map nonzero_row X)))).
Definition ex_learn (k : ex_kind) (X : list srow) : list dense :=
  let row := map (fun i => zfin (ex_count X i)) (seq 0 3) in
  [mkDense 3 (match k with Keeping => map (fun _ => row) X | _ => [row] end)].
Definition ex_score (k : ex_kind) (X : list srow) (ps : list dense) (us : list nat) : dense :=
  mkDense 3 (map (fun _ => nth 0 (d_rows (nth 0 ps (mkDense 0 []))) []) us).
Definition ex_cold (k : ex_kind) (X : list srow) (ps : list dense) (x : list srow) : dense :=
  mkDense 3 (map (fun p => map (fun i => Fin (inject_Z (Z.of_nat (i + length p)))) (seq 0 3)) x).
(** The "metrics" are everything an evaluation has read. *)
Definition ex_judge (gt : list srow) (ds : list dense) : list srow * list dense := (gt, ds).

Notation ex_step := (step Nat.eq_dec ex_learn ex_score ex_cold ex_keeps ex_view ex_judge ex_argsort (fun s => s) ex_psort).
Notation ex_run := (run Nat.eq_dec ex_learn ex_score ex_cold ex_keeps ex_view ex_judge ex_argsort (fun s => s) ex_psort).
Notation ex_permitted := (permitted (fun s act => fst (ex_step s act))).
Definition ex_act := action nat ex_kind.

Definition ex_X : list srow := [[(0, 1%Q)]; [(1, 1%Q); (2, 1%Q)]; [(2, 2%Q)]].
Definition ex_gt : list srow := [[(1, 1%Q)]; [(0, 1%Q)]; [(0, 1%Q)]].
Definition ex_mask : list srow := [[]; [(0, 1%Q)]; [(1, 1%Q)]].
Definition ex_zero : dense := mkDense 3 [[zfin 9; zfin 9; zfin 9]].

(** The caller changes every object it can after building and training. *)
Definition ex_before : list ex_act := [Make (CIds [10; 20; 30]); Make (CMat ex_X); Make (CMat ex_gt); Make (CMat ex_mask)].
Definition ex_after : list ex_act :=
  [Learn 0; Score 0 [0; 1]; Write 6 (CArr ex_zero); Write 1 (CMat []); NewEval 2 (Some (OtherFormat, 3)) 0 [(0, 2); (2, 3)];
   NewEval 2 (Some (Csr, 3)) 0 [(0, 2); (2, 3)]; NewEval 2 None 0 [(0, 2); (2, 3)];
   Write 2 (CMat []); Write 3 (CMat [[(2, 1%Q)]; []; []]); ScoreRemoveSeen 0 [2]; Evaluate 0 0; Embedding 0 0].
Definition ex_program (k : ex_kind) : list ex_act := ex_before ++ NewRec k Csr 1 :: ex_after.

(** A program that ends with a trained recommender, an evaluator with a CSR
    mask and a cold-user evaluator of a CSC matrix. *)
Definition ex_ready (k : ex_kind) : list ex_act :=
  ex_before ++ [NewRec k Csr 1; Learn 0; NewEval 2 (Some (Csr, 3)) 0 [(0, 3)]; NewColdEval OtherFormat 1 2 None [(0, 3)]; NewMapper 0;
                Make (CArr (mkDense 3 [[zfin 5; zfin 7; zfin 6]]))].

Lemma ex_permitted_program : ex_permitted init_state (ex_program Plain) /\ ex_permitted init_state (ex_ready Plain).
Proof.
  split; vm_compute;
    repeat match goal with
           | |- _ /\ _ => split
           | |- True => exact Logic.I
           | |- Forall _ _ => constructor
           | |- _ = _ \/ _ => first [left; reflexivity | right]
           end.
Qed.
