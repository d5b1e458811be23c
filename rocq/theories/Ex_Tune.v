(** Example data for the tuning theorems. *)
From Coq Require Import String.
From Coq Require Import List.
From Verif Require Import Base EarlyStop_Model PyStr_Model Tune_Model Tune_Spec Ex_PyStr.
From Coq Require Import QArith.
Local Open Scope Z_scope.

Definition k_reg : pystr := str "reg"%string.
Definition k_alpha : pystr := str "alpha0"%string.
Definition k_epochs : pystr := str "train_epochs"%string.
Definition k_dim : pystr := str "n_components"%string.

(** The sampler answers 1/1, 1/2, 1/3, ... of the upper bound for floats. *)
Definition tu_sample (n : nat) : sampler :=
  fun _ d => match d with
             | DFloat lo hi _ => VFloat (hi * (1 # Pos.of_succ_nat n))
             | DInt lo _ _ _ => VInt lo
             | DChoice l => nth 0 l VNone
             end.
Definition tu_range : list (pystr * dist) := [(k_reg, DFloat (1 # 100) 1 true); (k_alpha, DFloat (1 # 100) 2 true)].
(** Scores peak at reg = 1/2; trial 3 is pruned. *)
Definition tu_train (n : nat) (d : dict) : trial_result :=
  match dict_get d k_reg with
  | Some (VFloat q) =>
      if Nat.eqb n 3 then PrunedAt (Some (Fin 0))
      else Scored (Fin (if Qeq_bool q (1 # 2) then 9 # 10 else if Qeq_bool q 1 then 1 # 2 else 1 # 4)) [(k_epochs, VInt (Z.of_nat n + 5))]
  | _ => Raised TypeError
  end.
(** A suggest function that asks for reg whatever is fixed. *)
Definition tu_custom : suggest_function := fun ask => let d := [(k_reg, ask k_reg (DFloat (1 # 100) 1 true))] in (d, d).
Definition tu_custom_epochs : suggest_function :=
  fun ask => let d := [(k_reg, ask k_reg (DFloat (1 # 100) 1 true)); (k_epochs, ask k_epochs (DInt 1 5 1 false))] in (d, d).

(** Dimension doubling: the score depends on the dimension and reg. *)
Definition db_train (sc : Z -> Q) (dim : Z) (n : nat) (d : dict) : trial_result :=
  Scored (Fin (sc dim - (Z.of_nat n # 100))) [(k_epochs, VInt (Z.of_nat n + 1))].
Definition db_tune (sc : Z -> Q) (fuel : nat) (initial maximal : Z) :=
  tune_doubling_dimension ascii_table (fun _ => tu_sample) (db_train sc) tu_range 3 2 3 None k_dim fuel initial maximal.
Definition db_scores (dim : Z) : Q := if dim =? 8 then 9 # 10 else if dim =? 4 then 1 # 2 else 3 # 4.

(** A trainer that counts epochs, scored by closeness to a target set by reg. *)
Definition te_target (d : dict) : Z := match dict_get d k_reg with Some (VFloat q) => if Qle_bool q (1 # 2) then 6 else 2 | _ => 0 end.
Definition te_state : Type := (Z * Z)%type.
Definition te_create (d : dict) : te_state := (te_target d, 0).
Definition te_run (d : dict) (t : te_state) : te_state := (fst t, snd t + 1).
Definition te_score (t : te_state) : fval := Fin (inject_Z (fst t) - inject_Z (Z.abs (snd t - fst t))).
Definition te_train := train_early_stopping te_create te_run (fun t : te_state => t) (fun b _ => b) te_score (fun n _ _ => Nat.eqb n 2) 2 2 20 k_epochs.

(** A search with dimension 0 never ends. *)
Lemma ex_zero : forall fuel, db_tune db_scores fuel 0 20 = Pending.
Proof.
  assert (G : forall fuel prev results, (prev = None \/ exists a b, prev = Some [(k_reg, VFloat a); (k_alpha, VFloat b)]) ->
    search ascii_table (fun _ => tu_sample) (db_train db_scores) tu_range 3 2 3 None k_dim fuel 0 20 prev results = Pending).
  { induction fuel as [|fuel IH]; intros prev results H; [reflexivity|]. destruct H as [-> | (a & b & ->)].
    - cbn [search Z.ltb Z.compare Z.mul]. cbv - [search]. apply IH. right. eexists _, _. reflexivity.
    - cbn [search Z.ltb Z.compare Z.mul]. cbv - [search Qmult Qdiv]. apply IH. right. eexists _, _. reflexivity. }
  intros fuel. unfold db_tune, tune_doubling_dimension. rewrite G by now left. reflexivity.
Qed.
