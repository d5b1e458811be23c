(** Concrete inputs used by the examples of Prop_Eval_A.v and Prop_Eval_B.v. *)
From Coq Require Import QArith Lqa.
From Verif Require Import Base Sched_Model Eval_Spec EvalPy_Spec EvalProps_Proofs.
Local Open Scope nat_scope.

(** Discounts 1, 1/2, 1/3, ... *)
Definition ex_disc (i : nat) : Q := 1 # Pos.of_succ_nat i.
Lemma ex_disc_pos i : (0 < ex_disc i)%Q.
Proof. reflexivity. Qed.
Lemma ex_disc_dec i : (ex_disc (S i) < ex_disc i)%Q.
Proof. unfold ex_disc, Qlt. cbn [Qnum Qden]. rewrite !Z.mul_1_l. lia. Qed.

Definition fin (z : Z) : score := Fin (inject_Z z).
(** Three users, four items; item 3 hidden from user 0; user 2 has no ground truth. *)
Definition ex_gt := [[0; 2]; [1]; []].
Definition ex_g : config := mkConfig ex_gt 4 0 None None (Some (mkSparse 4 [[3]; []; [0]])) 2 false 2%Z.
Definition ex_d : dense := mkDense 4 [[fin 5; fin 4; fin 3; fin 9]; [fin 1; fin 1; NegInf; PosInf]; [fin 0; fin 1; fin 2; fin 3]].
(** Two workers take turns. *)
Definition ex_turns : list nat := concat (repeat [0; 1] 12).
Definition ex_xs : nat -> nat -> execution := fun _ _ => mkExec 2 ex_turns ex_turns.
(** The second worker does everything first. *)
Definition ex_xs' : nat -> nat -> execution := fun _ _ => mkExec 1 (repeat 0 12) (repeat 1 12 ++ repeat 0 12).

Lemma ex_g_ok : config_ok ex_g.
Proof.
  constructor; cbn; auto with arith; try lia.
  - repeat constructor; cbn; lia.
  - intros m [= <-]. repeat constructor; cbn; lia.
Qed.
Lemma ex_d_ok : scores_ok ex_g ex_d.
Proof. constructor; try reflexivity. repeat constructor. Qed.
Lemma ex_launched : launched ex_xs.
Proof. intros i k. cbn. lia. Qed.
Lemma ex_launched' : launched ex_xs'.
Proof. intros i k. cbn. lia. Qed.
Lemma ex_cutoffs : cutoffs_ok 4 [1; 2; 4].
Proof. repeat constructor. Qed.
Lemma ex_fair : all_fair ex_g ex_xs.
Proof.
  intros i k. split; intros t Ht; cbn [ex_xs x_launched g_threads ex_g] in Ht; destruct t as [|[|t]]; try lia; vm_compute; lia.
Qed.
Definition ex_ev : evaluator := Eval vm_compute in match build ex_g with Ok ev => ev | _ => mkEvaluator (mkCore [] 0 []) 0 0 0 0 0 0 None false end.
Lemma ex_built : build ex_g = Ok ex_ev.
Proof. reflexivity. Qed.
Definition ex_rs := Eval vm_compute in match matrix_scores ex_disc ex_ev ex_d [1; 2; 4] ex_xs with Ok rs => rs | _ => [] end.
Lemma ex_result : matrix_scores ex_disc ex_ev ex_d [1; 2; 4] ex_xs = Ok ex_rs.
Proof. vm_compute. reflexivity. Qed.
Lemma ex_evaluated : evaluated ex_disc ex_g (g_users ex_g (d_rows ex_d)) [1; 2; 4] ex_rs.
Proof.
  eapply by_matrix; [exact ex_g_ok|exact ex_built|exact ex_d_ok|exact ex_cutoffs|exact ex_launched|exact ex_result].
Qed.

(** The same with the items numbered backwards, and scores without ties. *)
Definition ex_rev (i : nat) : nat := 3 - i.
Definition ex_g_rev : config := mkConfig [[1; 3]; [2]; []] 4 0 None None (Some (mkSparse 4 [[0]; []; [3]])) 2 false 2%Z.
Definition ex_d2 : dense := mkDense 4 [[fin 5; fin 4; fin 3; fin 9]; [fin 2; fin 1; NegInf; PosInf]; [fin 0; fin 1; fin 2; fin 3]].
Definition d_rev (d : dense) : dense := mkDense (d_cols d) (map (@rev score) (d_rows d)).
Lemma ex_renumbers : renumbers 4 ex_rev ex_rev.
Proof. intros i Hi. unfold ex_rev. lia. Qed.
Lemma ex_same_items l l' : (forallb (fun i => Bool.eqb (relevant l i) (relevant l' (ex_rev i))) [0; 1; 2; 3]) = true -> same_items 4 ex_rev l l'.
Proof.
  intros H i Hi. rewrite forallb_forall in H. specialize (H i). rewrite <- !Eval_Proofs.relevant_true.
  destruct (relevant l i), (relevant l' (ex_rev i)); try tauto; cbn in H; assert (K : 0 = i \/ 1 = i \/ 2 = i \/ 3 = i \/ False) by lia; apply H in K; discriminate.
Qed.
Lemma ex_renumbered d : d = ex_d \/ d = ex_d2 -> renumbered ex_rev ex_g ex_g_rev d (d_rev d).
Proof.
  intros Hd. constructor; try reflexivity.
  - intros [|[|[|u]]]; apply ex_same_items; try reflexivity. now destruct u.
  - constructor.
  - intros [|[|[|u]]]; apply ex_same_items; try reflexivity. now destruct u.
  - intros u i Hi. cbn in Hi. assert (K : i = 0 \/ i = 1 \/ i = 2 \/ i = 3) by lia.
    destruct Hd as [->| ->], u as [|[|[|u]]]; destruct K as [->|[->|[->| ->]]]; try reflexivity; now destruct u.
Qed.
Lemma ex_g_rev_ok : config_ok ex_g_rev.
Proof.
  constructor; cbn; auto with arith; try lia.
  - repeat constructor; cbn; lia.
  - intros m [= <-]. repeat constructor; cbn; lia.
Qed.
Lemma ex_no_ties : no_ties (g_users ex_g (d_rows ex_d2)).
Proof.
  intros u i j Hu Hi Hj E. cbn in Hu.
  destruct Hu as [<-|[<-|[<-|[]]]]; cbn in Hi, Hj; repeat (destruct Hi as [<-|Hi]; [|]); try destruct Hi; repeat (destruct Hj as [<-|Hj]; [|]); try destruct Hj; try reflexivity; discriminate E.
Qed.
