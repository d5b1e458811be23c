(** Concrete inputs used by the examples of Prop_SlimRep.v. *)
From Verif Require Import Base Sched_Model Knn_Model Knn_Spec Slim_Model Slim_Spec SlimRep_Spec SlimObj_Proofs Ex_Slim.
From Coq Require Import QArith Qabs.
Local Open Scope nat_scope.

(** One worker takes all blocks, or the workers alternate. *)
Definition ex_first : list nat := repeat 0 30 ++ repeat 1 30.
Definition ex_both : list nat := [0; 1; 0; 1; 0; 1] ++ repeat 0 30 ++ repeat 1 30.

(** Three items that always occur together. *)
Definition ex_same : list (srow Q) := [[(0, 1%Q)]; [(0, 1%Q)]; [(0, 1%Q)]].
Lemma ex_same_good : good_columns 1 ex_same.
Proof.
  intros c [<-|[<-|[<-|[]]]]; cbn; (split; [repeat constructor; cbn; intuition discriminate|]); cbn; intros i Hi; intuition lia.
Qed.

(** Three users with two items each. *)
Definition ex_ring : list (srow Q) := [[(0, 1%Q); (1, 1%Q)]; [(0, 1%Q); (2, 1%Q)]; [(1, 1%Q); (2, 1%Q)]].
Lemma ex_ring_good : good_columns 3 ex_ring.
Proof.
  intros c [<-|[<-|[<-|[]]]]; cbn; (split; [repeat constructor; cbn; intuition discriminate|]); cbn; intros i Hi; intuition lia.
Qed.
Definition ex_run (n_threads : nat) (sched : list nat) : outcome (smat Q) :=
  slim_Q exact_is_zero 0 ex_shuffle ex_sort_desc false 1 3 ex_ring 2 (1 # 8) (1 # 20) 5 (-1) n_threads sched.
Definition ex_col (o : outcome (smat Q)) (j : nat) : list Q :=
  match o with Ok W => map Qred (weight_column W j) | _ => [] end.

Lemma ex_ring_optimal : optimal false 3 ex_ring 2 (1 # 8) 1 [7 # 40; 0; 7 # 40]%Q.
Proof.
  split; [split; [reflexivity|discriminate]|]. intros w' [Z P].
  apply (kkt_minimal false 3 ex_ring 2 (1 # 8) ltac:(discriminate) ltac:(discriminate)); [|intros [=]].
  intros [|[|[|f]]] Hf; [right|left; exact Z|right|cbn in Hf; lia]; unfold kkt; cbn [nth]; (split; [intros _; vm_compute; reflexivity|]);
    (split; [intros H; discriminate H|intros H; discriminate H]).
Qed.

Lemma ex_near :
  exact_test exact_is_zero /\ shuffle_ok ex_shuffle /\ good_columns 3 ex_ring /\
  (slack 3 ex_ring (1 # 20) == (3 # 25))%Q /\
  (distance2 ex_ring [21 # 128; 0; 91 # 512] [91 # 512; 0; 21 # 128] == (49 # 131072))%Q /\
  settled_column exact_is_zero false 1 3 ex_ring 2 (1 # 8) (1 # 20) 1 [91 # 512; 0; 21 # 128]%Q /\
  settled_column exact_is_zero false 1 3 ex_ring 2 (1 # 8) (1 # 20) 1 [21 # 128; 0; 91 # 512]%Q /\
  unsettled_column exact_is_zero false 1 3 ex_ring 2 (1 # 8) (1 # 20) 1 1 [21 # 128; 0; 7 # 32]%Q /\
  optimal false 3 ex_ring 2 (1 # 8) 1 [7 # 40; 0; 7 # 40]%Q.
Proof.
  assert (SW : forall w l, length l = 3 -> map Qred w = map Qred l -> same_weights ex_ring w l).
  { intros w l Hl E f Hf. rewrite <- (Qred_correct (nth f w 0%Q)), <- (Qred_correct (nth f l 0%Q)).
    rewrite <- (map_nth Qred w 0%Q f), <- (map_nth Qred l 0%Q f), E. reflexivity. }
  split; [exact exact_is_zero_ok|]. split; [exact ex_shuffle_ok|]. split; [exact ex_ring_good|].
  split; [vm_compute; reflexivity|]. split; [vm_compute; reflexivity|].
  split; [|split; [|split; [|exact ex_ring_optimal]]].
  - exists [0; 1; 2], [2; 1; 0]. eexists. cbn zeta. split; [cbn; intuition lia|]. split; [apply (Permutation_rev [2; 1; 0])|].
    split; [vm_compute; reflexivity|]. split; [vm_compute; left; reflexivity|]. split; [reflexivity|]. apply SW; vm_compute; reflexivity.
  - exists [2; 1; 0], [0; 1; 2]. eexists. cbn zeta. split; [cbn; intuition lia|]. split; [reflexivity|].
    split; [vm_compute; reflexivity|]. split; [vm_compute; left; reflexivity|]. split; [reflexivity|]. apply SW; vm_compute; reflexivity.
  - exists [[2; 1; 0]]. eexists. cbn zeta. split; [reflexivity|]. split; [intros inds [<-|[]]; apply (Permutation_rev [2; 1; 0])|].
    split; [vm_compute; split; [discriminate|exact I]|]. split; [vm_compute; left; reflexivity|]. split; [reflexivity|]. apply SW; vm_compute; reflexivity.
Qed.
