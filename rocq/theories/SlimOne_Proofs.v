(** Proofs for C74: runs of SLIM that do not depend on the schedule, for every
    arithmetic. *)
From Verif Require Import Base Sched_Model Sched_Proofs SchedOne_Proofs Knn_Model Slim_Model.

Lemma few_logs {A C} (h : A -> list C) (f : nat -> A -> A) a0 logs : h a0 = [] -> length (concat logs) <= 1 ->
  concat (map (fun log => h (fold_left (fun a b => f b a) log a0)) logs) = h (fold_left (fun a b => f b a) (concat logs) a0).
Proof.
  intros Z. induction logs as [|l logs IH]; cbn [concat map]; [intros _; symmetry; exact Z|]. rewrite app_length. intros H.
  rewrite IH by lia. destruct l as [|b l]; [cbn; now rewrite Z|]. cbn [length] in H.
  destruct (concat logs); [|cbn in H; lia]. cbn [fold_left]. now rewrite Z, !app_nil_r.
Qed.

Section One.
Context {V : Type}.
Variables (zero : V) (add sub mul div : V -> V -> V) (opp vabs : V -> V) (ltb leb neqb : V -> V -> bool) (is_zero : list V -> bool).
Context {G : Type}.
Variables (gen0 : G) (shuffle : G -> list nat -> list nat * G) (sort_desc : list (V * nat) -> list (V * nat)).
Variables (positive_only : bool) (block_size n_rows : nat) (X : list (srow V)) (l2 l1 tol : V) (n_iter : nat) (top_k : Z).
Notation slim := (slim zero add sub mul div opp vabs ltb leb neqb is_zero gen0 shuffle sort_desc positive_only block_size n_rows X l2 l1 tol n_iter top_k).
Notation slim_block := (slim_block zero add sub mul div opp vabs ltb neqb is_zero shuffle sort_desc positive_only block_size n_rows X l2 l1 tol n_iter top_k).
Notation w0 := (slim_worker0 zero gen0 X top_k).
Notation pool t s := (run_pool (n_blocks block_size X) 1 slim_block (fun _ s => s) s (init_pool t w0 tt)).

Lemma slim_ok t s W : slim t s = Ok W -> 1 <= t /\ completed (pool t s) = true /\
  W = from_triplets zero add (length X) (length X) (concat (map sw_results (map w_acc (p_workers (pool t s))))).
Proof.
  unfold Slim_Model.slim, check_arg, await. destruct (Nat.ltb_spec 0 t) as [H|]; [|discriminate].
  destruct (0 <? n_iter); [|discriminate]. destruct (leb zero l2); [|discriminate]. destruct (leb zero l1); [|discriminate].
  cbn zeta. destruct (completed (pool t s)); [|discriminate]. intros E. injection E as <-.
  split; [lia|]. split; [reflexivity|]. now rewrite map_map.
Qed.

Lemma slim_one_thread s s' W W' : slim 1 s = Ok W -> slim 1 s' = Ok W' -> W = W'.
Proof.
  intros E E'. apply slim_ok in E, E'. destruct E as (_ & C & ->), E' as (_ & C' & ->).
  apply one_worker in C; [|lia]. apply one_worker in C'; [|lia]. now rewrite C, C'.
Qed.

Lemma slim_one_block t t' s s' W W' : length X <= block_size -> slim t s = Ok W -> slim t' s' = Ok W' -> W = W'.
Proof.
  intros L E E'. apply slim_ok in E, E'. destruct E as (T & C & ->), E' as (T' & C' & ->).
  assert (N : forall t s, 1 <= t -> completed (pool t s) = true ->
    concat (map sw_results (map w_acc (p_workers (pool t s)))) = sw_results (fold_left (fun a b => slim_block b a) (seq 0 (n_blocks block_size X)) w0)).
  { clear -L. intros t s T C.
    destruct (pool_exactly_once (n_blocks block_size X) 1 slim_block (fun _ s => s) t w0 tt s ltac:(lia) T C) as (logs & glog & _ & HP & _ & HA & _).
    rewrite HA, map_map.
    assert (B : n_blocks block_size X <= 1).
    { unfold n_blocks. destruct block_size as [|b]; [cbn; lia|]. apply Nat.lt_succ_r, Nat.div_lt_upper_bound; lia. }
    assert (Q : concat logs = seq 0 (n_blocks block_size X)).
    { destruct (n_blocks block_size X) as [|[|m]]; [|cbn [seq] in *|lia].
      - cbn in *. now apply Permutation_nil, Permutation_sym.
      - apply Permutation_sym, Permutation_length_1_inv in HP. exact HP. }
    assert (Hlen : length (concat logs) <= 1) by (rewrite Q, seq_length; exact B).
    rewrite <- Q. exact (few_logs (fun w => sw_results w) slim_block w0 logs eq_refl Hlen). }
  now rewrite (N t s T C), (N t' s' T' C').
Qed.
End One.
