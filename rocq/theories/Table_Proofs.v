(** Workers that fill a shared table, one slot per index. *)
From Verif Require Import Base Sched_Model Sched_Proofs.

Section Table.
Context {X A : Type}.
Variables (n block : nat) (f : nat -> X) (local : nat -> A -> A) (a0 : A) (d : X).

Let fill := fun r (table : list X) => update_nth table r (f r).

Lemma fill_length log table : length (fold_left (fun t r => fill r t) log table) = length table.
Proof. revert table; induction log as [|r log IH]; intros table; cbn; auto. rewrite IH. apply update_nth_length. Qed.

Lemma fill_nth log : forall table r, In r log -> r < length table -> nth_error (fold_left (fun t r => fill r t) log table) r = Some (f r).
Proof.
  assert (G : forall log table r, nth_error table r = Some (f r) -> nth_error (fold_left (fun t r => fill r t) log table) r = Some (f r)).
  { clear. induction log as [|q log IH]; intros table r H; cbn; auto. apply IH. unfold fill.
    destruct (Nat.eq_dec r q) as [->|Hq]; [eapply nth_error_update_nth_same; eauto|now rewrite nth_error_update_nth_other]. }
  induction log as [|q log IH]; [intros ? ? []|]. intros table r [->|Hin] Hr; cbn.
  - apply G. unfold fill. destruct (nth_error table r) as [y|] eqn:E; [eapply nth_error_update_nth_same; eauto|].
    apply nth_error_None in E. lia.
  - apply IH; auto. unfold fill. now rewrite update_nth_length.
Qed.

(** Whatever the schedule, each slot ends up with its own value. *)
Lemma table_filled launched sched : 1 <= block -> n = 0 \/ 1 <= launched ->
  let p := run_pool n block local fill sched (init_pool launched a0 (repeat d n)) in
  completed p = true -> p_shared p = map f (seq 0 n).
Proof.
  intros Hb [Hn|Hl] p Hc.
  - destruct (inv_run n block local fill launched a0 (repeat d n) sched Hb) as (logs & glog & HI).
    apply inv_sh in HI. fold p in HI. rewrite HI. unfold fold_sh. subst n. cbn [seq map].
    apply length_zero_iff_nil. now rewrite fill_length.
  - destruct (pool_exactly_once n block local fill launched a0 (repeat d n) sched Hb Hl Hc) as (logs & glog & _ & _ & HP & _ & Hs).
    fold p in Hs. rewrite Hs. unfold fold_sh.
    apply (nth_ext _ _ (f 0) (f 0)); [now rewrite fill_length, repeat_length, map_length, seq_length|].
    intros r Hr. rewrite fill_length, repeat_length in Hr. rewrite (map_nth f), seq_nth by auto. cbn.
    apply nth_error_nth. apply fill_nth; [|now rewrite repeat_length].
    eapply Permutation_in; [symmetry; exact HP|]. apply in_seq. lia.
Qed.
End Table.
