From Verif Require Import Base Sched_Model Sched_Proofs.

(** ** One worker handles the indices in order *)
Section One.
Context {A S : Type}.
Variables (n block : nat) (lw : nat -> A -> A) (sw : nat -> S -> S).
Hypothesis Hb : 1 <= block.
Let go (l : list nat) (a : A) : A := fold_left (fun a i => lw i a) l a.

Lemma one_inv a0 s0 sched : exists w h,
  p_workers (run_pool n block lw sw sched (init_pool 1 a0 s0)) = [w] /\
  h <= n /\ w_acc w = go (seq 0 h) a0 /\
  match w_status w with
  | Ready => min (p_cursor (run_pool n block lw sw sched (init_pool 1 a0 s0))) n = h
  | Holding todo => todo = seq h (min (p_cursor (run_pool n block lw sw sched (init_pool 1 a0 s0))) n - h) /\
                    h <= p_cursor (run_pool n block lw sw sched (init_pool 1 a0 s0))
  | Done => h = n
  end.
Proof.
  induction sched as [|t sched IH] using rev_ind.
  - exists (mkWorker Ready a0), 0. cbn. repeat split; lia.
  - unfold run_pool in *. rewrite fold_left_app. cbn [fold_left].
    set (p := fold_left _ sched _) in *. destruct IH as (w & h & Hw & Hh & Ha & Hs).
    unfold pool_step. rewrite Hw. destruct t as [|t]; cbn [nth_error].
    2: { destruct t; cbn [nth_error]; rewrite Hw; exists w, h; auto. }
    destruct (w_status w) as [|[|r rs]|] eqn:Est; cbn [p_workers p_cursor update_nth].
    + destruct (n <=? p_cursor p) eqn:E; [apply Nat.leb_le in E|apply Nat.leb_gt in E];
        eexists _, h; split; try reflexivity; cbn [w_acc w_status]; (split; [exact Hh|split; [exact Ha|]]).
      * lia.
      * unfold owned. split; [|lia]. f_equal; lia.
    + eexists _, h; split; try reflexivity; cbn [w_acc w_status]. split; [exact Hh|split; [exact Ha|]].
      destruct Hs as [Hs1 Hs2]. assert (length (@nil nat) = min (p_cursor p) n - h) by (rewrite Hs1 at 1; apply seq_length). cbn in H. lia.
    + destruct Hs as [Hs1 Hs2].
      assert (Hl : length (r :: rs) = min (p_cursor p) n - h) by (rewrite Hs1; apply seq_length).
      destruct (min (p_cursor p) n - h) as [|d] eqn:Ed; [cbn in Hl; lia|].
      cbn [seq] in Hs1. injection Hs1 as -> Hrs.
      eexists _, (Datatypes.S h); split; try reflexivity; cbn [w_acc w_status]. split; [lia|]. split.
      * rewrite seq_S. unfold go in *. rewrite fold_left_app. cbn. rewrite Ha. reflexivity.
      * destruct rs as [|r' rs']; [cbn in Hl; lia|]. split; [|lia]. rewrite Hrs. f_equal; lia.
    + rewrite Hw. exists w, h. rewrite Est. auto.
Qed.

Lemma one_worker a0 s0 sched : completed (run_pool n block lw sw sched (init_pool 1 a0 s0)) = true ->
  map w_acc (p_workers (run_pool n block lw sw sched (init_pool 1 a0 s0))) = [go (seq 0 n) a0].
Proof.
  destruct (one_inv a0 s0 sched) as (w & h & Hw & Hh & Ha & Hs). unfold completed. rewrite Hw. cbn.
  unfold worker_done. destruct (w_status w); try discriminate. intros _. rewrite Ha, Hs. reflexivity.
Qed.
End One.
