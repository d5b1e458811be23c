(** Facts about the shared-cursor worker pool: every index is handled exactly
    once in every completed run, and every fair schedule completes. *)
From Verif Require Import Base Sched_Model.

Lemma update_nth_split {X} (l1 : list X) w l2 x :
  update_nth (l1 ++ w :: l2) (length l1) x = l1 ++ x :: l2.
Proof. induction l1 as [|a l1 IH]; cbn; [reflexivity|now rewrite IH]. Qed.

Lemma update_nth_length {X} (l : list X) k x : length (update_nth l k x) = length l.
Proof. revert k; induction l as [|a l IH]; intros [|k]; cbn; auto. Qed.

Lemma nth_error_update_nth_other {X} (l : list X) k j x :
  j <> k -> nth_error (update_nth l k x) j = nth_error l j.
Proof.
  revert k j; induction l as [|a l IH]; intros [|k] [|j] H; cbn; auto; try congruence.
Qed.

Lemma nth_error_update_nth_same {X} (l : list X) k x y :
  nth_error l k = Some y -> nth_error (update_nth l k x) k = Some x.
Proof. revert k; induction l as [|a l IH]; intros [|k] H; cbn in *; try discriminate; auto. Qed.

Lemma map_repeat' {X Y} (f : X -> Y) x k : map f (repeat x k) = repeat (f x) k.
Proof. induction k; cbn; congruence. Qed.

Lemma fold_left_perm {X Y} (f : Y -> X -> Y) (Hc : forall y a b, f (f y a) b = f (f y b) a) l l' y :
  Permutation l l' -> fold_left f l y = fold_left f l' y.
Proof.
  intros HP; revert y; induction HP; intros y0; cbn; auto.
  - now rewrite Hc.
  - now rewrite IHHP1.
Qed.

Section P.
Context {A S : Type}.
Variable n : nat.
Variable block : nat.
Variable lw : nat -> A -> A.
Variable sw : nat -> S -> S.
Notation pstep := (pool_step n block lw sw).
Notation prun := (run_pool n block lw sw).

Definition todo_of (w : worker A) : list nat :=
  match w_status w with Holding td => td | _ => [] end.
Definition fold_acc (a0 : A) (log : list nat) : A := fold_left (fun a r => lw r a) log a0.
Definition fold_sh (s0 : S) (log : list nat) : S := fold_left (fun s r => sw r s) log s0.

Record Inv (k : nat) (a0 : A) (s0 : S) (p : pool A S) (logs : list (list nat)) (glog : list nat) : Prop := {
  inv_len : length (p_workers p) = k;
  inv_acc : map w_acc (p_workers p) = map (fold_acc a0) logs;
  inv_sh : p_shared p = fold_sh s0 glog;
  inv_perm : Permutation (concat logs ++ concat (map todo_of (p_workers p))) (seq 0 (min (p_cursor p) n));
  inv_glog : Permutation glog (concat logs);
  inv_done : forall w, In w (p_workers p) -> w_status w = Done -> n <= p_cursor p }.

Lemma inv_init k a0 s0 : Inv k a0 s0 (init_pool k a0 s0) (repeat [] k) [].
Proof.
  assert (Hc : forall X j, concat (repeat (@nil X) j) = []) by (intros X j; induction j; cbn; auto).
  constructor; cbn.
  - apply repeat_length.
  - rewrite !map_repeat'. reflexivity.
  - reflexivity.
  - rewrite map_repeat', !Hc. reflexivity.
  - now rewrite Hc.
  - intros w Hw; apply repeat_spec in Hw; subst; cbn; discriminate.
Qed.

Lemma map_eq_app_split {X Y Z} (f : X -> Z) (g : Y -> Z) l1 x l2 m :
  map f (l1 ++ x :: l2) = map g m ->
  exists m1 y m2, m = m1 ++ y :: m2 /\ map f l1 = map g m1 /\ f x = g y /\ map f l2 = map g m2.
Proof.
  revert m; induction l1 as [|a l1 IH]; intros m H.
  - destruct m as [|y m2]; cbn in H; [discriminate|]. injection H as H1 H2.
    exists [], y, m2; auto.
  - destruct m as [|b m]; cbn in H; [discriminate|]. injection H as H1 H2.
    apply IH in H2 as (m1 & y & m2 & -> & E1 & E2 & E3).
    exists (b :: m1), y, m2; cbn; repeat split; auto; congruence.
Qed.

Lemma seq_owned i (Hi : i < n) (Hb : 1 <= block) :
  seq 0 (min i n) ++ owned n block i = seq 0 (min (i + block) n).
Proof.
  unfold owned. replace (min i n) with i by lia.
  replace (min (i + block) n) with (i + (min (i + block) n - i)) at 2 by lia.
  now rewrite seq_app.
Qed.

Lemma inv_step k a0 s0 p logs glog t (Hb : 1 <= block) :
  Inv k a0 s0 p logs glog -> exists logs' glog', Inv k a0 s0 (pstep p t) logs' glog'.
Proof.
  intros HI. unfold pool_step.
  destruct (nth_error (p_workers p) t) as [w|] eqn:Ht; [|eauto].
  destruct (nth_error_split _ _ Ht) as (l1 & l2 & El & <-).
  destruct HI as [Hlen Hacc Hsh Hperm Hglog Hdone].
  rewrite El in *. rewrite update_nth_split.
  assert (Hlen' : forall w', length (l1 ++ w' :: l2) = k)
    by (intros w'; rewrite <- Hlen, !app_length; reflexivity).
  rewrite map_app, concat_app in Hperm. cbn [map concat] in Hperm.
  destruct (w_status w) as [|[|r rs]|] eqn:Est; rewrite ?update_nth_split.
  - (* fetch_add *)
    exists logs, glog.
    assert (Htd : todo_of w = []) by (unfold todo_of; now rewrite Est).
    rewrite Htd in Hperm. cbn in Hperm.
    destruct (Nat.leb_spec n (p_cursor p)) as [Hge|Hlt]; constructor; cbn [p_workers p_cursor p_shared].
    + apply Hlen'.
    + rewrite <- Hacc, !map_app. reflexivity.
    + exact Hsh.
    + rewrite map_app, concat_app. cbn. replace (min (p_cursor p + block) n) with (min (p_cursor p) n) by lia.
      exact Hperm.
    + exact Hglog.
    + intros w' Hw' _. lia.
    + apply Hlen'.
    + rewrite <- Hacc, !map_app. reflexivity.
    + exact Hsh.
    + rewrite map_app, concat_app. cbn [map concat]. unfold todo_of at 2. cbn [w_status].
      rewrite <- seq_owned by assumption.
      rewrite <- Hperm. rewrite <- ?app_assoc. apply Permutation_app_head, Permutation_app_head.
      apply Permutation_app_comm.
    + exact Hglog.
    + intros w' Hw' Hd. apply in_app_iff in Hw' as [Hw'|[<-|Hw']]; cbn in *; try discriminate;
        pose proof (Hdone w') as HD; rewrite in_app_iff in HD; cbn in HD; specialize (HD ltac:(tauto) Hd); lia.
  - (* empty todo: back to ready *)
    exists logs, glog.
    assert (Htd : todo_of w = []) by (unfold todo_of; now rewrite Est).
    rewrite Htd in Hperm. cbn in Hperm.
    constructor; cbn [p_workers p_cursor p_shared]; auto.
    + rewrite <- Hacc, !map_app. reflexivity.
    + rewrite map_app, concat_app. exact Hperm.
    + intros w' Hw' Hd. apply in_app_iff in Hw' as [Hw'|[<-|Hw']]; cbn in *; try discriminate;
        apply (Hdone w'); auto; apply in_app_iff; cbn; auto.
  - (* handle one index *)
    destruct (map_eq_app_split _ _ _ _ _ _ Hacc) as (m1 & lg & m2 & -> & E1 & E2 & E3).
    exists (m1 ++ (lg ++ [r]) :: m2), (glog ++ [r]).
    assert (Htd : todo_of w = r :: rs) by (unfold todo_of; now rewrite Est).
    constructor; cbn [p_workers p_cursor p_shared].
    + apply Hlen'.
    + rewrite !map_app. cbn. rewrite E1, E3. f_equal. f_equal.
      unfold fold_acc. rewrite fold_left_app. cbn. f_equal. exact E2.
    + unfold fold_sh. rewrite fold_left_app. cbn. now rewrite Hsh.
    + rewrite map_app, !concat_app in *. cbn [map concat] in *.
      rewrite <- Hperm. rewrite Htd.
      assert (Hn : todo_of {| w_status := match rs with [] => Ready | _ :: _ => Holding rs end;
                      w_acc := lw r (w_acc w) |} = rs) by (unfold todo_of; destruct rs; reflexivity).
      rewrite Hn. rewrite <- ?app_assoc. cbn. rewrite <- ?app_assoc.
      apply Permutation_app_head. apply Permutation_app_head. cbn.
      change (r :: concat m2 ++ concat (map todo_of l1) ++ rs ++ concat (map todo_of l2))
        with ([r] ++ concat m2 ++ concat (map todo_of l1) ++ rs ++ concat (map todo_of l2)).
      rewrite ?app_assoc. rewrite (Permutation_app_comm [r]). rewrite <- ?app_assoc.
      apply Permutation_app_head. cbn. apply Permutation_middle.
    + rewrite Hglog. rewrite !concat_app. cbn. rewrite <- ?app_assoc. apply Permutation_app_head.
      apply Permutation_app_head. apply Permutation_app_comm.
    + intros w' Hw' Hd. apply in_app_iff in Hw' as [Hw'|[<-|Hw']]; cbn in *.
      * apply (Hdone w'); auto. apply in_app_iff; auto.
      * destruct rs; discriminate.
      * apply (Hdone w'); auto. apply in_app_iff; cbn; auto.
  - exists logs, glog. rewrite <- El in *. constructor; auto.
    rewrite El, map_app, concat_app. exact Hperm.
Qed.

Lemma inv_run k a0 s0 sched (Hb : 1 <= block) :
  exists logs glog, Inv k a0 s0 (prun sched (init_pool k a0 s0)) logs glog.
Proof.
  unfold run_pool.
  assert (H : exists logs glog, Inv k a0 s0 (init_pool k a0 s0) logs glog)
    by (do 2 eexists; apply inv_init).
  revert H. generalize (init_pool k a0 s0) as p.
  induction sched as [|t sched IH]; intros p (logs & glog & HI); cbn; [eauto|].
  apply IH. eapply inv_step; eauto.
Qed.

(** Every completed run with at least one worker: the workers' logs together
    list every index below [n] exactly once, each worker's data is the result
    of handling its own log in order, and the shared result is the result of
    handling all indices in some order. *)
Lemma pool_exactly_once k a0 s0 sched (Hb : 1 <= block) (Hk : 1 <= k) :
  completed (prun sched (init_pool k a0 s0)) = true ->
  exists logs glog,
    length logs = k /\
    Permutation (concat logs) (seq 0 n) /\
    Permutation glog (seq 0 n) /\
    map w_acc (p_workers (prun sched (init_pool k a0 s0))) = map (fold_acc a0) logs /\
    p_shared (prun sched (init_pool k a0 s0)) = fold_sh s0 glog.
Proof.
  intros Hc. destruct (inv_run k a0 s0 sched Hb) as (logs & glog & [Hlen Hacc Hsh Hperm Hglog Hdone]).
  set (p := prun sched _) in *.
  exists logs, glog.
  assert (Hl : length logs = k) by (rewrite <- Hlen, <- (map_length (fold_acc a0)), <- Hacc, map_length; reflexivity).
  unfold completed in Hc. rewrite forallb_forall in Hc.
  assert (Htd : concat (map todo_of (p_workers p)) = []).
  { clear -Hc. induction (p_workers p) as [|w ws IH]; cbn; auto.
    rewrite IH by (intros; apply Hc; cbn; auto).
    specialize (Hc w (or_introl eq_refl)). unfold worker_done in Hc. unfold todo_of.
    destruct (w_status w); auto; discriminate. }
  rewrite Htd, app_nil_r in Hperm.
  assert (Hn : n <= p_cursor p).
  { destruct (p_workers p) as [|w ws] eqn:Ew; [cbn in Hlen; lia|].
    apply (Hdone w); [now left|]. specialize (Hc w (or_introl eq_refl)).
    unfold worker_done in Hc. destruct (w_status w); congruence. }
  replace (min (p_cursor p) n) with n in Hperm by lia.
  repeat split; auto. now rewrite Hglog.
Qed.

(** Progress: the number of further steps worker [t] can take is bounded. *)
Definition fuel_of (p : pool A S) (t : nat) : nat :=
  3 * (n - p_cursor p) +
  match nth_error (p_workers p) t with
  | Some w => match w_status w with
              | Done => 0 | Ready => 1 | Holding td => length td + 2 end
  | None => 0
  end.

Lemma fuel_step_other p t t' : t <> t' -> fuel_of (pstep p t') t <= fuel_of p t.
Proof.
  intros Hne. unfold fuel_of, pool_step.
  destruct (nth_error (p_workers p) t') as [w|] eqn:Ht; [|lia].
  destruct (w_status w) as [|[|r rs]|]; cbn [p_cursor p_workers];
    rewrite ?nth_error_update_nth_other by auto; lia.
Qed.

Lemma fuel_step_self p t (Hb : 1 <= block) :
  (exists w, nth_error (p_workers p) t = Some w /\ w_status w <> Done) ->
  fuel_of (pstep p t) t < fuel_of p t.
Proof.
  intros (w & Hw & Hnd). unfold fuel_of, pool_step. rewrite Hw.
  destruct (w_status w) as [|[|r rs]|] eqn:E; cbn [p_cursor p_workers]; try congruence;
    erewrite nth_error_update_nth_same by eassumption; cbn [w_status].
  - destruct (Nat.leb_spec n (p_cursor p)); [lia|]. unfold owned. rewrite seq_length. lia.
  - cbn; lia.
  - destruct rs; cbn; lia.
Qed.

Lemma done_stable p t t' w : nth_error (p_workers p) t = Some w -> w_status w = Done ->
  nth_error (p_workers (pstep p t')) t = Some w.
Proof.
  intros Hw Hd. unfold pool_step. destruct (nth_error (p_workers p) t') as [w'|] eqn:Ht; auto.
  destruct (Nat.eq_dec t t') as [->|Hne].
  - rewrite Hw in Ht. injection Ht as <-. now rewrite Hd.
  - destruct (w_status w') as [|[|r rs]|]; cbn [p_workers]; rewrite ?nth_error_update_nth_other by auto; auto.
Qed.

Lemma workers_length_step p t : length (p_workers (pstep p t)) = length (p_workers p).
Proof.
  unfold pool_step. destruct (nth_error _ _) as [w|]; auto.
  destruct (w_status w) as [|[|r rs]|]; cbn; auto using update_nth_length.
Qed.

Lemma run_done_or_fuel (Hb : 1 <= block) t sched p :
  t < length (p_workers p) ->
  fuel_of p t <= count_occ Nat.eq_dec sched t ->
  exists w, nth_error (p_workers (prun sched p)) t = Some w /\ w_status w = Done.
Proof.
  revert p; induction sched as [|t' sched IH]; intros p Hlt Hf; cbn [count_occ run_pool fold_left] in *.
  - destruct (nth_error (p_workers p) t) as [w|] eqn:Hw; [|apply nth_error_None in Hw; lia].
    exists w; split; auto. unfold fuel_of in Hf. rewrite Hw in Hf. destruct (w_status w); auto; lia.
  - destruct (nth_error (p_workers p) t) as [w|] eqn:Hw; [|apply nth_error_None in Hw; lia].
    assert (Hdec : w_status w = Done \/ w_status w <> Done) by (destruct (w_status w); auto; right; congruence).
    assert (Hlt' : t < length (p_workers (pstep p t'))) by (rewrite workers_length_step; auto).
    destruct Hdec as [Hd|Hnd].
    + clear IH Hf Hlt Hlt'. assert (H : forall l q, nth_error (p_workers q) t = Some w ->
         nth_error (p_workers (prun l q)) t = Some w).
      { induction l as [|a l IHl]; cbn; auto. intros q Hq. apply IHl. apply done_stable; auto. }
      exists w; split; auto. apply H. apply done_stable; auto.
    + apply IH; auto. destruct (Nat.eq_dec t' t) as [->|Hne].
      * assert (fuel_of (pstep p t) t < fuel_of p t) by (apply fuel_step_self; eauto). lia.
      * pose proof (fuel_step_other p t t'). lia.
Qed.

(** Every schedule that gives each worker [3n+1] turns completes. *)
Lemma fair_completes (Hb : 1 <= block) k a0 s0 sched :
  (forall t, t < k -> 3 * n + 1 <= count_occ Nat.eq_dec sched t) ->
  completed (prun sched (init_pool k a0 s0)) = true.
Proof.
  intros Hf. unfold completed. apply forallb_forall. intros w Hw.
  assert (Hlen : length (p_workers (prun sched (init_pool k a0 s0))) = k).
  { destruct (inv_run k a0 s0 sched Hb) as (? & ? & HI). apply HI. }
  destruct (In_nth_error _ _ Hw) as (t & Ht).
  assert (Htk : t < k) by (rewrite <- Hlen; apply nth_error_Some; congruence).
  destruct (run_done_or_fuel Hb t sched (init_pool k a0 s0)) as (w' & Hw' & Hd).
  - cbn. now rewrite repeat_length.
  - specialize (Hf t Htk). unfold fuel_of. cbn [p_cursor p_workers init_pool].
    rewrite (nth_error_nth' _ (mkWorker Ready a0)) by (rewrite repeat_length; auto).
    rewrite nth_repeat. cbn. lia.
  - rewrite Ht in Hw'. injection Hw' as <-. unfold worker_done. now rewrite Hd.
Qed.
End P.
