(** Evaluation from caller-owned arrays leaves these arrays alone. *)
From Verif Require Import Base Sched_Model Eval_Model EvalPy_Model EvalMem_Model.
Local Open Scope nat_scope.

Lemma update_nth_length {X} (l : list X) k x : length (update_nth l k x) = length l.
Proof. revert k; induction l as [|a l IH]; intros [|k]; cbn; auto. Qed.
Lemma update_nth_app {X} (l l' : list X) k x : length l <= k -> firstn (length l) (update_nth (l ++ l') k x) = l.
Proof.
  revert k; induction l as [|a l IH]; intros [|k] H; cbn in *; auto; try lia. now rewrite IH by lia.
Qed.
Lemma update_nth_last {X} (l : list X) y x : update_nth (l ++ [y]) (length l) x = l ++ [x].
Proof. induction l as [|a l IH]; cbn; auto. now rewrite IH. Qed.
Lemma slice_all {X} (l : list X) : slice l 0 (length l) = l.
Proof. unfold slice. cbn. rewrite Nat.sub_0_r. apply firstn_all. Qed.
Lemma read_app st st' v : v_addr v < length st -> read (st ++ st') v = read st v.
Proof. intros H. unfold read. now rewrite app_nth1. Qed.
Lemma read_copy st v : read (fst (copy st v)) (snd (copy st v)) = read st v.
Proof.
  unfold copy. cbn [fst snd]. generalize (read st v). intros [c r]. unfold read. cbn [v_addr v_lo v_hi].
  rewrite app_nth2, Nat.sub_diag by auto. cbn [nth d_cols d_rows]. now rewrite slice_all.
Qed.
Lemma apply_mask_shape d m d' : apply_mask d m = Ok d' -> d_cols d' = d_cols d /\ length (d_rows d') = length (d_rows d).
Proof. unfold apply_mask. destruct mask_in_range; intros [= <-]. cbn. now rewrite map_length, seq_length. Qed.
(** Masking the copy writes the copy only. *)
Lemma assign_copy st v m : let '(st1, c) := copy st v in
  exists d, fst (assign_mask st1 c m) = st ++ [d] /\
  omap (fun _ => read (fst (assign_mask st1 c m)) c) (snd (assign_mask st1 c m)) = apply_mask (read st v) m.
Proof.
  unfold copy. cbn zeta. set (c := mkView _ _ _).
  assert (E : read (st ++ [read st v]) c = read st v) by apply (read_copy st v).
  unfold assign_mask. rewrite E. destruct (apply_mask (read st v) m) as [d'|e| |] eqn:A; cbn; eauto.
  apply apply_mask_shape in A as [A1 A2]. fold c.
  assert (W : write (st ++ [read st v]) c (d_rows d') = st ++ [mkDense (d_cols (read st v)) (d_rows d')]).
  { unfold write. cbn [c v_addr v_lo v_hi]. rewrite app_nth2, Nat.sub_diag by auto. cbn [nth]. rewrite update_nth_last.
    cbn [firstn]. rewrite skipn_all. cbn. now rewrite app_nil_r. }
  rewrite W. exists (mkDense (d_cols (read st v)) (d_rows d')). split; auto. f_equal.
  unfold read at 1. cbn [c v_addr v_lo v_hi]. rewrite app_nth2, Nat.sub_diag by auto. cbn [nth d_cols d_rows].
  rewrite <- A2, slice_all, <- A1. now destruct d'.
Qed.

Section Run.
Variable disc : nat -> Q.

Lemma chunk_loop_store ev mask cutoffs xs st0 chunks : forall ci start ms ext,
  Forall (fun v => v_addr v < length st0) chunks ->
  exists ext', fst (chunk_loop_mem disc ev mask cutoffs xs ci start chunks ms (st0 ++ ext)) = st0 ++ ext' /\
    snd (chunk_loop_mem disc ev mask cutoffs xs ci start chunks ms (st0 ++ ext)) =
    chunk_loop disc ev mask cutoffs xs ci start (map (read st0) chunks) ms.
Proof.
  induction chunks as [|v rest IH]; intros ci start ms ext HA; [cbn; eauto|].
  inversion HA as [|? ? H1 H2]; subst. cbn [chunk_loop_mem chunk_loop map].
  rewrite (read_app st0 ext v H1).
  destruct (negb (d_cols (read st0 v) =? e_n_items ev)); [cbn; eauto|].
  destruct (e_n_users ev <? start + length (d_rows (read st0 v))); [cbn; eauto|].
  destruct (length (d_rows (read st0 v)) =? 0); [now apply IH|].
  destruct (copy (st0 ++ ext) v) as [st1 c] eqn:EC.
  assert (E1 : exists d, st1 = (st0 ++ ext) ++ [d] /\ read st1 c = read st0 v).
  { pose proof (read_copy (st0 ++ ext) v) as H. rewrite EC in H. cbn in H. rewrite read_app in H by auto.
    unfold copy in EC. injection EC as <- <-. eauto. }
  set (end_ := start + length (d_rows (read st0 v))).
  assert (G : exists d st2 r, (match mask with None => (st1, Ok tt) | Some m => assign_mask st1 c (slice m start end_) end) = (st2, r) /\
     st2 = (st0 ++ ext) ++ [d] /\
     omap (fun _ => read st2 c) r = match mask with None => Ok (read st0 v) | Some m => apply_mask (read st0 v) (slice m start end_) end).
  { destruct mask as [m|].
    - pose proof (assign_copy (st0 ++ ext) v (slice m start end_)) as H. rewrite EC in H. destruct H as (d & Ha & Hb).
      rewrite read_app in Hb by auto. destruct (assign_mask st1 c (slice m start end_)) as [st2 r] eqn:EA. cbn in Ha, Hb.
      exists d, st2, r. auto.
    - destruct E1 as (d & -> & E1). exists d, ((st0 ++ ext) ++ [d]), (Ok tt). cbn. now rewrite E1. }
  destruct G as (d & st2 & r & -> & -> & Er). rewrite <- Er.
  assert (Eb : obind (omap (fun _ => read ((st0 ++ ext) ++ [d]) c) r) (fun d' => obind (merge_cutoffs disc ev d' start (xs ci) 0 cutoffs ms) (fun ms' =>
      chunk_loop disc ev mask cutoffs xs (S ci) end_ (map (read st0) rest) ms')) =
    obind (obind r (fun _ => merge_cutoffs disc ev (read ((st0 ++ ext) ++ [d]) c) start (xs ci) 0 cutoffs ms))
      (fun ms' => chunk_loop disc ev mask cutoffs xs (S ci) end_ (map (read st0) rest) ms')).
  { destruct r; reflexivity. }
  rewrite Eb. destruct (obind r _) as [ms'|e| |]; cbn [obind]; try (rewrite <- app_assoc; cbn; eauto; fail).
Qed.

(** The result is that of the functional model, every existing array keeps its content. *)
Lemma chunk_memory ev mask cutoffs xs chunks ms st : Forall (fun v => v_addr v < length st) chunks ->
  snd (chunk_loop_mem disc ev mask cutoffs xs 0 0 chunks ms st) = chunk_loop disc ev mask cutoffs xs 0 0 (map (read st) chunks) ms /\
  forall a, a < length st -> nth_error (fst (chunk_loop_mem disc ev mask cutoffs xs 0 0 chunks ms st)) a = nth_error st a.
Proof.
  intros H. destruct (chunk_loop_store ev mask cutoffs xs st chunks 0 0 ms [] H) as (ext & H1 & H2). rewrite app_nil_r in *.
  split; auto. intros a Ha. rewrite H1. now rewrite nth_error_app1.
Qed.
End Run.
