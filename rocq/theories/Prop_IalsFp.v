(** * C72: reproducibility of iALS training in machine arithmetic *)
From Coq Require Import QArith SpecFloat.
From Verif Require Import Base Sched_Model IalsFp_Model IalsFp_Spec IalsFp_Proofs Ex_IalsFp.
Local Open Scope nat_scope.

(** Initial factors: the vector of a user depends on the seed, init_stdev,
    n_components and the index of the user; the item with this index starts
    with the same vector. *)
Theorem C72_start M c c' d d' j j' i : (0 < c_stdev c)%Q -> c_seed c' = c_seed c -> c_stdev c' = c_stdev c -> c_K c' = c_K c ->
  i < length (d_X M d) ->
  length (t_user M (new_trainer M c d j)) = length (d_X M d) /\ length (t_item M (new_trainer M c d j)) = length (d_Xt M d) /\
  exists x, nth_error (t_user M (new_trainer M c d j)) i = Some x /\ length x = c_K c /\
    (i < length (d_Xt M d) -> nth_error (t_item M (new_trainer M c d j)) i = Some x) /\
    (i < length (d_X M d') -> nth_error (t_user M (new_trainer M c' d' j')) i = Some x) /\
    (i < length (d_Xt M d') -> nth_error (t_item M (new_trainer M c' d' j')) i = Some x).
Proof. exact (start_equal M c c' d d' j j' i). Qed.
Print Assumptions C72_start.
(** One thread: two runs end with the same factors, bit by bit. *)
Theorem C72_one_thread M c d j j' ess ess' t t' : c_threads c = 1 -> (0 < c_stdev c)%Q -> length ess' = length ess ->
  train M c d ess (new_trainer M c d j) = Ok t -> train M c d ess' (new_trainer M c d j') = Ok t' -> t = t'.
Proof. exact (one_thread_runs M c d j j' ess ess' t t'). Qed.
Print Assumptions C72_one_thread.
(** ... and a run that gets its share of the processor ends if another one did. *)
Theorem C72_one_thread_returns M c d ess ess' t t' : c_threads c = 1 -> length ess' = length ess ->
  Forall (epoch_fair (length (t_user M t)) (length (t_item M t)) 1) ess' ->
  train M c d ess t = Ok t' -> train M c d ess' t = Ok t'.
Proof. exact (one_thread_returns M c d ess ess' t t'). Qed.
Print Assumptions C72_one_thread_returns.
Theorem C72_transform M c sp sp' sch sch' t X T T' : c_threads c = 1 ->
  transform_user M c sp sch t X = Ok T -> transform_user M c sp' sch' t X = Ok T' -> T = T'.
Proof. exact (transform_one M c sp sp' sch sch' t X T T'). Qed.
Print Assumptions C72_transform.
(** Any solver, given the Gram matrix of the other side: neither the number of
    threads nor their speed matters. *)
Theorem C72_given_gram M c nt sch sch' V P X T T1 T2 : 1 <= c_threads c -> 1 <= nt ->
  solver_step M c sch V P X T = Ok T1 -> solver_step M (with_threads c nt) sch' V P X T = Ok T2 -> T1 = T2.
Proof. exact (given_gram M c nt sch sch' V P X T T1 T2). Qed.
Print Assumptions C72_given_gram.
Theorem C72_given_gram_returns M c nt sch sch' V P X T T' : 1 <= c_threads c -> 1 <= nt -> all_fair (length T) nt sch' ->
  solver_step M c sch V P X T = Ok T' -> solver_step M (with_threads c nt) sch' V P X T = Ok T'.
Proof. exact (given_gram_returns M c nt sch sch' V P X T T'). Qed.
Print Assumptions C72_given_gram_returns.
(** If sums of Gram matrices were exact, training would not depend on threads. *)
Theorem C72_exact M c nt d ess ess' t t1 t2 : exact_sums M -> 1 <= c_threads c -> 1 <= nt -> length ess' = length ess ->
  train M c d ess t = Ok t1 -> train M (with_threads c nt) d ess' t = Ok t2 -> t1 = t2.
Proof. exact (exact_threads M c nt d ess ess' t t1 t2). Qed.
Print Assumptions C72_exact.
Theorem C72_exact_returns M c nt d ess ess' t t' : exact_sums M -> 1 <= c_threads c -> 1 <= nt -> length ess' = length ess ->
  Forall (epoch_fair (length (t_user M t)) (length (t_item M t)) nt) ess' ->
  train M c d ess t = Ok t' -> train M (with_threads c nt) d ess' t = Ok t'.
Proof. exact (exact_threads_returns M c nt d ess ess' t t'). Qed.
Print Assumptions C72_exact_returns.
(** Scores of a block of users: the same for every interleaving and whatever
    the memory of the result contained. *)
Theorem C72_scores M nt sched sched' b e t junk junk' S S' : (forall U V, length (score_block M U V) = length U) ->
  length junk = e - b -> length junk' = e - b ->
  user_scores M nt sched b e t junk = Ok S -> user_scores M nt sched' b e t junk' = Ok S' -> S = S'.
Proof. exact (scores_same M nt sched sched' b e t junk junk' S S'). Qed.
Print Assumptions C72_scores.
(** If a product of blocks treats all rows alike, the number of threads (which
    decides about the blocks) does not matter either. *)
Theorem C72_scores_threads M score_row nt sched b e t junk S : rowwise M score_row -> length junk = e - b ->
  user_scores M nt sched b e t junk = Ok S ->
  S = map (fun u => score_row u (t_item M t)) (firstn (e - b) (skipn b (t_user M t))).
Proof. exact (scores_rowwise M score_row nt sched b e t junk S). Qed.
Print Assumptions C72_scores_threads.

(** With two threads the same seed gives different factors: 32-bit floats,
    one user, 48 items, one epoch, Cholesky. *)
Theorem C72_threads_refuted : exists M c d es es' t t', c_threads c = 2 /\ (0 < c_stdev c)%Q /\
  train M c d [es] (new_trainer M c d ([], [])) = Ok t /\ train M c d [es'] (new_trainer M c d ([], [])) = Ok t' /\
  t_user M t <> t_user M t'.
Proof.
  destruct (differ_ok (train ex_machine (ex_conf 2) ex_data [ex_epoch sched_a] (ex_start 2)) (train ex_machine (ex_conf 2) ex_data [ex_epoch sched_b] (ex_start 2))) as (t & t' & H & H' & D).
  { vm_compute. reflexivity. }
  exists ex_machine, (ex_conf 2), ex_data, (ex_epoch sched_a), (ex_epoch sched_b), t, t'.
  exact (conj eq_refl (conj eq_refl (conj H (conj H' D)))).
Qed.
Print Assumptions C72_threads_refuted.
(** Two threads give something else than one. *)
Theorem C72_number_refuted : exists M c d es es' t t', c_threads c = 1 /\ (0 < c_stdev c)%Q /\
  train M c d [es] (new_trainer M c d ([], [])) = Ok t /\
  train M (with_threads c 2) d [es'] (new_trainer M c d ([], [])) = Ok t' /\ t_user M t <> t_user M t'.
Proof.
  destruct (differ_ok (train ex_machine (ex_conf 1) ex_data [ex_epoch_1] (ex_start 1)) (train ex_machine (ex_conf 2) ex_data [ex_epoch sched_b] (ex_start 1))) as (t & t' & H & H' & D).
  { vm_compute. reflexivity. }
  exists ex_machine, (ex_conf 1), ex_data, ex_epoch_1, (ex_epoch sched_b), t, t'.
  exact (conj eq_refl (conj eq_refl (conj H (conj H' D)))).
Qed.
Print Assumptions C72_number_refuted.
(** Without a positive init_stdev the run depends on what the memory contained. *)
Theorem C72_memory_refuted : exists M c d es j j' t t', c_threads c = 1 /\ c_stdev c = 0%Q /\
  train M c d [es] (new_trainer M c d j) = Ok t /\ train M c d [es] (new_trainer M c d j') = Ok t' /\ t_user M t <> t_user M t'.
Proof.
  set (c := mkConfig 1 28 0 1 Cholesky 3 1 64). set (j := ([[f0]], repeat [f0] 48)). set (j' := ([[f0]], repeat [f1] 48)).
  destruct (differ_ok (train ex_machine c ex_data [ex_epoch_1] (new_trainer ex_machine c ex_data j)) (train ex_machine c ex_data [ex_epoch_1] (new_trainer ex_machine c ex_data j'))) as (t & t' & H & H' & D).
  { vm_compute. reflexivity. }
  exists ex_machine, c, ex_data, ex_epoch_1, j, j', t, t'.
  exact (conj eq_refl (conj eq_refl (conj H (conj H' D)))).
Qed.
Print Assumptions C72_memory_refuted.

(** One thread, two schedules: 48 items, 3 blocks; the user factor is not zero. *)
Example C72_ex_one_thread :
  match train ex_machine (ex_conf 1) ex_data [ex_epoch_1; ex_epoch_1] (new_trainer ex_machine (ex_conf 1) ex_data ([], [])),
        train ex_machine (ex_conf 1) ex_data [ex_epoch_1'; ex_epoch_1] (new_trainer ex_machine (ex_conf 1) ex_data ([[f1]], [])) with
  | Ok t, Ok t' => Pos.eqb (mantissa (user0 t)) (mantissa (user0 t')) && Pos.ltb 1 (mantissa (user0 t)) && (length (t_item _ t) =? 48)
  | _, _ => false
  end = true.
Proof. vm_compute. reflexivity. Qed.
Example C72_ex_fair : Forall (epoch_fair 1 48 1) [ex_epoch_1].
Proof.
  constructor; [|constructor]. unfold epoch_fair, all_fair, fair_for.
  refine (conj _ (conj _ (conj _ _))); intros; match goal with H : ?t < 1 |- _ => replace t with 0 by lia end; cbn; lia.
Qed.
Example C72_ex_start : (0 < c_stdev (ex_conf 1))%Q /\ nth_error (t_user _ (ex_start 1)) 0 = nth_error (t_item _ (ex_start 1)) 0.
Proof. split; [reflexivity|vm_compute; reflexivity]. Qed.
Example C72_ex_exact : exact_sums ex_exact /\
  forallb (fun s => match train ex_exact (ex_conf_z s 2) ex_data_z [ex_epoch_z 2; ex_epoch_z 2] (new_trainer ex_exact (ex_conf_z s 2) ex_data_z ([], [])),
                          train ex_exact (ex_conf_z s 3) ex_data_z [ex_epoch_z 3; ex_epoch_z 4] (new_trainer ex_exact (ex_conf_z s 3) ex_data_z ([], [])) with
                    | Ok t, Ok t' => (length (t_user _ t) =? 2) && (fold_left Z.add (concat (t_item _ t)) 0 =? fold_left Z.add (concat (t_item _ t')) 0)%Z
                    | _, _ => false end) [Cholesky; CG; IALSPP] = true.
Proof. split; [exact ex_exact_ok|vm_compute; reflexivity]. Qed.
Example C72_ex_scores : rowwise ex_machine (fun u V => map (fun v => fmul (hd1 u) (hd1 v)) V) /\
  match user_scores ex_machine 2 (rr 40 2) 3 43 (mkTrainer ex_machine (t_item _ (ex_start 1)) (t_item _ (ex_start 1))) (repeat [] 40),
        user_scores ex_machine 1 (sched_1 40) 3 43 (mkTrainer ex_machine (t_item _ (ex_start 1)) (t_item _ (ex_start 1))) (repeat [f1] 40) with
  | Ok A, Ok B => (length A =? 40) && forallb (fun p => Pos.eqb (mantissa (fst p)) (mantissa (snd p))) (combine (concat A) (concat B))
  | _, _ => false
  end = true.
Proof. split; [intros U V; reflexivity|vm_compute; reflexivity]. Qed.
