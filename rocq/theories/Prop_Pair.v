(** C69: user pairs give back what was put in. *)
From Verif Require Import Base Rec_Model Pair_Spec Pair_Proofs PairTop_Proofs Ex_Split.
Local Open Scope nat_scope.

(** The constructor accepts exactly matching numbers of users, rows, columns and items. *)
Theorem C69_accepts {U I} (users : list U) train test (items : option (list I)) :
  (pair_shapes users train test items -> exists p, make_user_pair users train test items = Ok p) /\
  (~ pair_shapes users train test items -> make_user_pair users train test items = Fail ValueError).
Proof. exact (pair_accepts users train test items). Qed.
(** [X_all] is the sum, and stores no zeros. *)
Theorem C69_all {U I} (users : list U) train test (items : option (list I)) p : in_shape train -> some_shape test -> make_user_pair users train test items = Ok p ->
  up_users p = users /\ up_items p = items /\ up_train p = train /\
  c_rows (up_test p) = c_rows train /\ c_cols (up_test p) = c_cols train /\ c_rows (up_all p) = c_rows train /\ c_cols (up_all p) = c_cols train /\
  (forall r c, (entry (up_test p) r c == test_entry test r c)%Q) /\
  (forall r c, (entry (up_all p) r c == entry train r c + test_entry test r c)%Q) /\ ~ stores_zero (up_all p).
Proof. exact (pair_all users train test items p). Qed.
(** With item ids, the frames list the stored entries; a stored zero is a ValueError. *)
Theorem C69_train_frame {U I} (users : list U) train test (items : list I) p : in_shape train -> make_user_pair users train test (Some items) = Ok p ->
  (stores_zero train -> df_train p = Fail ValueError) /\ (~ stores_zero train -> exists rows, df_train p = Ok rows /\ frame_of users items train rows).
Proof. exact (df_train_frame users train test items p). Qed.
Theorem C69_test_frame {U I} (users : list U) train x (items : list I) p : in_shape x -> make_user_pair users train (Some x) (Some items) = Ok p ->
  (stores_zero x -> df_test p = Fail ValueError) /\ (~ stores_zero x -> exists rows, df_test p = Ok rows /\ frame_of users items x rows).
Proof. exact (df_test_frame users train x items p). Qed.
Theorem C69_no_test_frame {U I} (users : list U) train (items : list I) p : make_user_pair users train None (Some items) = Ok p -> df_test p = Ok [].
Proof. exact (df_test_empty users train items p). Qed.
Theorem C69_no_items {U I} (users : list U) train test p : @make_user_pair U I users train test None = Ok p -> df_train p = Fail RuntimeError /\ df_test p = Fail RuntimeError.
Proof. exact (df_no_items users train test p). Qed.
(** A frame read by [df_to_sparse] with the ids of the pair is the matrix again. *)
Theorem C69_round_trip {U I} eq_u eq_i uniq_u uniq_i (users : list U) (items : list I) m rows : lists_distinct uniq_u -> lists_distinct uniq_i -> NoDup users -> NoDup items ->
  in_shape m -> c_rows m = length users -> c_cols m = length items -> frame_of users items m rows ->
  exists m', df_to_sparse eq_u eq_i uniq_u uniq_i (frame_events rows) (Some users) (Some items) true = Ok (m', users, items) /\
    c_rows m' = c_rows m /\ c_cols m' = c_cols m /\ forall r c, (entry m' r c == entry m r c)%Q.
Proof. exact (round_trip eq_u eq_i uniq_u uniq_i users items m rows). Qed.
(** [concat] puts the users of the second pair below those of the first one. *)
Theorem C69_concat {U I} us us' tr tr' te te' (items items' : option (list I)) (p q : user_pair U I) : in_shape tr -> in_shape tr' -> some_shape te -> some_shape te' ->
  make_user_pair us tr te items = Ok p -> make_user_pair us' tr' te' items' = Ok q ->
  (c_cols tr <> c_cols tr' -> concat_pairs p q = Fail ValueError) /\
  (c_cols tr = c_cols tr' -> exists pq, concat_pairs p q = Ok pq /\ up_users pq = us ++ us' /\ up_items pq = None /\
     stacked (up_train p) (up_train q) (up_train pq) /\ stacked (up_test p) (up_test q) (up_test pq) /\ stacked (up_all p) (up_all q) (up_all pq)).
Proof. exact (concat_ok us us' tr tr' te te' items items' p q). Qed.
(** After a partial user hold-out, the frames of "val" and of "test" list each
    interaction of their users once, with the rating of its first row. *)
Theorem C69_split_frames {U I T} eq_u eq_i uniq_u uniq_i rnd B (le : T -> T -> Prop) sort_time (df : list (event U I T)) o ch ds :
  faithful rnd B -> oracles_ok uniq_u uniq_i le sort_time -> choices_ok ch -> length df <= B ->
  (o_rated o = true -> Forall (fun e => int64_range (ev_r e) /\ trunc (ev_r e) <> 0%Z) df) ->
  partial_user_holdout eq_u eq_i uniq_u uniq_i rnd sort_time df o ch = Ok ds ->
  exists train val test vl vh xl xh, partial_pairs ds = Ok (train, val, test) /\
    df_train train = Fail RuntimeError /\ df_test train = Fail RuntimeError /\
    df_train val = Ok vl /\ df_test val = Ok vh /\ lists_interactions (o_rated o) (fun e => first_row df e /\ In (ev_u e) (up_users val)) vl vh /\
    df_train test = Ok xl /\ df_test test = Ok xh /\ lists_interactions (o_rated o) (fun e => first_row df e /\ In (ev_u e) (up_users test)) xl xh.
Proof. exact (fun Hr Ho => partial_frames eq_u eq_i uniq_u uniq_i rnd B Hr le sort_time Ho df o ch ds). Qed.
Print Assumptions C69_accepts.
Print Assumptions C69_all.
Print Assumptions C69_train_frame.
Print Assumptions C69_test_frame.
Print Assumptions C69_no_test_frame.
Print Assumptions C69_no_items.
Print Assumptions C69_round_trip.
Print Assumptions C69_concat.
Print Assumptions C69_split_frames.

Definition rated_options : options := mkOptions false true (Some 1%Z) (Some 2%Z) (1 # 10) (1 # 2) (1 # 2) None (1 # 2) None true.
(** A rating of 1/2 is cut to a stored zero, and the frame is a ValueError. *)
Theorem C69_half_rating_refuted : exists ds train val test, ex_split rated_options ex_df = Ok ds /\ partial_pairs ds = Ok (train, val, test) /\
  (df_train val = Fail ValueError \/ df_test val = Fail ValueError).
Proof. do 4 eexists. split; [vm_compute; reflexivity|]. split; [vm_compute; reflexivity|]. vm_compute. auto. Qed.
(** Concatenating two pairs that know their items loses the item ids. *)
Theorem C69_concat_items_refuted : exists (p q pq : user_pair nat nat),
  make_user_pair [1] (mkCoo 1 2 [(0, 1, 3%Q)]) None (Some [7; 8]) = Ok p /\ make_user_pair [2] (mkCoo 1 2 [(0, 0, 5%Q)]) None (Some [7; 8]) = Ok q /\
  concat_pairs p q = Ok pq /\ df_train p = Ok [(1, 8, 3%Q)] /\ df_train pq = Fail RuntimeError.
Proof. do 3 eexists. do 3 (split; [vm_compute; reflexivity|]). vm_compute. auto. Qed.
Print Assumptions C69_half_rating_refuted.
Print Assumptions C69_concat_items_refuted.

Definition ex_train : coo := mkCoo 2 3 [(1, 0, 2%Q); (0, 2, 1%Q); (1, 0, 3%Q); (1, 1, (-4)%Q)].
Definition ex_test : coo := mkCoo 2 3 [(1, 1, 4%Q); (0, 0, (1 # 2)%Q)].
Example C69_example : in_shape ex_train /\ in_shape ex_test /\ exists p, make_user_pair [5; 6] ex_train (Some ex_test) (Some [10; 11; 12]) = Ok p /\
  df_train p = Ok [(5, 12, 1%Q); (6, 10, 5%Q); (6, 11, (-4)%Q)] /\ df_test p = Ok [(5, 10, (1 # 2)%Q); (6, 11, 4%Q)] /\
  map fst (c_ent (up_all p)) = [(0, 0); (0, 2); (1, 0)].
Proof.
  split; [|split].
  - intros r c v H. cbn in H. repeat (destruct H as [[= <- <- <-]|H]; [cbn; lia|]). destruct H.
  - intros r c v H. cbn in H. repeat (destruct H as [[= <- <- <-]|H]; [cbn; lia|]). destruct H.
  - eexists. split; [vm_compute; reflexivity|]. vm_compute. auto.
Qed.
Example C69_split_example : exists ds train val test, ex_split base_options ex_df = Ok ds /\ partial_pairs ds = Ok (train, val, test) /\
  up_users val = [5] /\ (exists l h, df_train val = Ok l /\ df_test val = Ok h /\ length (l ++ h) = 2) /\
  up_users test = [1; 4] /\ (exists l h, df_train test = Ok l /\ df_test test = Ok h /\ length (l ++ h) = 6).
Proof.
  do 4 eexists. split; [vm_compute; reflexivity|]. split; [vm_compute; reflexivity|]. split; [vm_compute; reflexivity|].
  split; [do 2 eexists; split; [vm_compute; reflexivity|]; split; vm_compute; reflexivity|]. split; [vm_compute; reflexivity|].
  do 2 eexists; split; [vm_compute; reflexivity|]; split; vm_compute; reflexivity.
Qed.
