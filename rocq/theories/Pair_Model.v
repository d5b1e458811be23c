(** Model of [UserTrainTestInteractionPair] (src/irspack/split/userwise.py
    20-120): construction, [X_all], [df_train], [df_test] and [concat]; and of
    the pairs that [split_dataframe_partial_user_holdout] (311-374) returns.

    Simplifications: values are exact numbers (the sum in [X_all] is not
    rounded); a sparse matrix is a list of triplets as in Split_Model.v, whose
    conversion to compressed rows is [csr_rows], so positions repeated inside a
    compressed matrix given by the caller count as summed; the dtype is left out. *)
From Verif Require Import Base Rec_Model Split_Model.
Local Open Scope nat_scope.

Section Pair.
Context {U I : Type}.

Record user_pair := mkUserPair {
  up_users : list U;             (* user_ids *)
  up_train : coo;                (* X_train *)
  up_test : coo;                 (* X_test *)
  up_all : coo;                  (* X_all *)
  up_items : option (list I) }.  (* item_ids *)

(** [csr + csr]: scipy stores the sums that are not zero. *)
Definition add_csr (a b : coo) : coo :=
  mkCoo (c_rows a) (c_cols a)
    (flat_map (fun r => flat_map (fun c => let v := (entry a r c + entry b r c)%Q in
                                           if Qeq_bool v 0 then [] else [(r, c, v)]) (seq 0 (c_cols a)))
              (seq 0 (c_rows a))).

(** [__init__] (53-80). *)
Definition make_user_pair (users : list U) (train : coo) (test : option coo) (items : option (list I)) : outcome user_pair :=
  if negb (length users =? c_rows train) then Fail ValueError
  else
  obind (match test with
         | Some x => if (c_rows train =? c_rows x) && (c_cols train =? c_cols x) then Ok x else Fail ValueError
         | None => Ok (mkCoo (c_rows train) (c_cols train) [])
         end) (fun test =>
  match items with
  | Some is => if negb (length is =? c_cols test) then Fail ValueError
               else Ok (mkUserPair users train test (add_csr train test) items)
  | None => Ok (mkUserPair users train test (add_csr train test) items)
  end).

(** The stored entries of a compressed matrix, row by row, columns in order. *)
Definition stored (m : coo) : list (nat * nat * Q) :=
  flat_map (fun rrow => map (fun e => (fst rrow, fst e, snd e)) (snd rrow)) (combine (seq 0 (c_rows m)) (csr_rows m)).

(** [_X_to_df] (82-94): [X.nonzero()] lists the positions of the values that
    are not zero, [X.data] all stored values; pandas refuses columns of
    different lengths (ValueError). *)
Definition x_to_df (p : user_pair) (m : coo) : outcome (list (U * I * Q)) :=
  match up_items p with
  | None => Fail RuntimeError
  | Some is =>
      let data := stored m in
      let nonzero := filter (fun t => negb (Qeq_bool (snd t) 0)) data in
      obind (oall (map (fun t => obind (of_option (nth_error (up_users p) (fst (fst t)))) (fun u =>
                                 omap (fun i => (u, i)) (of_option (nth_error is (snd (fst t)))))) nonzero)) (fun ids =>
      if negb (length nonzero =? length data) then Fail ValueError
      else Ok (combine ids (map snd data)))
  end.
(** 96-100. *)
Definition df_train (p : user_pair) := x_to_df p (up_train p).
Definition df_test (p : user_pair) := x_to_df p (up_test p).

(** [sps.vstack]. *)
Definition vstack (a b : coo) : coo :=
  mkCoo (c_rows a + c_rows b) (c_cols a)
    (c_ent a ++ map (fun t => (c_rows a + fst (fst t), snd (fst t), snd t)) (c_ent b)).
(** [concat] (102-120): the item ids are not passed on. *)
Definition concat_pairs (p q : user_pair) : outcome user_pair :=
  if negb (c_cols (up_train p) =? c_cols (up_train q)) then Fail ValueError
  else make_user_pair (up_users p ++ up_users q) (vstack (up_train p) (up_train q)) (Some (vstack (up_test p) (up_test q))) None.

(** The pairs of a partial user hold-out: "train" is built without test matrix
    and item ids (338-340), "val" and "test" with both (176-178, 218). *)
Definition partial_pairs (ds : datasets U I) : outcome (user_pair * user_pair * user_pair) :=
  obind (make_user_pair (pd_users (ds_train ds)) (pd_train (ds_train ds)) None None) (fun train =>
  obind (make_user_pair (pd_users (ds_val ds)) (pd_train (ds_val ds)) (Some (pd_test (ds_val ds))) (Some (ds_items ds))) (fun val =>
  omap (fun test => (train, val, test))
    (make_user_pair (pd_users (ds_test ds)) (pd_train (ds_test ds)) (Some (pd_test (ds_test ds))) (Some (ds_items ds))))).
End Pair.
Arguments user_pair U I : clear implicits.
