(** Model of the splitting code: [rowwise_train_test_split]
    (src/irspack/utils/__init__.py 28-69, cpp_source/util.hpp 72-156),
    [df_to_sparse] (utils/__init__.py 72-130), src/irspack/split/time.py,
    userwise.py and specified.py.

    Simplifications: a data frame is a list of events (user, item, time,
    rating); random shuffles, [set] iteration orders, [unique] and sorts are
    oracles whose contracts are in Split_Spec.v; a sparse matrix is the list
    of triplets it is built from, triplets at the same position adding up
    (scipy's and Eigen's conversion).  [rnd] is the rounding of a floating point
    operation.  NaN values and the dtype conversions of numpy are left out. *)
From Coq Require Export QArith Qround.
From Verif Require Import Base Rec_Model.
Local Open Scope nat_scope.

(** Sparse matrix: shape and triplets (row, column, value). *)
Record coo := mkCoo { c_rows : nat; c_cols : nat; c_ent : list (nat * nat * Q) }.
(** Entry: sum of the triplets at the position. *)
Definition entry (m : coo) (r c : nat) : Q :=
  fold_right Qplus 0%Q (map snd (filter (fun e => (fst (fst e) =? r) && (snd (fst e) =? c)) (c_ent m))).
(** Compressed rows: for each row the occupied columns in order with their sums. *)
Definition csr_rows (m : coo) : list (list (nat * Q)) :=
  map (fun r => map (fun c => (c, entry m r c))
                    (filter (fun c => existsb (fun e => (fst (fst e) =? r) && (snd (fst e) =? c)) (c_ent m)) (seq 0 (c_cols m))))
      (seq 0 (c_rows m)).

(** ** rowwise_train_test_split *)
Section Rowwise.
Variable rnd : Q -> Q.

Inductive split_rule := ByRatio (ratio : Q) (ceil : bool) | FixedN (n : nat).

(** [check_args] (util.hpp 122-125, 147). *)
Definition rule_ok (s : split_rule) : bool :=
  match s with
  | ByRatio r _ => Qle_bool r 1 && Qle_bool 0 r
  | FixedN _ => true
  end.
(** [get_n_test] (127-134, 149-151). *)
Definition get_n_test (s : split_rule) (nnz : nat) : nat :=
  match s with
  | ByRatio r true => Z.to_nat (Qceiling (rnd (inject_Z (Z.of_nat nnz) * r)))
  | ByRatio r false => Z.to_nat (Qfloor (rnd (inject_Z (Z.of_nat nnz) * r)))
  | FixedN n => min nnz n
  end.

(** Conversion of a double to int64_t by [Eigen::Triplet<Integer>] (79, 98-104):
    truncation, undefined out of range. *)
Definition to_int64 (q : Q) : outcome Z :=
  let z := Z.quot (Qnum q) (Zpos (Qden q)) in
  if ((- 2 ^ 63 <=? z) && (z <? 2 ^ 63))%Z then Ok z else UB.

(** [col_buffer[index_[i]], data_buffer[index_[i]]] for a range of [i] (97-106). *)
Definition pick (row : list (nat * Q)) (index : list nat) (r : nat) (is : list nat) : outcome (list (nat * nat * Q)) :=
  oall (map (fun i => obind (of_option (nth_error index i)) (fun j =>
                      obind (of_option (nth_error row j)) (fun e =>
                      omap (fun z => (r, fst e, inject_Z z)) (to_int64 (snd e))))) is).

(** The body of the row loop (85-107); [index]: the shuffled indices of this row.
    Returns the test and the train triplets of the row. *)
Definition split_row (s : split_rule) (row : list (nat * Q)) (index : list nat) (r : nat) : outcome (list (nat * nat * Q) * list (nat * nat * Q)) :=
  let n_test := get_n_test s (length row) in
  obind (pick row index r (seq 0 n_test)) (fun test =>
  omap (fun train => (test, train)) (pick row index r (seq n_test (length row - n_test)))).

(** [split_imple] (73-114) and the wrapper rowwise_train_test_split;
    [shuffle r n]: the permutation of [0..n-1] drawn for row [r]. *)
Definition rowwise_split (s : split_rule) (shuffle : nat -> nat -> list nat) (n_cols : nat) (rows : list (list (nat * Q))) : outcome (coo * coo) :=
  check_arg (rule_ok s)
  (omap (fun parts =>
     (mkCoo (length rows) n_cols (concat (map snd parts)), mkCoo (length rows) n_cols (concat (map fst parts))))
     (oall (map (fun r => let row := nth r rows [] in split_row s row (shuffle r (length row)) r) (seq 0 (length rows))))).
End Rowwise.

(** ** Data frames *)
Inductive listing := ByAppearance | BySet | BySort.
Section Df.
Context {U I T : Type}.
Variable eq_u : forall a b : U, {a = b} + {a <> b}.
Variable eq_i : forall a b : I, {a = b} + {a <> b}.

Record event := mkEvent { ev_u : U; ev_i : I; ev_t : T; ev_r : Q }.

(** The distinct values in some order: that of [Series.unique] (order of
    appearance), of a [set], and of [pd.Categorical], [np.unique] and
    [factorize(sort=True)] (sorted). *)
Variable uniq_u : listing -> list U -> list U.
Variable uniq_i : listing -> list I -> list I.

Fixpoint distinct {X} (eq : forall a b : X, {a = b} + {a <> b}) (l : list X) : bool :=
  match l with [] => true | x :: l' => negb (id_mem eq x l') && distinct eq l' end.
(** Code of a value in a list of categories. *)
Fixpoint code {X} (eq : forall a b : X, {a = b} + {a <> b}) (l : list X) (x : X) : option nat :=
  match l with [] => None | y :: l' => if eq x y then Some 0 else option_map S (code eq l' x) end.

(** df_to_sparse (72-130): [pd.Categorical] refuses repeated categories
    (ValueError).  [rated]: is a rating column given. *)
Definition df_to_sparse (df : list event) (user_ids : option (list U)) (item_ids : option (list I)) (rated : bool) : outcome (coo * list U * list I) :=
  let df1 := match user_ids with Some us => filter (fun e => id_mem eq_u (ev_u e) us) df | None => df end in
  let df2 := match item_ids with Some is => filter (fun e => id_mem eq_i (ev_i e) is) df1 | None => df1 end in
  let us := match user_ids with Some us => us | None => uniq_u BySort (map ev_u df2) end in
  let is := match item_ids with Some is => is | None => uniq_i BySort (map ev_i df2) end in
  if negb (distinct eq_u us) then Fail ValueError
  else if negb (distinct eq_i is) then Fail ValueError
  else
    omap (fun ent => (mkCoo (length us) (length is) ent, us, is))
      (oall (map (fun e => match code eq_u us (ev_u e), code eq_i is (ev_i e) with
                           | Some r, Some c => Ok (r, c, if rated then ev_r e else 1%Q)
                           | _, _ => Fail ValueError
                           end) df2)).

(** ** split_last_n_interaction_df (time.py 7-59) *)
Variable rnd : Q -> Q.
(** [sort_values([user, time])] (39). *)
Variable sort_time : list event -> list event.

(** Number of later rows of the same user: [groupby(user).cumcount(ascending=False)] (41). *)
Definition same_user (a b : event) : bool := if eq_u (ev_u a) (ev_u b) then true else false.
Fixpoint with_rank (s : list event) : list (event * nat) :=
  match s with
  | [] => []
  | e :: s' => (e, length (filter (same_user e) s')) :: with_rank s'
  end.
(** [test_indicator] (43-55); [n_heldout] may be negative. *)
Definition is_heldout (s : list event) (n_heldout : option Z) (ratio : Q) (ceil : bool) (p : event * nat) : bool :=
  match n_heldout with
  | Some n => (Z.of_nat (snd p) <? n)%Z
  | None =>
      let x := rnd (inject_Z (Z.of_nat (length (filter (same_user (fst p)) s))) * ratio) in
      (Z.of_nat (snd p) <? (if ceil then Qceiling x else Qfloor x))%Z
  end.
Definition split_last_n (df : list event) (n_heldout : option Z) (ratio : Q) (ceil : bool) : list event * list event :=
  let s := sort_time df in
  let ranked := with_rank s in
  (map fst (filter (fun p => negb (is_heldout s n_heldout ratio ceil p)) ranked),
   map fst (filter (is_heldout s n_heldout ratio ceil) ranked)).

(** ** UserTrainTestInteractionPair (userwise.py 20-120) *)
Record pair_data := mkPair { pd_users : list U; pd_train : coo; pd_test : coo }.
Definition make_pair (users : list U) (train : coo) (test : option coo) : outcome pair_data :=
  if negb (length users =? c_rows train) then Fail ValueError
  else match test with
       | None => Ok (mkPair users train (mkCoo (c_rows train) (c_cols train) []))
       | Some x => if (c_rows x =? c_rows train) && (c_cols x =? c_cols train) then Ok (mkPair users train x) else Fail ValueError
       end.

(** The number of held out interactions per user: n_heldout or a ratio. *)
Definition rule_of (n_heldout : option nat) (ratio : Q) (ceil : bool) : split_rule :=
  match n_heldout with Some n => FixedN n | None => ByRatio ratio ceil end.
(** split_train_test_userwise_random (123-178). *)
Definition userwise_random (df : list event) (items : list I) (n_heldout : option nat) (ratio : Q) (ceil rated : bool)
           (shuffle : nat -> nat -> list nat) : outcome pair_data :=
  obind (df_to_sparse df None (Some items) rated) (fun r =>
  let '(x, users, _) := r in
  obind (rowwise_split rnd (rule_of n_heldout ratio ceil) shuffle (c_cols x) (csr_rows x)) (fun p =>
  make_pair users (fst p) (Some (snd p)))).
(** split_train_test_userwise_time (181-218): the rating column is dropped
    (193), so a rating column cannot be found (KeyError). *)
Definition userwise_time (df : list event) (items : list I) (n_heldout : option nat) (ratio : Q) (ceil rated : bool) : outcome pair_data :=
  let users := uniq_u BySet (map ev_u df) in
  let '(df_train, df_test) := split_last_n df (option_map Z.of_nat n_heldout) ratio ceil in
  if rated then Fail KeyError
  else
    obind (df_to_sparse df_train (Some users) (Some items) false) (fun a =>
    obind (df_to_sparse df_test (Some users) (Some items) false) (fun b =>
    make_pair users (fst (fst a)) (Some (fst (fst b))))).

(** ** split_dataframe_partial_user_holdout (221-370) *)
(** Python slices [l[:k]] and [l[k:]]. *)
Definition py_cut {X} (l : list X) (k : Z) : nat := if (k <? 0)%Z then Z.to_nat (Z.max 0 (Z.of_nat (length l) + k)) else Z.to_nat k.
Definition py_to {X} (l : list X) (k : Z) : list X := firstn (py_cut l k) l.
Definition py_from {X} (l : list X) (k : Z) : list X := skipn (py_cut l k) l.
(** [_split_list] (13-17); [shuffled]: the result of [rns.shuffle]. *)
Definition split_list {X} (shuffle : list X -> list X) (ids : list X) (test_size : Z) : list X * list X :=
  let s := shuffle ids in (py_from s test_size, py_to s test_size).

(** [int(x)] of a float: truncation. *)
Definition py_int (q : Q) : Z := Z.quot (Qnum q) (Zpos (Qden q)).

(** [df.drop_duplicates([user, item])] (310): the first row of each pair. *)
Fixpoint drop_dup (seen : list (U * I)) (df : list event) : list event :=
  match df with
  | [] => []
  | e :: df' =>
      if existsb (fun p => (if eq_u (fst p) (ev_u e) then true else false) && (if eq_i (snd p) (ev_i e) then true else false)) seen
      then drop_dup seen df'
      else e :: drop_dup ((ev_u e, ev_i e) :: seen) df'
  end.

Record options := mkOptions {
  o_time : bool;                (* time_column given *)
  o_rated : bool;               (* rating_column given *)
  o_n_val : option Z;
  o_n_test : option Z;
  o_val_ratio : Q;
  o_test_ratio : Q;
  o_held_val : Q;
  o_n_held_val : option nat;
  o_held_test : Q;
  o_n_held_test : option nat;
  o_ceil : bool }.

(** Random choices: the two user shuffles and the row shuffles of val and test. *)
Record choices := mkChoices {
  ch_first : list U -> list U;
  ch_second : list U -> list U;
  ch_val : nat -> nat -> list nat;
  ch_test : nat -> nat -> list nat }.

(** Number of users of a kind and the ratio used afterwards (289-308). *)
Definition n_from_ratio (n_all : nat) (ratio : Q) : outcome (Z * Q) :=
  let n := py_int (rnd (inject_Z (Z.of_nat n_all) * ratio)) in
  if n_all =? 0 then Fail ZeroDivision else Ok (n, rnd (inject_Z n / inject_Z (Z.of_nat n_all))).

(** Rows of the given users. *)
Definition rows_of (df : list event) (us : list U) : list event := filter (fun e => id_mem eq_u (ev_u e) us) df.

Definition unit_interval (q : Q) : bool := Qle_bool q 1 && Qle_bool 0 q.

Record datasets := mkDatasets { ds_train : pair_data; ds_val : pair_data; ds_test : pair_data; ds_items : list I }.

Definition partial_user_holdout (df : list event) (o : options) (ch : choices) : outcome datasets :=
  if negb (unit_interval (o_test_ratio o)) then Fail AssertionError
  else if negb (unit_interval (o_val_ratio o)) then Fail AssertionError
  else
  let uids := uniq_u ByAppearance (map ev_u df) in
  let n_all := length uids in
  obind (match o_n_val o with
         | None => omap fst (n_from_ratio n_all (o_val_ratio o))
         | Some n => if (Z.of_nat n_all <? n)%Z then Fail ValueError else Ok n
         end) (fun n_val =>
  obind (match o_n_test o with
         | None => n_from_ratio n_all (o_test_ratio o)
         | Some n => if (Z.of_nat n_all <? n + n_val)%Z then Fail ValueError else Ok (n, o_test_ratio o)
         end) (fun nt =>
  let '(n_test, test_ratio) := nt in
  let df' := drop_dup [] df in
  let '(train_uids, val_test_uids) := split_list (ch_first ch) uids (n_val + n_test) in
  let '(val_uids, test_uids) :=
    if Qle_bool 1 (rnd (test_ratio * inject_Z (Z.of_nat n_all)))
    then split_list (ch_second ch) val_test_uids n_test
    else (val_test_uids, []) in
  let items := uniq_i BySet (map ev_i df') in
  obind (df_to_sparse (rows_of df' train_uids) (Some train_uids) (Some items) false) (fun tr =>
  obind (make_pair train_uids (fst (fst tr)) None) (fun train =>
  let part us held n_held sh :=
    if o_time o then userwise_time (rows_of df' us) items n_held held (o_ceil o) (o_rated o)
    else userwise_random (rows_of df' us) items n_held held (o_ceil o) (o_rated o) sh in
  obind (part val_uids (o_held_val o) (o_n_held_val o) (ch_val ch)) (fun val =>
  omap (fun test => mkDatasets train val test items)
    (part test_uids (o_held_test o) (o_n_held_test o) (ch_test ch))))))).

(** ** holdout_specific_interactions (specified.py 13-148) *)
(** [df_to_dataset] (97-129). *)
Definition to_coo (us : list U) (items : list I) (df : list event) : outcome coo :=
  omap (mkCoo (length us) (length items))
    (oall (map (fun e => match code eq_u us (ev_u e), code eq_i items (ev_i e) with
                         | Some r, Some c => Ok (r, c, 1%Q)
                         | _, _ => Fail ValueError
                         end) df)).
Definition dataset_train (items : list I) (df : list (event * bool)) : outcome pair_data :=
  let us := uniq_u BySort (map (fun p => ev_u (fst p)) df) in
  obind (to_coo us items (map fst df)) (fun x => make_pair us x None).
Definition dataset_held (items : list I) (df : list (event * bool)) : outcome pair_data :=
  let us := uniq_u BySort (map (fun p => ev_u (fst p)) df) in
  obind (to_coo us items (map fst (filter (fun p => negb (snd p)) df))) (fun learn =>
  obind (to_coo us items (map fst (filter snd df))) (fun predict =>
  make_pair us learn (Some predict))).

(** [interaction_indicator] is a boolean mask (numpy refuses another length). *)
Definition holdout_specific (df : list event) (indicator : list bool) (ratio_val ratio_test : Q)
           (shuffle1 shuffle2 : list U -> list U) : outcome datasets :=
  let v_train := rnd (rnd (1 - ratio_val) - ratio_test) in
  if negb (Qle_bool (- (1 # 10000000000)) v_train) then Fail ValueError
  else if negb (length indicator =? length df) then Fail IndexError
  else
  let items := uniq_i BySort (map ev_i df) in
  let fdf := combine df indicator in
  let validatable := uniq_u BySort (map (fun p => ev_u (fst p)) (filter snd fdf)) in
  let val_test_ratio := rnd (1 - v_train) in
  let '(v_val_test, v_train_users) :=
    if Qle_bool 1 val_test_ratio then (validatable, [])
    else split_list shuffle1 validatable (py_int (rnd (v_train * inject_Z (Z.of_nat (length validatable))))) in
  if Qeq_bool val_test_ratio 0 then Fail ZeroDivision
  else
  let '(v_test, v_val) :=
    split_list shuffle2 v_val_test (py_int (rnd (rnd (inject_Z (Z.of_nat (length v_val_test)) * ratio_val) / val_test_ratio))) in
  let of_users us := filter (fun p => id_mem eq_u (ev_u (fst p)) us) fdf in
  let df_train := of_users v_train_users ++ filter (fun p => negb (id_mem eq_u (ev_u (fst p)) validatable)) fdf in
  obind (dataset_train items df_train) (fun train =>
  obind (dataset_held items (of_users v_val)) (fun val =>
  omap (fun test => mkDatasets train val test items) (dataset_held items (of_users v_test)))).
End Df.
Arguments event U I T : clear implicits.
Arguments pair_data U : clear implicits.
Arguments datasets U I : clear implicits.
Arguments choices U : clear implicits.
