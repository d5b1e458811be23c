(** Model of the flow of random numbers through the splits:
    [convert_randomstate] (src/irspack/utils/random.py 6-12),
    [rowwise_train_test_split] (utils/__init__.py 28-69, cpp_source/util.hpp
    76-96), [split_dataframe_partial_user_holdout] (split/userwise.py 13-17,
    123-178, 221-370) and [holdout_specific_interactions]
    (split/specified.py 13-148).

    The generators are parameters: a state, and functions from a state to a
    draw and the next state.  A shuffle moves positions, whatever stands there.
    Functions that draw return the state they leave the generator in (the
    object passed as [random_state] is changed in place); the state left by a
    call that raises is not modelled. *)
From Verif Require Import Base Rec_Model Split_Model.
Local Open Scope nat_scope.

(** The elements of [l] at the given positions. *)
Definition reorder {X} (p : list nat) (l : list X) : list X :=
  flat_map (fun i => match nth_error l i with Some x => [x] | None => [] end) p.

Section Seed.
(** States of numpy's RandomState and of std::mt19937. *)
Context {G M : Type}.
Variable np_seed : Z -> G.                        (* RandomState(seed) *)
Variable np_entropy : G.                          (* RandomState(None): from the operating system *)
Variable np_permute : G -> nat -> list nat * G.   (* rns.shuffle of n elements *)
Variable np_randint : G -> Z * G.                 (* rns.randint(0, 2^31 - 1, dtype=np.int32) *)
Variable mt_seed : Z -> M.                        (* std::mt19937(seed) *)
Variable mt_permute : M -> nat -> list nat * M.   (* std::shuffle of n elements *)

(** The argument [random_state]: a bool is an int; a numpy integer is not. *)
Inductive random_state := RsNone | RsInt (z : Z) | RsState (g : G) | RsOther.

(** utils/random.py 6-12; RandomState refuses seeds outside 0..2^32-1 (ValueError). *)
Definition convert_randomstate (a : random_state) : outcome G :=
  match a with
  | RsNone => Ok np_entropy
  | RsInt z => if ((0 <=? z) && (z <? 2 ^ 32))%Z then Ok (np_seed z) else Fail ValueError
  | RsState g => Ok g
  | RsOther => Fail ValueError
  end.

(** ** rowwise_train_test_split *)
(** One generator shuffles row after row (util.hpp 80, 85-96). *)
Fixpoint row_perms {X} (m : M) (rows : list (list X)) : list (list nat) :=
  match rows with
  | [] => []
  | row :: rows' => let '(p, m') := mt_permute m (length row) in p :: row_perms m' rows'
  end.

Variable rnd : Q -> Q.

(** utils/__init__.py 54-69. *)
Definition rowwise_seeded (s : split_rule) (a : random_state) (n_cols : nat) (rows : list (list (nat * Q))) : outcome (coo * coo * G) :=
  obind (convert_randomstate a) (fun g =>
  let '(seed, g') := np_randint g in
  let perms := row_perms (mt_seed seed) rows in
  omap (fun p => (p, g')) (rowwise_split rnd s (fun r _ => nth r perms []) n_cols rows)).

(** ** The splits of data frames *)
Context {U I T : Type}.
Variable eq_u : forall a b : U, {a = b} + {a <> b}.
Variable eq_i : forall a b : I, {a = b} + {a <> b}.
Variable uniq_u : listing -> list U -> list U.
Variable uniq_i : listing -> list I -> list I.
Variable sort_time : list (event U I T) -> list (event U I T).

(** split_train_test_userwise_random (userwise.py 123-178). *)
Definition userwise_random_seeded (df : list (event U I T)) (items : list I) (n_heldout : option nat) (ratio : Q) (ceil rated : bool) (g : G) : outcome (pair_data U * G) :=
  obind (df_to_sparse eq_u eq_i uniq_u uniq_i df None (Some items) rated) (fun r =>
  let '(x, users, _) := r in
  obind (rowwise_seeded (rule_of n_heldout ratio ceil) (RsState g) (c_cols x) (csr_rows x)) (fun pg =>
  let '(p, g') := pg in
  omap (fun d => (d, g')) (make_pair users (fst p) (Some (snd p))))).

(** split_dataframe_partial_user_holdout (userwise.py 286-370): the generator
    shuffles the users (318), then the held out users if there are test users
    to be taken (320-326), then gives a seed for the rows of the validation
    users and one for those of the test users (341-352); a split by time
    draws nothing more. *)
Definition partial_seeded (df : list (event U I T)) (o : options) (a : random_state) : outcome (datasets U I * G) :=
  if negb (unit_interval (o_test_ratio o)) then Fail AssertionError
  else if negb (unit_interval (o_val_ratio o)) then Fail AssertionError
  else
  let uids := uniq_u ByAppearance (map ev_u df) in
  let n_all := length uids in
  obind (match o_n_val o with
         | None => omap fst (n_from_ratio rnd n_all (o_val_ratio o))
         | Some n => if (Z.of_nat n_all <? n)%Z then Fail ValueError else Ok n
         end) (fun n_val =>
  obind (match o_n_test o with
         | None => n_from_ratio rnd n_all (o_test_ratio o)
         | Some n => if (Z.of_nat n_all <? n + n_val)%Z then Fail ValueError else Ok (n, o_test_ratio o)
         end) (fun nt =>
  let '(n_test, test_ratio) := nt in
  let df' := drop_dup eq_u eq_i [] df in
  obind (convert_randomstate a) (fun g0 =>
  let '(p1, g1) := np_permute g0 n_all in
  let '(train_uids, val_test_uids) := split_list (reorder p1) uids (n_val + n_test) in
  let '(val_uids, test_uids, g2) :=
    if Qle_bool 1 (rnd (test_ratio * inject_Z (Z.of_nat n_all)))
    then let '(p2, g2) := np_permute g1 (length val_test_uids) in
         let '(v, t) := split_list (reorder p2) val_test_uids n_test in (v, t, g2)
    else (val_test_uids, [], g1) in
  let items := uniq_i BySet (map ev_i df') in
  obind (df_to_sparse eq_u eq_i uniq_u uniq_i (rows_of eq_u df' train_uids) (Some train_uids) (Some items) false) (fun tr =>
  obind (make_pair train_uids (fst (fst tr)) None) (fun train =>
  let part us held n_held g :=
    if o_time o
    then omap (fun d => (d, g)) (userwise_time eq_u eq_i uniq_u uniq_i rnd sort_time (rows_of eq_u df' us) items n_held held (o_ceil o) (o_rated o))
    else userwise_random_seeded (rows_of eq_u df' us) items n_held held (o_ceil o) (o_rated o) g in
  obind (part val_uids (o_held_val o) (o_n_held_val o) g2) (fun vg =>
  let '(val, g3) := vg in
  omap (fun xg => (mkDatasets train val (fst xg) items, snd xg))
    (part test_uids (o_held_test o) (o_n_held_test o) g3))))))).

(** holdout_specific_interactions (specified.py 62-148): the generator
    shuffles the validatable users unless all of them are held out (90-98),
    then the held out ones (99-103). *)
Definition specific_seeded (df : list (event U I T)) (indicator : list bool) (ratio_val ratio_test : Q) (a : random_state) : outcome (datasets U I * G) :=
  let v_train := rnd (rnd (1 - ratio_val) - ratio_test) in
  if negb (Qle_bool (- (1 # 10000000000)) v_train) then Fail ValueError
  else if negb (length indicator =? length df) then Fail IndexError
  else
  let items := uniq_i BySort (map ev_i df) in
  let fdf := combine df indicator in
  let validatable := uniq_u BySort (map (fun p => ev_u (fst p)) (filter snd fdf)) in
  let val_test_ratio := rnd (1 - v_train) in
  obind (convert_randomstate a) (fun g0 =>
  let '(v_val_test, v_train_users, g1) :=
    if Qle_bool 1 val_test_ratio then (validatable, [], g0)
    else let '(p1, g1) := np_permute g0 (length validatable) in
         let '(x, y) := split_list (reorder p1) validatable (py_int (rnd (v_train * inject_Z (Z.of_nat (length validatable))))) in (x, y, g1) in
  if Qeq_bool val_test_ratio 0 then Fail ZeroDivision
  else
  let '(p2, g2) := np_permute g1 (length v_val_test) in
  let '(v_test, v_val) :=
    split_list (reorder p2) v_val_test (py_int (rnd (rnd (inject_Z (Z.of_nat (length v_val_test)) * ratio_val) / val_test_ratio))) in
  let of_users us := filter (fun p => id_mem eq_u (ev_u (fst p)) us) fdf in
  let df_train := of_users v_train_users ++ filter (fun p => negb (id_mem eq_u (ev_u (fst p)) validatable)) fdf in
  obind (dataset_train eq_u eq_i uniq_u items df_train) (fun train =>
  obind (dataset_held eq_u eq_i uniq_u items (of_users v_val)) (fun val =>
  omap (fun test => (mkDatasets train val test items, g2)) (dataset_held eq_u eq_i uniq_u items (of_users v_test))))).
End Seed.
Arguments random_state G : clear implicits.
