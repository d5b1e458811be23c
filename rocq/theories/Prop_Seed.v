(** Property C68: what a seed fixes.  The generators of numpy and of the C++
    standard library are arbitrary; a shuffle is a permutation of positions
    ([permutes]).  [uniq_u], [uniq_i]: the orders of [Series.unique], of a [set]
    and of sorted unique values. *)
From Verif Require Import Base Rec_Model Seed_Spec Split_Proofs Seed_Proofs SeedTop_Proofs Ex_Split Ex_Seed.
Local Open Scope nat_scope.

Section C68.
Context {G M : Type}.
Variable np_seed : Z -> G.
Variable np_entropy : G.
Variable np_permute : G -> nat -> list nat * G.
Variable np_randint : G -> Z * G.
Variable mt_seed : Z -> M.
Variable mt_permute : M -> nat -> list nat * M.
Variable rnd : Q -> Q.
Notation rowwise := (rowwise_seeded np_seed np_entropy np_randint mt_seed mt_permute rnd).
Notation partial := (partial_seeded np_seed np_entropy np_permute np_randint mt_seed mt_permute rnd).
Notation specific := (specific_seeded np_seed np_entropy np_permute rnd).

(** Whatever the generators draw, the result is a split as described by C17-C22. *)
Theorem C68_rowwise_is_split s a n_cols rows p g' : permutes mt_permute -> rowwise s a n_cols rows = Ok (p, g') ->
  exists sh, row_shuffles sh /\ rowwise_split rnd s sh n_cols rows = Ok p.
Proof. exact (seeded_rowwise_is_split np_seed np_entropy np_randint mt_seed mt_permute rnd s a n_cols rows p g'). Qed.
Theorem C68_partial_is_split {U I T} eq_u eq_i uniq_u uniq_i sort_time (df : list (event U I T)) o a ds g' : permutes np_permute -> permutes mt_permute ->
  partial eq_u eq_i uniq_u uniq_i sort_time df o a = Ok (ds, g') ->
  exists ch, choices_ok ch /\ partial_user_holdout eq_u eq_i uniq_u uniq_i rnd sort_time df o ch = Ok ds.
Proof. exact (fun Hn Hm => partial_is_split np_seed np_entropy np_permute np_randint mt_seed mt_permute Hn Hm rnd eq_u eq_i uniq_u uniq_i sort_time df o a ds g'). Qed.
Theorem C68_specific_is_split {U I T} eq_u eq_i uniq_u uniq_i (df : list (event U I T)) ind rv rt a ds g' : permutes np_permute ->
  specific eq_u eq_i uniq_u uniq_i df ind rv rt a = Ok (ds, g') ->
  exists sh1 sh2, shuffles sh1 /\ shuffles sh2 /\ holdout_specific eq_u eq_i uniq_u uniq_i rnd df ind rv rt sh1 sh2 = Ok ds.
Proof. exact (fun Hn => specific_seeded_inv np_seed np_entropy np_permute Hn rnd eq_u eq_i uniq_u uniq_i df ind rv rt a ds g'). Qed.

(** With the same [random_state], holding out more (a larger ratio or number)
    holds out the same interactions and further ones. *)
Theorem C68_nested B s s' a n_cols rows tr te tr' te' g g' : faithful rnd B -> holds_no_more s s' ->
  rowwise s a n_cols rows = Ok (tr, te, g) -> rowwise s' a n_cols rows = Ok (tr', te', g') ->
  (forall t, In t (c_ent te) -> In t (c_ent te')) /\ (forall t, In t (c_ent tr') -> In t (c_ent tr)).
Proof. exact (seeded_nested np_seed np_entropy np_randint mt_seed mt_permute rnd B s s' a n_cols rows tr te tr' te' g g'). Qed.
(** Users appended below do not change the split of the users above. *)
Theorem C68_appended_rows s a n_cols rows more tr te tr' te' g g' r :
  rowwise s a n_cols rows = Ok (tr, te, g) -> rowwise s a n_cols (rows ++ more) = Ok (tr', te', g') -> r < length rows ->
  in_row r tr = in_row r tr' /\ in_row r te = in_row r te'.
Proof. exact (seeded_prefix np_seed np_entropy np_randint mt_seed mt_permute rnd s a n_cols rows more tr te tr' te' g g' r). Qed.
(** A generator is left in the same state whatever matrix is split, and
    however: what is drawn from it afterwards does not depend on the data. *)
Theorem C68_draws s s' a n_cols n_cols' rows rows' p p' g g' :
  rowwise s a n_cols rows = Ok (p, g) -> rowwise s' a n_cols' rows' = Ok (p', g') -> g = g'.
Proof. exact (seeded_draws np_seed np_entropy np_randint mt_seed mt_permute rnd s s' a n_cols n_cols' rows rows' p p' g g'). Qed.

(** Who becomes a train, validation or test user depends on the seed, the
    order in which users appear and the numbers or ratios of users: not on the
    items, ratings, times or hold-out options, nor on the order of sets and sorts. *)
Theorem C68_users {U I T} eq_u eq_i uniq_u uniq_u' uniq_i uniq_i' sort_time sort_time' (df df' : list (event U I T)) o o' a ds ds' g g' :
  permutes np_permute -> permutes mt_permute -> lists_distinct uniq_u -> lists_distinct uniq_u' -> lists_distinct uniq_i -> lists_distinct uniq_i' ->
  same_user_choice o o' -> uniq_u ByAppearance (map ev_u df) = uniq_u' ByAppearance (map ev_u df') ->
  partial eq_u eq_i uniq_u uniq_i sort_time df o a = Ok (ds, g) -> partial eq_u eq_i uniq_u' uniq_i' sort_time' df' o' a = Ok (ds', g') ->
  pd_users (ds_train ds) = pd_users (ds_train ds') /\
  (forall x, In x (pd_users (ds_val ds)) <-> In x (pd_users (ds_val ds'))) /\
  (forall x, In x (pd_users (ds_test ds)) <-> In x (pd_users (ds_test ds'))) /\
  (o_time o = o_time o' -> g = g').
Proof.
  exact (fun Hn Hm Hu Hu' Hi Hi' => users_same np_seed np_entropy np_permute np_randint mt_seed mt_permute Hn Hm rnd eq_u eq_i uniq_u uniq_u' uniq_i uniq_i' Hu Hu' Hi Hi' sort_time sort_time' df df' o o' a ds ds' g g').
Qed.
(** Two processes that iterate over sets in different orders: a split by time
    contains the same interactions in each of its parts. *)
Theorem C68_time {U I T} eq_u eq_i uniq_u uniq_u' uniq_i uniq_i' le sort_time (df : list (event U I T)) o a ds ds' g g' :
  permutes np_permute -> permutes mt_permute -> oracles_ok uniq_u uniq_i le sort_time -> oracles_ok uniq_u' uniq_i' le sort_time ->
  same_but_sets uniq_u uniq_u' -> o_time o = true ->
  partial eq_u eq_i uniq_u uniq_i sort_time df o a = Ok (ds, g) -> partial eq_u eq_i uniq_u' uniq_i' sort_time df o a = Ok (ds', g') -> same_split ds ds'.
Proof.
  exact (fun Hn Hm Ho Ho' Su => time_same np_seed np_entropy np_permute np_randint mt_seed mt_permute Hn Hm rnd eq_u eq_i uniq_u uniq_u' uniq_i uniq_i' le sort_time Ho Ho' Su df o a ds ds' g g').
Qed.
(** [holdout_specific_interactions] gives both processes the same answer. *)
Theorem C68_specific {U I T} eq_u eq_i uniq_u uniq_u' uniq_i uniq_i' (df : list (event U I T)) ind rv rt a :
  same_but_sets uniq_u uniq_u' -> same_but_sets uniq_i uniq_i' ->
  specific eq_u eq_i uniq_u uniq_i df ind rv rt a = specific eq_u eq_i uniq_u' uniq_i' df ind rv rt a.
Proof. exact (fun Su Si => specific_same np_seed np_entropy np_permute rnd eq_u eq_i uniq_u uniq_u' uniq_i uniq_i' Su Si df ind rv rt a). Qed.
(** A seed is the generator made from it; other seeds and objects are refused. *)
Theorem C68_argument s n_cols rows :
  (forall z, (0 <= z < 2 ^ 32)%Z -> rowwise s (RsInt z) n_cols rows = rowwise s (RsState (np_seed z)) n_cols rows) /\
  (forall z, ~ (0 <= z < 2 ^ 32)%Z -> rowwise s (RsInt z) n_cols rows = Fail ValueError) /\
  rowwise s RsOther n_cols rows = Fail ValueError.
Proof. exact (seeded_argument np_seed np_entropy np_randint mt_seed mt_permute rnd s n_cols rows). Qed.
End C68.
Print Assumptions C68_rowwise_is_split.
Print Assumptions C68_partial_is_split.
Print Assumptions C68_specific_is_split.
Print Assumptions C68_nested.
Print Assumptions C68_appended_rows.
Print Assumptions C68_draws.
Print Assumptions C68_users.
Print Assumptions C68_time.
Print Assumptions C68_specific.
Print Assumptions C68_argument.

(** The documented [random_state] does not fix a random hold-out: two processes
    with the same seed that iterate over the set of items in different orders
    hold out different interactions of the same user. *)
Theorem C68_random_refuted : exists (df : list (event nat nat nat)) o z uniq uniq' ds ds' g g',
  oracles_ok ex_uniq uniq Nat.le ex_sort /\ oracles_ok ex_uniq uniq' Nat.le ex_sort /\ same_but_sets uniq uniq' /\
  ex_partial uniq df o (RsInt z) = Ok (ds, g) /\ ex_partial uniq' df o (RsInt z) = Ok (ds', g') /\
  held_labels (ds_items ds) (ds_val ds) = [(2, 10, 1%Q)] /\ held_labels (ds_items ds') (ds_val ds') = [(2, 12, 1%Q)] /\ ~ same_split ds ds'.
Proof.
  exists ex_df, base_options, 4%Z, ex_uniq, ex_uniq'. destruct ex_uniq'_ok as [H1 H2]. do 4 eexists.
  split; [exact ex_oracles|]. split; [constructor; [apply ex_uniq_ok|exact H1|apply ex_sort_ok]|]. split; [exact H2|].
  split; [vm_compute; reflexivity|]. split; [vm_compute; reflexivity|]. split; [vm_compute; reflexivity|]. split; [vm_compute; reflexivity|].
  intros (_ & (_ & H) & _). apply Permutation_in with (x := (2, 10, 1%Q)) in H; [|left; vm_compute; reflexivity].
  vm_compute in H. destruct H as [H|[]]. discriminate.
Qed.
Print Assumptions C68_random_refuted.

Example C68_example : permutes ex_permute /\ faithful exact_rnd 100 /\ holds_no_more (FixedN 1) (FixedN 2) /\ holds_no_more (ByRatio (1 # 3) false) (ByRatio (1 # 2) true) /\
  ex_rowwise (FixedN 1) (RsInt 4) 5 ex_rows =
    Ok (mkCoo 3 5 [(0, 1, 3%Q); (0, 4, 1%Q); (2, 0, 7%Q); (2, 2, (-1)%Q); (2, 3, 5%Q)], mkCoo 3 5 [(0, 0, 2%Q); (2, 4, 5%Q)], 5%Z) /\
  ex_rowwise (FixedN 2) (RsInt 4) 5 ex_rows =
    Ok (mkCoo 3 5 [(0, 4, 1%Q); (2, 2, (-1)%Q); (2, 3, 5%Q)], mkCoo 3 5 [(0, 0, 2%Q); (0, 1, 3%Q); (2, 4, 5%Q); (2, 0, 7%Q)], 5%Z) /\
  ex_rowwise (FixedN 1) (RsInt 4) 5 (ex_rows ++ [[(1, 4%Q); (2, 1%Q)]]) =
    Ok (mkCoo 4 5 [(0, 1, 3%Q); (0, 4, 1%Q); (2, 0, 7%Q); (2, 2, (-1)%Q); (2, 3, 5%Q); (3, 2, 1%Q)], mkCoo 4 5 [(0, 0, 2%Q); (2, 4, 5%Q); (3, 1, 4%Q)], 5%Z).
Proof.
  split; [exact ex_permute_ok|]. split; [apply exact_faithful|]. split; [cbn; lia|]. split; [split; [discriminate|reflexivity]|]. vm_compute. auto.
Qed.
(** A split by time: the same interactions, in other rows and columns. *)
Example C68_time_example : same_user_choice base_options timed_options /\ exists ds ds' ds'',
  ex_partial ex_uniq ex_df timed_options (RsInt 4) = Ok (ds, 6%Z) /\ ex_partial ex_uniq' ex_df timed_options (RsInt 4) = Ok (ds', 6%Z) /\
  ex_partial ex_uniq ex_df base_options (RsInt 4) = Ok (ds'', 8%Z) /\
  pd_users (ds_train ds) = [1; 4] /\ pd_users (ds_train ds'') = [1; 4] /\ ds_items ds <> ds_items ds' /\
  held_labels (ds_items ds) (ds_val ds) = [(2, 12, 1%Q)] /\ held_labels (ds_items ds') (ds_val ds') = [(2, 12, 1%Q)].
Proof.
  split; [repeat split|]. do 3 eexists. split; [vm_compute; reflexivity|]. split; [vm_compute; reflexivity|]. split; [vm_compute; reflexivity|].
  vm_compute. repeat split; auto. discriminate.
Qed.
Example C68_specific_example : exists ds,
  specific_seeded (fun z => z) 0%Z ex_permute exact_rnd Nat.eq_dec Nat.eq_dec ex_uniq ex_uniq' ex_df [true; false; false; true; false; false; false; true; false; false; true; false] (1 # 2) (1 # 4) (RsInt 1) = Ok (ds, 3%Z) /\
  held_labels (ds_items ds) (ds_val ds) = [(1, 10, 1%Q); (4, 10, 1%Q)] /\ held_labels (ds_items ds) (ds_test ds) = [(5, 12, 1%Q)].
Proof. eexists. split; vm_compute; [reflexivity|auto]. Qed.
