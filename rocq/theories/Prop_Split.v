(** Properties C17-C22 and C43: splitting interaction data.
    [rnd] is the rounding of floating point results ([faithful rnd B]: monotone and
    exact on 0..B; 2^53 for double); shuffles, [unique] and sorts are arbitrary
    functions meeting their contracts. *)
From Verif Require Import Base Rec_Model Split_Spec Split_Proofs SplitDf_Proofs SplitTop_Proofs SplitTotal_Proofs Float_Model Float_Proofs Ex_Split.
Local Open Scope nat_scope.

(** * C17: the row-wise split sums back to the matrix *)
(** IEEE double rounding meets the assumption made of [rnd]. *)
Theorem C17_double : faithful round64 (Z.to_nat (2 ^ 53)).
Proof. exact round64_faithful. Qed.
Print Assumptions C17_double.
Theorem C17_sum rnd B s sh n_cols rows : faithful rnd B -> rule_ok s = true -> row_shuffles sh ->
  Forall (fun row => length row <= B) rows -> Forall (Forall (fun e => exists z, (- 2 ^ 63 <= z < 2 ^ 63)%Z /\ (snd e == inject_Z z)%Q)) rows ->
  exists train test, rowwise_split rnd s sh n_cols rows = Ok (train, test) /\
    c_rows train = length rows /\ c_cols train = n_cols /\ c_rows test = length rows /\ c_cols test = n_cols /\
    forall r c, (entry train r c + entry test r c == row_entry rows r c)%Q.
Proof. exact (rowwise_sums_int rnd B s sh n_cols rows). Qed.
Print Assumptions C17_sum.
(** Without the integrality assumption: the integer parts. *)
Theorem C17_sum_of_integer_parts rnd B s sh n_cols rows : faithful rnd B -> rule_ok s = true -> row_shuffles sh ->
  Forall (fun row => length row <= B) rows -> Forall (Forall (fun e => int64_range (snd e))) rows ->
  exists train test, rowwise_split rnd s sh n_cols rows = Ok (train, test) /\
    c_rows train = length rows /\ c_cols train = n_cols /\ c_rows test = length rows /\ c_cols test = n_cols /\
    forall r c, (entry train r c + entry test r c == row_entry (map (map (fun e => (fst e, inject_Z (trunc (snd e))))) rows) r c)%Q.
Proof. exact (rowwise_sums rnd B s sh n_cols rows). Qed.
Print Assumptions C17_sum_of_integer_parts.
(** Every stored entry goes to exactly one side. *)
Theorem C17_disjoint rnd B s sh n_cols rows train test : faithful rnd B -> row_shuffles sh ->
  Forall (fun row => length row <= B) rows -> Forall (Forall (fun e => int64_range (snd e))) rows ->
  rowwise_split rnd s sh n_cols rows = Ok (train, test) ->
  (forall r, Permutation (map (fun e => snd (fst e)) (filter (of_row r) (c_ent test)) ++ map (fun e => snd (fst e)) (filter (of_row r) (c_ent train))) (map fst (nth r rows []))) /\
  (Forall (fun row => NoDup (map fst row)) rows -> forall r c v w, In (r, c, v) (c_ent train) -> In (r, c, w) (c_ent test) -> False).
Proof. exact (rowwise_positions rnd B s sh n_cols rows train test). Qed.
Print Assumptions C17_disjoint.
(** The documented sum fails for a fractional value. *)
Theorem C17_fractional_refuted : exists s sh rows train test, rule_ok s = true /\ row_shuffles sh /\
  rowwise_split exact_rnd s sh 1 rows = Ok (train, test) /\ ~ (entry train 0 0 + entry test 0 0 == row_entry rows 0 0)%Q.
Proof.
  exists (FixedN 0), ex_row_shuffle, [[(0, (1 # 2)%Q)]], (mkCoo 1 1 [(0, 0, 0%Q)]), (mkCoo 1 1 []).
  split; [reflexivity|]. split; [exact ex_row_shuffle_ok|]. split; [reflexivity|]. vm_compute. discriminate.
Qed.
Print Assumptions C17_fractional_refuted.
Example C17_example : Forall (Forall (fun e => exists z, (- 2 ^ 63 <= z < 2 ^ 63)%Z /\ (snd e == inject_Z z)%Q)) ex_rows /\ Forall (fun row => NoDup (map fst row)) ex_rows /\
  rowwise_split exact_rnd (ByRatio (1 # 2) false) ex_row_shuffle 5 ex_rows =
  Ok (mkCoo 3 5 [(0, 1, 3%Q); (0, 0, 2%Q); (2, 2, (-1)%Q); (2, 0, 7%Q)], mkCoo 3 5 [(0, 4, 1%Q); (2, 4, 5%Q); (2, 3, 5%Q)]).
Proof.
  split; [|split; [|reflexivity]].
  - repeat constructor; eexists; (split; [|unfold snd; reflexivity || (unfold Qeq; cbn; apply Z.mul_1_r) || reflexivity]); lia.
  - repeat constructor; cbn; intuition lia.
Qed.

(** * C18: the number held out per row *)
Theorem C18_count rnd B s sh n_cols rows train test r : faithful rnd B -> row_shuffles sh ->
  Forall (fun row => length row <= B) rows -> Forall (Forall (fun e => int64_range (snd e))) rows ->
  rowwise_split rnd s sh n_cols rows = Ok (train, test) -> r < length rows ->
  let nnz := length (nth r rows []) in
  let held := length (filter (of_row r) (c_ent test)) in
  held <= nnz /\ length (filter (of_row r) (c_ent train)) = nnz - held /\
  match s with
  | ByRatio q true => Z.of_nat held = Qceiling (rnd (inject_Z (Z.of_nat nnz) * q)%Q)
  | ByRatio q false => Z.of_nat held = Qfloor (rnd (inject_Z (Z.of_nat nnz) * q)%Q)
  | FixedN n => held = min nnz n
  end.
Proof. exact (rowwise_counts rnd B s sh n_cols rows train test r). Qed.
Print Assumptions C18_count.
Theorem C18_accepts rnd B s sh n_cols rows : faithful rnd B -> row_shuffles sh ->
  Forall (fun row => length row <= B) rows -> Forall (Forall (fun e => int64_range (snd e))) rows ->
  let good := match s with ByRatio q _ => (0 <= q <= 1)%Q | FixedN _ => True end in
  (good -> exists p, rowwise_split rnd s sh n_cols rows = Ok p) /\ (~ good -> rowwise_split rnd s sh n_cols rows = Fail InvalidArgument).
Proof. exact (rowwise_accepts rnd B s sh n_cols rows). Qed.
Print Assumptions C18_accepts.
(** With doubles the number differs by at most one from that of the exact product. *)
Theorem C18_double s sh n_cols rows train test r : row_shuffles sh ->
  Forall (fun row => (Z.of_nat (length row) <= 2 ^ 53)%Z) rows -> Forall (Forall (fun e => int64_range (snd e))) rows ->
  rowwise_split round64 s sh n_cols rows = Ok (train, test) -> r < length rows ->
  let nnz := length (nth r rows []) in
  let held := length (filter (of_row r) (c_ent test)) in
  match s with
  | ByRatio q true => (Qceiling (inject_Z (Z.of_nat nnz) * q) - 1 <= Z.of_nat held <= Qceiling (inject_Z (Z.of_nat nnz) * q))%Z
  | ByRatio q false => (Qfloor (inject_Z (Z.of_nat nnz) * q) <= Z.of_nat held <= Qfloor (inject_Z (Z.of_nat nnz) * q) + 1)%Z
  | FixedN n => held = min nnz n
  end.
Proof. exact (rowwise_double s sh n_cols rows train test r). Qed.
Print Assumptions C18_double.
Example C18_double_example : let rows := [map (fun c => (c, 1%Q)) (seq 0 10)] in
  match rowwise_split round64 (ByRatio (round64 (3 # 10)) false) ex_row_shuffle 10 rows with
  | Ok (_, test) => length (filter (of_row 0) (c_ent test)) = 3 /\ Qfloor (inject_Z 10 * round64 (3 # 10)) = 2%Z
  | _ => False
  end.
Proof. vm_compute. split; reflexivity. Qed.
(** The number is that of the rounded product: the double 0.3 is below 3/10, so
    floor(10 * 0.3) is 2 in exact arithmetic, but 3 entries are held out. *)
Theorem C18_exact_floor_refuted : exists nnz q, (0 <= q <= 1)%Q /\ q = round64 q /\
  get_n_test round64 (ByRatio q false) nnz <> Z.to_nat (Qfloor (inject_Z (Z.of_nat nnz) * q)).
Proof. exists 10, (round64 (3 # 10)). vm_compute. repeat split; discriminate. Qed.
Print Assumptions C18_exact_floor_refuted.
Example C18_example : rowwise_split exact_rnd (ByRatio (1 # 3) true) ex_row_shuffle 5 ex_rows =
    Ok (mkCoo 3 5 [(0, 1, 3%Q); (0, 0, 2%Q); (2, 2, (-1)%Q); (2, 0, 7%Q)], mkCoo 3 5 [(0, 4, 1%Q); (2, 4, 5%Q); (2, 3, 5%Q)]) /\
  rowwise_split exact_rnd (ByRatio (11 # 10) true) ex_row_shuffle 5 ex_rows = Fail InvalidArgument.
Proof. split; reflexivity. Qed.

(** * C19: users and interactions are partitioned *)
Theorem C19_partition {U I T} eq_u eq_i uniq_u uniq_i rnd B (le : T -> T -> Prop) sort_time (df : list (event U I T)) o ch ds :
  faithful rnd B -> oracles_ok uniq_u uniq_i le sort_time -> choices_ok ch -> length df <= B ->
  (o_rated o = true -> Forall (fun e => int64_range (ev_r e)) df) ->
  partial_user_holdout eq_u eq_i uniq_u uniq_i rnd sort_time df o ch = Ok ds ->
  NoDup (all_users ds) /\ (forall x, In x (all_users ds) <-> exists e, In e df /\ ev_u e = x) /\
  NoDup (map fst (all_labels ds)) /\
  (forall x y, In (x, y) (map fst (all_labels ds)) <-> exists e, In e df /\ ev_u e = x /\ ev_i e = y) /\
  (o_rated o = false -> forall l, In l (all_labels ds) -> (snd l == 1)%Q) /\
  (forall l, In l (learn_labels (ds_items ds) (ds_train ds)) -> (snd l == 1)%Q) /\
  (o_rated o = true -> forall l, In l (learn_labels (ds_items ds) (ds_val ds) ++ held_labels (ds_items ds) (ds_val ds) ++ learn_labels (ds_items ds) (ds_test ds) ++ held_labels (ds_items ds) (ds_test ds)) ->
     exists e, In e df /\ fst l = (ev_u e, ev_i e) /\ (snd l == inject_Z (trunc (ev_r e)))%Q).
Proof. exact (fun Hr Ho => partial_disjoint eq_u eq_i uniq_u uniq_i rnd B Hr le sort_time Ho df o ch ds). Qed.
Print Assumptions C19_partition.
Theorem C19_answers {U I T} eq_u eq_i uniq_u uniq_i rnd B (le : T -> T -> Prop) sort_time (df : list (event U I T)) o ch :
  faithful rnd B -> oracles_ok uniq_u uniq_i le sort_time -> choices_ok ch -> length df <= B ->
  (o_rated o = true -> Forall (fun e => int64_range (ev_r e)) df) -> accepted uniq_u rnd df o ->
  exists ds, partial_user_holdout eq_u eq_i uniq_u uniq_i rnd sort_time df o ch = Ok ds.
Proof. exact (fun Hr Ho => partial_total eq_u eq_i uniq_u uniq_i rnd B Hr le sort_time Ho df o ch). Qed.
Print Assumptions C19_answers.
(** Ratings are not preserved: the train matrix ignores the rating column, and a
    rating of 1/2 becomes a 0 in the val/test matrices. *)
Theorem C19_ratings_refuted : exists (df : list (event nat nat nat)) o ds, o_rated o = true /\
  ex_split o df = Ok ds /\
  (exists e l, In e df /\ In l (all_labels ds) /\ fst l = (ev_u e, ev_i e) /\ ev_r e = (1 # 2)%Q /\ snd l = 0%Q) /\
  (exists e l, In e df /\ In l (all_labels ds) /\ fst l = (ev_u e, ev_i e) /\ ev_r e = 5%Q /\ snd l = 1%Q).
Proof.
  exists ex_df, (mkOptions false true (Some 1%Z) (Some 2%Z) (1 # 10) (1 # 2) (1 # 2) None (1 # 2) None true).
  eexists. split; [reflexivity|]. split; [vm_compute; reflexivity|]. split.
  - exists (mkEvent 5 12 1 (1 # 2)%Q), (5, 12, 0%Q). vm_compute. intuition.
  - exists (mkEvent 2 10 1 5%Q), (2, 10, 1%Q). vm_compute. intuition.
Qed.
Print Assumptions C19_ratings_refuted.
(** An empty data frame is answered by ZeroDivisionError. *)
Theorem C19_empty_fails {U I T} eq_u eq_i uniq_u uniq_i rnd (le : T -> T -> Prop) sort_time o (ch : choices U) :
  oracles_ok uniq_u uniq_i le sort_time -> (0 <= o_test_ratio o <= 1)%Q -> (0 <= o_val_ratio o <= 1)%Q -> o_n_val o = None ->
  @partial_user_holdout U I T eq_u eq_i uniq_u uniq_i rnd sort_time [] o ch = Fail ZeroDivision.
Proof. exact (fun Ho => partial_empty eq_u eq_i uniq_u uniq_i rnd le sort_time Ho o ch). Qed.
Print Assumptions C19_empty_fails.
Example C19_example : accepted ex_uniq exact_rnd ex_df base_options /\
  exists ds, ex_split base_options ex_df = Ok ds /\ pd_users (ds_train ds) = [3; 2] /\ pd_users (ds_val ds) = [5] /\ pd_users (ds_test ds) = [1; 4] /\
  learn_labels (ds_items ds) (ds_train ds) = [(2, 10, 1%Q); (2, 12, 1%Q); (3, 11, 1%Q)] /\
  length (held_labels (ds_items ds) (ds_test ds)) = 4 /\ length (all_labels ds) = 11.
Proof.
  split.
  - vm_compute. intuition (try discriminate); match goal with H : Some _ = Some _ |- _ => injection H as <-; discriminate end.
  - eexists. split; [vm_compute; reflexivity|]. vm_compute. repeat split.
Qed.

(** * C20: the requested number of users *)
Theorem C20_counts {U I T} eq_u eq_i uniq_u uniq_i rnd B (le : T -> T -> Prop) sort_time (df : list (event U I T)) o ch ds a b :
  faithful rnd B -> oracles_ok uniq_u uniq_i le sort_time -> choices_ok ch -> length df <= B ->
  (o_rated o = true -> Forall (fun e => int64_range (ev_r e)) df) ->
  o_n_val o = Some (Z.of_nat a) -> o_n_test o = Some (Z.of_nat b) ->
  let n_all := length (uniq_u ByAppearance (map ev_u df)) in
  (b = 0 \/ (1 <= rnd (o_test_ratio o * inject_Z (Z.of_nat n_all)))%Q) ->
  partial_user_holdout eq_u eq_i uniq_u uniq_i rnd sort_time df o ch = Ok ds ->
  a + b <= n_all /\ length (pd_users (ds_val ds)) = a /\ length (pd_users (ds_test ds)) = b /\ length (pd_users (ds_train ds)) = n_all - a - b.
Proof. exact (fun Hr Ho => partial_counts eq_u eq_i uniq_u uniq_i rnd B Hr le sort_time Ho df o ch ds a b). Qed.
Print Assumptions C20_counts.
Theorem C20_counts_by_ratio {U I T} eq_u eq_i uniq_u uniq_i rnd B (le : T -> T -> Prop) sort_time (df : list (event U I T)) o ch ds :
  faithful rnd B -> oracles_ok uniq_u uniq_i le sort_time -> choices_ok ch -> length df <= B ->
  (o_rated o = true -> Forall (fun e => int64_range (ev_r e)) df) ->
  o_n_val o = None -> o_n_test o = None ->
  let n_all := length (uniq_u ByAppearance (map ev_u df)) in
  let a := Qfloor (rnd (inject_Z (Z.of_nat n_all) * o_val_ratio o)%Q) in
  let b := Qfloor (rnd (inject_Z (Z.of_nat n_all) * o_test_ratio o)%Q) in
  (a + b <= Z.of_nat n_all)%Z ->
  (b = 0%Z \/ (1 <= rnd (rnd (inject_Z b / inject_Z (Z.of_nat n_all)) * inject_Z (Z.of_nat n_all)))%Q) ->
  partial_user_holdout eq_u eq_i uniq_u uniq_i rnd sort_time df o ch = Ok ds ->
  Z.of_nat (length (pd_users (ds_val ds))) = a /\ Z.of_nat (length (pd_users (ds_test ds))) = b /\ Z.of_nat (length (pd_users (ds_train ds))) = (Z.of_nat n_all - a - b)%Z.
Proof. exact (fun Hr Ho => partial_counts_ratio eq_u eq_i uniq_u uniq_i rnd B Hr le sort_time Ho df o ch ds). Qed.
Print Assumptions C20_counts_by_ratio.
(** Too many users are refused. *)
Theorem C20_refuses {U I T} eq_u eq_i uniq_u uniq_i rnd sort_time (df : list (event U I T)) o ch a b :
  (0 <= o_test_ratio o <= 1)%Q -> (0 <= o_val_ratio o <= 1)%Q ->
  o_n_val o = Some a -> o_n_test o = Some b -> (Z.of_nat (length (uniq_u ByAppearance (map ev_u df))) < a \/ Z.of_nat (length (uniq_u ByAppearance (map ev_u df))) < a + b)%Z ->
  partial_user_holdout eq_u eq_i uniq_u uniq_i rnd sort_time df o ch = Fail ValueError.
Proof. exact (partial_refuses eq_u eq_i uniq_u uniq_i rnd sort_time df o ch a b). Qed.
Print Assumptions C20_refuses.
(** With the default ratio 0.1 and five users, n_test_user=2 gives no test users at all. *)
Theorem C20_gate_refuted : exists (df : list (event nat nat nat)) o ds, accepted ex_uniq exact_rnd df o /\
  o_test_ratio o = (1 # 10)%Q /\ o_n_val o = Some 1%Z /\ o_n_test o = Some 2%Z /\ ex_split o df = Ok ds /\
  length (pd_users (ds_test ds)) = 0 /\ length (pd_users (ds_val ds)) = 3.
Proof.
  exists ex_df, (mkOptions false false (Some 1%Z) (Some 2%Z) (1 # 10) (1 # 10) (1 # 2) None (1 # 2) None true). eexists.
  split; [vm_compute; intuition (try discriminate); match goal with H : Some _ = Some _ |- _ => injection H as <-; discriminate end|].
  do 3 (split; [reflexivity|]). split; [vm_compute; reflexivity|]. vm_compute. auto.
Qed.
Print Assumptions C20_gate_refuted.
(** In double arithmetic 1/49*49 < 1: of 49 users with ratio 0.03 none is tested,
    although floor(49 * 0.03) = 1. *)
Theorem C20_rounding_refuted : exists o ds, o_n_val o = None /\ o_n_test o = None /\ o_test_ratio o = round64 (3 # 100) /\
  partial_user_holdout Nat.eq_dec Nat.eq_dec ex_uniq ex_uniq round64 ex_sort (many_users 49) o ex_choices = Ok ds /\
  Qfloor (round64 (49 * o_test_ratio o)) = 1%Z /\ pd_users (ds_test ds) = [].
Proof.
  exists (mkOptions false false None None (round64 (1 # 10)) (round64 (3 # 100)) (1 # 2) None (1 # 2) None true). eexists.
  do 3 (split; [reflexivity|]). split; [vm_compute; reflexivity|]. vm_compute. auto.
Qed.
Print Assumptions C20_rounding_refuted.
(** Ratios that add up to more than one are accepted; fewer users than asked for are validated. *)
Theorem C20_sum_of_ratios_refuted : exists o ds, o_n_val o = None /\ o_n_test o = None /\
  ex_split o (many_users 10) = Ok ds /\ (inject_Z 10 * o_val_ratio o == 6)%Q /\ (inject_Z 10 * o_test_ratio o == 6)%Q /\
  length (pd_users (ds_val ds)) = 4 /\ length (pd_users (ds_test ds)) = 6 /\ pd_users (ds_train ds) = [].
Proof.
  exists (mkOptions false false None None (3 # 5) (3 # 5) (1 # 2) None (1 # 2) None true). eexists.
  do 2 (split; [reflexivity|]). split; [vm_compute; reflexivity|]. vm_compute. auto.
Qed.
Print Assumptions C20_sum_of_ratios_refuted.
Example C20_example : o_n_val base_options = Some (Z.of_nat 1) /\ o_n_test base_options = Some (Z.of_nat 2) /\
  (1 <= exact_rnd (o_test_ratio base_options * inject_Z (Z.of_nat (length (ex_uniq ByAppearance (map ev_u ex_df))))))%Q /\
  exists ds, ex_split base_options ex_df = Ok ds /\ length (pd_users (ds_val ds)) = 1 /\ length (pd_users (ds_test ds)) = 2.
Proof. split; [reflexivity|]. split; [reflexivity|]. split; [vm_compute; discriminate|]. eexists. split; [vm_compute; reflexivity|]. split; reflexivity. Qed.

(** * C21: the time split *)
Theorem C21_no_leak {U I T} eq_u rnd (le : T -> T -> Prop) sort_time (df : list (event U I T)) n ratio ceil train test :
  sorts_time le sort_time -> split_last_n eq_u rnd sort_time df n ratio ceil = (train, test) ->
  Permutation (train ++ test) df /\
  (forall a b, In a train -> In b test -> ev_u a = ev_u b -> le (ev_t a) (ev_t b)) /\
  (forall u, let mine := fun e : event U I T => if eq_u (ev_u e) u then true else false in
     let N := length (filter mine df) in
     length (filter mine test) =
       min N (Z.to_nat match n with
                       | Some n => n
                       | None => if ceil : bool then Qceiling (rnd (inject_Z (Z.of_nat N) * ratio)%Q) else Qfloor (rnd (inject_Z (Z.of_nat N) * ratio)%Q)
                       end)).
Proof. exact (fun Hs => split_last_ok eq_u rnd le sort_time Hs df n ratio ceil train test). Qed.
Print Assumptions C21_no_leak.
(** The pair made from it: learning and held-out matrices hold exactly these rows. *)
Theorem C21_pair {U I T} eq_u eq_i uniq_u uniq_i rnd (le : T -> T -> Prop) sort_time (df : list (event U I T)) items n ratio ceil rated pd :
  lists_distinct uniq_u -> lists_distinct uniq_i -> sorts_time le sort_time -> NoDup items -> (forall e, In e df -> In (ev_i e) items) ->
  userwise_time eq_u eq_i uniq_u uniq_i rnd sort_time df items n ratio ceil rated = Ok pd ->
  rated = false /\ pd_users pd = uniq_u BySet (map ev_u df) /\ c_rows (pd_train pd) = length (pd_users pd) /\ c_rows (pd_test pd) = length (pd_users pd) /\
  c_cols (pd_train pd) = length items /\ c_cols (pd_test pd) = length items /\
  exists train test, split_last_n eq_u rnd sort_time df (option_map Z.of_nat n) ratio ceil = (train, test) /\
    learn_labels items pd = map (fun e => (ev_u e, ev_i e, 1%Q)) train /\ held_labels items pd = map (fun e => (ev_u e, ev_i e, 1%Q)) test.
Proof. exact (fun Hu Hi Hs => userwise_time_ok eq_u eq_i uniq_u uniq_i Hu Hi rnd le sort_time Hs df items n ratio ceil rated pd). Qed.
Print Assumptions C21_pair.
Theorem C21_pair_answers {U I T} eq_u eq_i uniq_u uniq_i rnd sort_time (df : list (event U I T)) items n ratio ceil :
  lists_distinct uniq_u -> lists_distinct uniq_i -> NoDup items -> (forall e, In e df -> In (ev_i e) items) ->
  exists pd, userwise_time eq_u eq_i uniq_u uniq_i rnd sort_time df items n ratio ceil false = Ok pd.
Proof. exact (fun Hu Hi => userwise_time_total eq_u eq_i uniq_u uniq_i Hu Hi rnd sort_time df items n ratio ceil). Qed.
Print Assumptions C21_pair_answers.
(** A rating column together with a time column never works. *)
Theorem C21_rating_fails {U I T} eq_u eq_i uniq_u uniq_i rnd sort_time (df : list (event U I T)) items n ratio ceil :
  userwise_time eq_u eq_i uniq_u uniq_i rnd sort_time df items n ratio ceil true = Fail KeyError.
Proof. exact (userwise_time_rated eq_u eq_i uniq_u uniq_i rnd sort_time df items n ratio ceil). Qed.
Print Assumptions C21_rating_fails.
Example C21_example : sorts_time Nat.le ex_sort /\
  split_last_n Nat.eq_dec exact_rnd ex_sort ex_df (Some 2%Z) 0 false =
  ([mkEvent 1 11 3 1%Q; mkEvent 1 10 5 2%Q; mkEvent 4 10 2 1%Q], [mkEvent 1 12 5 4%Q; mkEvent 1 11 9 3%Q; mkEvent 2 10 1 5%Q; mkEvent 2 12 2 3%Q; mkEvent 3 11 4 2%Q; mkEvent 4 11 2 1%Q; mkEvent 4 12 7 1%Q; mkEvent 5 12 1 (1 # 2)%Q; mkEvent 5 10 3 (5 # 2)%Q]) /\
  map ev_i (snd (split_last_n Nat.eq_dec exact_rnd ex_sort ex_df None (1 # 2) false)) = [12; 11; 12; 12; 10].
Proof. split; [exact ex_sort_ok|]. split; reflexivity. Qed.

(** * C22: hold-out of specified interactions *)
Theorem C22_partition {U I T} eq_u eq_i uniq_u uniq_i rnd (le : T -> T -> Prop) sort_time (df : list (event U I T)) ind rv rt sh1 sh2 ds :
  oracles_ok uniq_u uniq_i le sort_time -> shuffles sh1 -> shuffles sh2 ->
  holdout_specific eq_u eq_i uniq_u uniq_i rnd df ind rv rt sh1 sh2 = Ok ds ->
  let fdf := combine df ind in
  let lab := fun p : event U I T * bool => (ev_u (fst p), ev_i (fst p), 1%Q) in
  let held_users := pd_users (ds_val ds) ++ pd_users (ds_test ds) in
  let of_held := fun p : event U I T * bool => id_mem eq_u (ev_u (fst p)) held_users in
  NoDup (all_users ds) /\ (forall x, In x (all_users ds) <-> exists e, In e df /\ ev_u e = x) /\
  Permutation (all_labels ds) (map lab fdf) /\ map fst fdf = df /\
  (forall x, In x held_users -> exists p, In p fdf /\ ev_u (fst p) = x /\ snd p = true) /\
  Permutation (held_labels (ds_items ds) (ds_val ds) ++ held_labels (ds_items ds) (ds_test ds)) (map lab (filter (fun p => of_held p && snd p) fdf)) /\
  Permutation (learn_labels (ds_items ds) (ds_val ds) ++ learn_labels (ds_items ds) (ds_test ds)) (map lab (filter (fun p => of_held p && negb (snd p)) fdf)) /\
  held_labels (ds_items ds) (ds_train ds) = [] /\
  Permutation (learn_labels (ds_items ds) (ds_train ds)) (map lab (filter (fun p => negb (of_held p)) fdf)).
Proof. exact (fun Ho => specific_ok eq_u eq_i uniq_u uniq_i rnd le sort_time Ho df ind rv rt sh1 sh2 ds). Qed.
Print Assumptions C22_partition.
Theorem C22_answers {U I T} eq_u eq_i uniq_u uniq_i rnd (le : T -> T -> Prop) sort_time (df : list (event U I T)) ind rv rt sh1 sh2 :
  oracles_ok uniq_u uniq_i le sort_time -> length ind = length df ->
  (- (1 # 10000000000) <= rnd (rnd (1 - rv) - rt))%Q -> ~ (rnd (1 - rnd (rnd (1 - rv) - rt)) == 0)%Q -> shuffles sh1 -> shuffles sh2 ->
  exists ds, holdout_specific eq_u eq_i uniq_u uniq_i rnd df ind rv rt sh1 sh2 = Ok ds.
Proof. exact (fun Ho => specific_total eq_u eq_i uniq_u uniq_i rnd le sort_time Ho df ind rv rt sh1 sh2). Qed.
Print Assumptions C22_answers.
(** How many of the validatable users go where (in exact arithmetic): the
    training part gets its ratio rounded down, the rest is shared in the
    proportion of the two ratios, the validation part rounded down. *)
Theorem C22_counts {U I T} (eq_u : forall a b : U, {a = b} + {a <> b}) (eq_i : forall a b : I, {a = b} + {a <> b}) uniq_u uniq_i (le : T -> T -> Prop) sort_time (df : list (event U I T)) ind rv rt sh1 sh2 ds vs :
  oracles_ok uniq_u uniq_i le sort_time -> shuffles sh1 -> shuffles sh2 -> (0 <= rv)%Q -> (0 <= rt)%Q -> (0 < rv + rt <= 1)%Q ->
  holdout_specific eq_u eq_i uniq_u uniq_i exact_rnd df ind rv rt sh1 sh2 = Ok ds ->
  NoDup vs -> (forall x, In x vs <-> exists p, In p (combine df ind) /\ ev_u (fst p) = x /\ snd p = true) ->
  let n := Z.of_nat (length vs) in
  let n_train := Qfloor (inject_Z n * (1 - rv - rt)) in
  let n_val := Qfloor (inject_Z (n - n_train) * (rv / (rv + rt))) in
  Z.of_nat (length (filter (fun x => id_mem eq_u x vs) (pd_users (ds_train ds)))) = n_train /\
  Z.of_nat (length (pd_users (ds_val ds))) = n_val /\
  Z.of_nat (length (pd_users (ds_test ds))) = (n - n_train - n_val)%Z.
Proof. exact (fun Ho => specific_counts eq_u eq_i uniq_u uniq_i le sort_time Ho df ind rv rt sh1 sh2 ds vs). Qed.
Print Assumptions C22_counts.
(** Flagged interactions of the validatable users kept for training do enter the training matrix. *)
Theorem C22_contamination_refuted : exists (df : list (event nat nat nat)) ind ds e,
  holdout_specific Nat.eq_dec Nat.eq_dec ex_uniq ex_uniq exact_rnd df ind (1 # 4) (1 # 4) ex_shuffle ex_shuffle = Ok ds /\
  In (e, true) (combine df ind) /\ In (ev_u e, ev_i e, 1%Q) (learn_labels (ds_items ds) (ds_train ds)).
Proof.
  exists ex_df, [true; false; false; true; false; false; false; true; false; false; true; false]. eexists. exists (mkEvent 5 12 1 (1 # 2)%Q).
  split; [vm_compute; reflexivity|]. vm_compute. intuition.
Qed.
Print Assumptions C22_contamination_refuted.
(** Both ratios 0 (everything for training) is a ZeroDivisionError. *)
Theorem C22_zero_ratios_refuted : exists (df : list (event nat nat nat)) ind, length ind = length df /\
  holdout_specific Nat.eq_dec Nat.eq_dec ex_uniq ex_uniq exact_rnd df ind 0 0 ex_shuffle ex_shuffle = Fail ZeroDivision.
Proof. exists ex_df, (repeat true 12). split; reflexivity. Qed.
Print Assumptions C22_zero_ratios_refuted.
Example C22_example : exists ds,
  holdout_specific Nat.eq_dec Nat.eq_dec ex_uniq ex_uniq exact_rnd ex_df [true; false; false; true; false; false; false; true; false; false; true; false] (1 # 2) (1 # 2) ex_shuffle ex_shuffle = Ok ds /\
  pd_users (ds_train ds) = [3] /\ pd_users (ds_val ds) = [4; 5] /\ pd_users (ds_test ds) = [2; 1] /\
  held_labels (ds_items ds) (ds_val ds) = [(4, 10, 1%Q); (5, 12, 1%Q)] /\ learn_labels (ds_items ds) (ds_test ds) = [(1, 11, 1%Q); (1, 12, 1%Q); (2, 12, 1%Q); (1, 11, 1%Q)].
Proof. eexists. split; [vm_compute; reflexivity|]. vm_compute. repeat split. Qed.

(** * C43: df_to_sparse *)
Theorem C43_entries {U I T} eq_u eq_i uniq_u uniq_i (df : list (event U I T)) ou oi (rated : bool) :
  lists_distinct uniq_u -> lists_distinct uniq_i ->
  (forall us, ou = Some us -> NoDup us) -> (forall is, oi = Some is -> NoDup is) ->
  exists m us is, df_to_sparse eq_u eq_i uniq_u uniq_i df ou oi rated = Ok (m, us, is) /\
    c_rows m = length us /\ c_cols m = length is /\ NoDup us /\ NoDup is /\
    (forall l, ou = Some l -> us = l) /\ (forall l, oi = Some l -> is = l) /\
    (ou = None -> forall x, In x us <-> exists e, In e df /\ ev_u e = x /\ (forall l, oi = Some l -> In (ev_i e) l)) /\
    (oi = None -> forall y, In y is <-> exists e, In e df /\ ev_i e = y /\ (forall l, ou = Some l -> In (ev_u e) l)) /\
    (forall r c x y, nth_error us r = Some x -> nth_error is c = Some y ->
       (entry m r c == fold_right Qplus 0%Q (map (fun e => if rated then ev_r e else 1%Q)
          (filter (fun e => (if eq_u (ev_u e) x then true else false) && (if eq_i (ev_i e) y then true else false)) df)))%Q) /\
    (forall r c v, In (r, c, v) (c_ent m) -> r < length us /\ c < length is).
Proof. exact (fun Hu Hi => df_to_sparse_entries eq_u eq_i uniq_u uniq_i Hu Hi df ou oi rated). Qed.
Print Assumptions C43_entries.
Theorem C43_foreign_dropped {U I T} eq_u eq_i uniq_u uniq_i (df : list (event U I T)) us is (rated : bool) :
  df_to_sparse eq_u eq_i uniq_u uniq_i df (Some us) (Some is) rated =
  df_to_sparse eq_u eq_i uniq_u uniq_i (filter (fun e => id_mem eq_u (ev_u e) us && id_mem eq_i (ev_i e) is) df) (Some us) (Some is) rated.
Proof. exact (df_to_sparse_foreign eq_u eq_i uniq_u uniq_i df us is rated). Qed.
Print Assumptions C43_foreign_dropped.
Theorem C43_duplicate_ids {U I T} eq_u eq_i uniq_u uniq_i (df : list (event U I T)) ou oi rated :
  (match ou with Some us => ~ NoDup us | None => False end) \/ (match oi with Some is => ~ NoDup is | None => False end) ->
  df_to_sparse eq_u eq_i uniq_u uniq_i df ou oi rated = Fail ValueError.
Proof. exact (df_to_sparse_dup eq_u eq_i uniq_u uniq_i df ou oi rated). Qed.
Print Assumptions C43_duplicate_ids.
Definition ex_sparse : coo := mkCoo 3 2 [(2, 1, 2%Q); (2, 0, 1%Q); (2, 0, 3%Q); (1, 1, (5 # 2)%Q)].
Example C43_example :
  df_to_sparse Nat.eq_dec Nat.eq_dec ex_uniq ex_uniq ex_df (Some [9; 5; 1]) (Some [11; 10]) true = Ok (ex_sparse, [9; 5; 1], [11; 10]) /\
  (entry ex_sparse 2 0 == 4)%Q.
Proof. split; reflexivity. Qed.
