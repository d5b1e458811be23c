(** C48: what is read from the MIND logs and the NeuMF test files. *)
From Coq Require Import String.
From Coq Require Import List.
From Verif Require Import Base PyStr_Model Mind_Model Mind_Spec Mind_Proofs Ex_PyStr Ex_Mind.
Local Open Scope Z_scope.

(** One group of rows per behaviour, in order, and in it one row per token, in
    order, split at the last '-' (or a single row without item when there is
    no token); the position counts the earlier rows of the same impression. *)
Theorem C48_impressions : forall is_space log split, In split valid_splits ->
  has_impressions (log split) -> has_label is_space (log split) ->
  exists rows groups, read_impressions is_space log (Some split) false = Ok rows /\
    rows = concat groups /\ Forall2 (rows_of is_space split) (log split) groups /\
    (forall k r, nth_error rows k = Some r ->
       i_position r = count_occ Z.eq_dec (map i_id (firstn k rows)) (i_id r)) /\
    (NoDup (map b_id (log split)) -> map i_position rows = flat_map (fun g => seq 0 (length g)) groups).
Proof. exact impressions_spec. Qed.
Print Assumptions C48_impressions.

(** The tokens of a field are determined. *)
Theorem C48_tokens : forall is_space s, exists! ws, tokens is_space s ws.
Proof.
  intros is_space s. exists (words is_space s). split; [apply tokens_words|].
  intros ws T. exact (words_spec is_space s ws T).
Qed.
Print Assumptions C48_tokens.

(** The interactions are exactly the clicked rows. *)
Theorem C48_interaction : forall is_space log split,
  read_interaction is_space log split =
  omap (fun rows => map (fun r => (i_id r, i_user r, i_time r, i_item r, i_split r)) (filter i_clicked rows))
    (read_impressions is_space log split false).
Proof. exact interaction_filter. Qed.
Print Assumptions C48_interaction.
Theorem C48_clicked_only : forall is_space log split,
  read_impressions is_space log split true = omap (filter i_clicked) (read_impressions is_space log split false).
Proof. exact impressions_clicked. Qed.
Print Assumptions C48_clicked_only.

(** Without a split, the rows of both, training first. *)
Theorem C48_both : forall is_space log,
  read_impressions is_space log None false =
  obind (read_impressions is_space log (Some (str "train"%string)) false) (fun a =>
  obind (read_impressions is_space log (Some (str "dev"%string)) false) (fun b => Ok (a ++ b))).
Proof. exact impressions_both. Qed.
Print Assumptions C48_both.

Theorem C48_errors : forall is_space log split c,
  (~ In split valid_splits -> read_impressions is_space log (Some split) c = Fail ValueError) /\
  (In split valid_splits ->
    (log split = [] -> read_impressions is_space log (Some split) c = Fail ValueError) /\
    (log split <> [] -> ~ has_impressions (log split) -> read_impressions is_space log (Some split) c = Fail AttributeError) /\
    (has_impressions (log split) -> ~ has_label is_space (log split) -> read_impressions is_space log (Some split) c = Fail KeyError)).
Proof.
  intros is_space log split c. split; [exact (impressions_invalid is_space log split c) | exact (impressions_errors is_space log split c)].
Qed.
Print Assumptions C48_errors.

(** A file of the archive is found by its name, or by being the only one of
    that name in a directory. *)
Theorem C48_member : forall names path m, NoDup names ->
  (locate names path = Ok m <->
   In m names /\ (m = path \/
     (~ In path names /\ (exists d, m = d ++ 47 :: path) /\
      forall m', In m' names -> (exists d, m' = d ++ 47 :: path) -> m' = m))).
Proof. exact locate_spec. Qed.
Print Assumptions C48_member.

(** NeuMF: for files in the published format, the rows are those of the lines
    in order, the first of every (user, item) pair kept. *)
Theorem C48_neumf : forall digit_value is_space max_digits, ascii_ok digit_value is_space -> forall es,
  Forall (good_entry max_digits) es ->
  exists rows, read_test digit_value is_space max_digits (map line_of es) = Ok rows /\
    NoDup (map fst rows) /\
    forall r, In r rows <-> exists a b, flat_map rows_of_line es = a ++ r :: b /\ ~ In (fst r) (map fst a).
Proof. exact read_test_spec. Qed.
Print Assumptions C48_neumf.

(** ** Where it fails *)
(** A blank field yields a row although it has no candidate. *)
Theorem C48_blank_refuted : exists log rows,
  read_impressions ascii_space log (Some (str "train"%string)) false = Ok rows /\
  exists r, In r rows /\ i_item r = None.
Proof.
  exists logs. eexists. split; [vm_compute; reflexivity|].
  eexists. split; [do 3 right; left; reflexivity|]. reflexivity.
Qed.
Print Assumptions C48_blank_refuted.
(** Candidates without labels cannot be read at all. *)
Theorem C48_unlabelled_refuted : exists log,
  has_impressions (log (str "train"%string)) /\
  read_impressions ascii_space log (Some (str "train"%string)) false = Fail KeyError.
Proof.
  exists (fun _ => no_labels). split; [|vm_compute; reflexivity].
  do 2 eexists. split; [now left | reflexivity].
Qed.
Print Assumptions C48_unlabelled_refuted.
(** NeuMF: a line without negatives is an error, and a positive that was a
    negative in an earlier line of its user is lost. *)
Theorem C48_neumf_no_negatives_refuted : forall digit_value is_space max_digits,
  ascii_ok digit_value is_space -> forall u i, fits max_digits u -> fits max_digits i ->
  test_line digit_value is_space max_digits (neumf_line u i []) = Fail ValueError.
Proof. exact test_line_no_negatives. Qed.
Print Assumptions C48_neumf_no_negatives_refuted.
Theorem C48_neumf_lost_positive_refuted : exists es rows u i,
  Forall (good_entry 4300) es /\ In (line_of (u, i, [str "7"%string])) (map line_of es) /\
  read_test ascii_table ascii_space 4300 (map line_of es) = Ok rows /\
  ~ In (value u, value i, true) rows /\ In (value u, value i, false) rows.
Proof.
  exists two_entries, [(0, 25, true); (0, 1064, false); (0, 174, false); (0, 7, false)], (str "0"%string), (str "174"%string).
  split.
  { repeat (apply Forall_cons || apply Forall_nil);
    (split; [|split; [|split]]); cbn [fst snd];
    try (repeat (apply Forall_cons || apply Forall_nil));
    try discriminate;
    (split; [split; [discriminate | vm_compute; repeat (apply Forall_cons || apply Forall_nil); split; discriminate] | vm_compute; lia]). }
  split; [cbn; auto|]. split; [vm_compute; reflexivity|].
  vm_compute. split; [|auto]. intros H. repeat destruct H as [H|H]; discriminate || destruct H.
Qed.
Print Assumptions C48_neumf_lost_positive_refuted.

(** ** Examples *)
Example impressions_example :
  In (str "train"%string) valid_splits /\ has_impressions (logs (str "train"%string)) /\
  has_label ascii_space (logs (str "train"%string)) /\
  omap (map (fun r => (i_id r, i_item r, i_clicked r, i_position r)))
    (read_impressions ascii_space logs (Some (str "train"%string)) false) =
  Ok [(1, Some (str "N1"%string), false, 0%nat); (1, Some (str "N-2"%string), true, 1%nat);
      (1, Some (str "N3"%string), true, 2%nat); (2, None, false, 0%nat); (3, None, false, 0%nat);
      (4, Some (str "N4"%string), true, 0%nat); (4, Some (str "N5"%string), false, 1%nat)].
Proof.
  split; [now left|]. split; [do 2 eexists; split; [now left | reflexivity]|].
  split; [|vm_compute; reflexivity].
  eexists. eexists. exists (words ascii_space (str "N1-0 N-2-1  N3-1"%string)), (str "N1-0"%string).
  split; [now left|]. split; [reflexivity|]. split; [apply tokens_words|]. vm_compute. auto 6.
Qed.
Example interaction_example :
  read_interaction ascii_space logs None =
  Ok [(1, str "U1"%string, 1001, Some (str "N-2"%string), str "train"%string);
      (1, str "U1"%string, 1001, Some (str "N3"%string), str "train"%string);
      (4, str "U3"%string, 1004, Some (str "N4"%string), str "train"%string)].
Proof. vm_compute. reflexivity. Qed.
Example locate_example :
  locate [str "MINDsmall_train/behaviors.tsv"%string; str "news.tsv"%string] (str "behaviors.tsv"%string)
  = Ok (str "MINDsmall_train/behaviors.tsv"%string).
Proof. vm_compute. reflexivity. Qed.
Example neumf_example :
  line_of (str "0"%string, str "25"%string, [str "1064"%string]) = str "(0,25)"%string ++ 9 :: str "1064"%string ++ [10] /\
  test_line ascii_table ascii_space 4300 (str "(0,25)"%string ++ 9 :: str "1064"%string ++ [10])
  = Ok [(0, 25, true); (0, 1064, false)].
Proof. vm_compute. auto. Qed.
