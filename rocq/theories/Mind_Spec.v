(** What C48 speaks about. *)
From Verif Require Import Base PyStr_Model Mind_Model.
From Coq Require Import String.
From Coq Require Import List.
Local Open Scope Z_scope.

(** The maximal runs of characters that are not white space. *)
Inductive tokens (is_space : Z -> bool) : pystr -> list pystr -> Prop :=
| tokens_none s : Forall (fun c => is_space c = true) s -> tokens is_space s []
| tokens_more blank w rest ws :
    Forall (fun c => is_space c = true) blank ->
    w <> [] -> Forall (fun c => is_space c = false) w ->
    (forall c, hd_error rest = Some c -> is_space c = true) ->
    tokens is_space rest ws ->
    tokens is_space (blank ++ w ++ rest) (w :: ws).

(** [t] is the item, a '-' and a label without '-'. *)
Definition labelled (t item label : pystr) : Prop :=
  t = item ++ 45 :: label /\ ~ In 45 label.

(** The row a token of a behaviour stands for. *)
Definition row_of (split : pystr) (b : behavior) (t : pystr) (r : impression) : Prop :=
  i_id r = b_id b /\ i_user r = b_user b /\ i_time r = b_time b /\ i_split r = split /\
  ((exists item label, labelled t item label /\ i_item r = Some item /\
      (i_clicked r = true <-> label = [49])) \/
   (~ In 45 t /\ i_item r = Some t /\ i_clicked r = false)).
(** The row of a behaviour without candidates. *)
Definition row_of_nothing (split : pystr) (b : behavior) (r : impression) : Prop :=
  i_id r = b_id b /\ i_user r = b_user b /\ i_time r = b_time b /\ i_split r = split /\
  i_item r = None /\ i_clicked r = false.
Definition rows_of (is_space : Z -> bool) (split : pystr) (b : behavior) (rs : list impression) : Prop :=
  (exists s ws, b_impressions b = Some s /\ tokens is_space s ws /\ ws <> [] /\ Forall2 (row_of split b) ws rs) \/
  ((b_impressions b = None \/ exists s, b_impressions b = Some s /\ tokens is_space s []) /\
   exists r, rs = [r] /\ row_of_nothing split b r).

(** NeuMF: a decimal number in ASCII digits and its value. *)
Definition ascii_number (s : pystr) : Prop := s <> [] /\ Forall (fun c => 48 <= c <= 57) s.
Definition value (s : pystr) : Z := fold_left (fun a c => a * 10 + (c - 48)) s 0.
(** A line "(user,item)" followed by tabs and numbers. *)
Definition neumf_line (u i : pystr) (negs : list pystr) : pystr :=
  [40] ++ u ++ [44] ++ i ++ [41] ++ flat_map (fun n => 9 :: n) negs ++ [10].
(** What is needed to know about the Unicode tables. *)
Record ascii_ok (digit_value : Z -> option Z) (is_space : Z -> bool) : Prop := mkAscii
  { ao_digit : forall d, 0 <= d <= 9 -> digit_value (48 + d) = Some d;
    ao_mark : forall c, In c [40; 41; 44; 9; 10] -> digit_value c = None;
    ao_blank : is_space 9 = true /\ is_space 10 = true;
    ao_solid : forall c, 40 <= c <= 57 -> is_space c = false }.

(** Some behaviour has a field of candidates; some candidate has a '-'. *)
Definition has_impressions (bs : list behavior) : Prop := exists b s, In b bs /\ b_impressions b = Some s.
Definition has_label (is_space : Z -> bool) (bs : list behavior) : Prop :=
  exists b s ws t, In b bs /\ b_impressions b = Some s /\ tokens is_space s ws /\ In t ws /\ In 45 t.

(** A NeuMF test file: user, item and negatives of every line. *)
Definition entry : Type := (pystr * pystr * list pystr)%type.
Definition line_of (e : entry) : pystr := neumf_line (fst (fst e)) (snd (fst e)) (snd e).
Definition rows_of_line (e : entry) : list test_row :=
  (value (fst (fst e)), value (snd (fst e)), true) :: map (fun x => (value (fst (fst e)), value x, false)) (snd e).
Definition fits (max_digits : nat) (n : pystr) : Prop := ascii_number n /\ (length n <= max_digits)%nat.
Definition good_entry (max_digits : nat) (e : entry) : Prop :=
  fits max_digits (fst (fst e)) /\ fits max_digits (snd (fst e)) /\ snd e <> [] /\ Forall (fits max_digits) (snd e).
