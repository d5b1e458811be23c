(** What C65 speaks about. *)
From Verif Require Import Base PyStr_Model PyStr_Spec Mind_Model Mind_Spec Reader_Model.
From Coq Require Import String.
From Coq Require Import List.
Local Open Scope Z_scope.

(** The lines of a file: a newline ends a line and belongs to it; the last
    line may lack it. *)
Definition full_line (l : pystr) : Prop := exists w, l = w ++ [10] /\ ~ In 10 w.
Definition open_line (l : pystr) : Prop := l <> [] /\ ~ In 10 l.
Definition file_lines (file : pystr) (ls : list pystr) : Prop :=
  file = concat ls /\
  (Forall full_line ls \/ exists ls' l, ls = ls' ++ [l] /\ Forall full_line ls' /\ open_line l).

(** A literal as int(bytes) reads it. *)
Definition byte_int (max_digits : nat) (w : pystr) (n : Z) : Prop :=
  integer_literal byte_digit byte_space max_digits w n.
(** A line with the number of items and the items themselves. *)
Definition user_line (max_digits : nat) (l : pystr) (items : list Z) : Prop :=
  exists w ws, tokens byte_space l (w :: ws) /\
    byte_int max_digits w (Z.of_nat (length items)) /\ Forall2 (byte_int max_digits) ws items.
Definition blank_line (l : pystr) : Prop := Forall (fun c => byte_space c = true) l.
(** The rows of the users 0, 1, ... *)
Definition rows_from (user : Z) (users : list (list Z)) : list (Z * Z) :=
  concat (map (fun p => map (pair (user + Z.of_nat (fst p))) (snd p)) (combine (seq 0 (length users)) users)).
(** The file a table of items is written to. *)
Definition decimal_of (n : Z) (w : pystr) : Prop := ascii_number w /\ value w = n.
Definition written (max_digits : nat) (items : list Z) (l : pystr) : Prop :=
  exists w ws, decimal_of (Z.of_nat (length items)) w /\ Forall2 decimal_of items ws /\
    Forall (fun x => (length x <= max_digits)%nat) (w :: ws) /\
    l = w ++ flat_map (fun x => 32 :: x) ws ++ [10].

(** A field that can be written between the separators. *)
Definition plain_field (is_na : pystr -> bool) (s : pystr) : Prop :=
  s <> [] /\ is_na s = false /\ forall c, In c s -> ~ In c [10; 13; 34; 58].
Definition rating_line (u m r t : pystr) : pystr :=
  u ++ [58; 58] ++ m ++ [58; 58] ++ r ++ [58; 58] ++ t ++ [10].

(** A title that ends with a year in parentheses. *)
Definition ends_with_year (title d : pystr) : Prop :=
  exists name blanks, title = name ++ [40] ++ d ++ [41] ++ blanks /\
    ~ In 10 name /\ ascii_number d /\ Forall (fun c => latin_space c = true) blanks.

(** [w] with a trailing "|number" removed. *)
Definition unnumbered (w name : pystr) : Prop :=
  (exists d, ascii_number d /\ w = name ++ [124] ++ d) \/
  (name = w /\ ~ exists n d, ascii_number d /\ w = n ++ [124] ++ d).
(** One line of u.genre. *)
Definition genre_line (name : pystr) (number : pystr) : pystr := name ++ [124] ++ number ++ [10].

(** Line [k] stands for the items of user [k]; a blank line stands for a user
    without items if the last line that is not blank declared zero items. *)
Definition stands_for (max_digits : nat) (ls : list pystr) (k : nat) (l : pystr) (items : list Z) : Prop :=
  user_line max_digits l items \/
  (items = [] /\ blank_line l /\
   exists j l', (j < k)%nat /\ nth_error ls j = Some l' /\ user_line max_digits l' [] /\
     forall i x, (j < i < k)%nat -> nth_error ls i = Some x -> blank_line x).

(** The lines of a table: without newlines, and not only blanks and tabs. *)
Definition table_lines (file : pystr) (cs : list pystr) : Prop :=
  exists raw all, file_lines file raw /\
    Forall2 (fun l c => (l = c ++ [10] \/ l = c) /\ ~ In 10 c) raw all /\
    cs = filter (fun c => existsb (fun x => negb ((x =? 32) || (x =? 9))) c) all.
(** The fields of a line between single colons. *)
Fixpoint joined (fs : list pystr) : pystr :=
  match fs with [] => [] | [f] => f | f :: fs' => f ++ [58] ++ joined fs' end.
Definition fields (c : pystr) (fs : list pystr) : Prop :=
  fs <> [] /\ joined fs = c /\ Forall (fun f => ~ In 58 f) fs.
(** Column [k] of a line; missing if there is no such field, or it is empty or
    a name for a missing value. *)
Definition column (is_na : pystr -> bool) (fs : list pystr) (k : nat) (x : option pystr) : Prop :=
  match nth_error fs k with
  | Some f => (x = Some f /\ f <> [] /\ is_na f = false) \/ (x = None /\ (f = [] \/ is_na f = true))
  | None => x = None
  end.
Definition rating_columns (is_na : pystr -> bool) (fs : list pystr) (row : rating_row) : Prop :=
  let '(u, m, r, t) := row in
  column is_na fs 0 u /\ column is_na fs 2 m /\ column is_na fs 4 r /\ column is_na fs 6 t.

(** The genres whose flag is not zero, in their order. *)
Inductive marked : list pystr -> list (option Z) -> list pystr -> Prop :=
| marked_nil : marked [] [] []
| marked_yes g gs f fs out : f <> Some 0 -> marked gs fs out -> marked (g :: gs) (f :: fs) (g :: out)
| marked_no g gs fs out : marked gs fs out -> marked (g :: gs) (Some 0 :: fs) out.

(** A rating that can be written, its line and the row it is read as. *)
Definition good_rating (is_na : pystr -> bool) (e : pystr * pystr * pystr * pystr) : Prop :=
  let '(u, m, r, t) := e in plain_field is_na u /\ plain_field is_na m /\ plain_field is_na r /\ plain_field is_na t.
Definition line_of_rating (e : pystr * pystr * pystr * pystr) : pystr := let '(u, m, r, t) := e in rating_line u m r t.
Definition row_of_rating (e : pystr * pystr * pystr * pystr) : rating_row := let '(u, m, r, t) := e in (Some u, Some m, Some r, Some t).
(** A name that is one word. *)
Definition genre_name (n : pystr) : Prop := n <> [] /\ Forall (fun c => latin_space c = false) n.
