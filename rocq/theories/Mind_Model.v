(** Model of reading the MIND logs and the NeuMF test files:
      src/irspack/dataset/mind.py 164-248
      src/irspack/dataset/neu_mf.py 11, 29-53.

    Simplifications: the behaviour log is given as parsed by pandas.read_csv
    (a missing field is [None]; the index is 0, 1, ...), timestamps are opaque
    integers; NeuMF lines are given decoded. *)
From Verif Require Import Base PyStr_Model.
From Coq Require Import String.
From Coq Require Import List.
Local Open Scope Z_scope.

Section Unicode.
Variable digit_value : Z -> option Z.
Variable is_space : Z -> bool.
Variable max_digits : nat.

(** str.split(): [cur] is the word read so far. *)
Fixpoint words_from (cur s : pystr) : list pystr :=
  match s with
  | [] => match cur with [] => [] | _ => [cur] end
  | c :: s' =>
      if is_space c
      then match cur with [] => words_from [] s' | _ => cur :: words_from [] s' end
      else words_from (cur ++ [c]) s'
  end.
Definition words (s : pystr) : list pystr := words_from [] s.

(** str.rsplit("-", n=1): the parts around the last '-', if there is one. *)
Fixpoint rsplit1 (s : pystr) : option (pystr * pystr) :=
  match s with
  | [] => None
  | c :: s' =>
      match rsplit1 s' with
      | Some (a, b) => Some (c :: a, b)
      | None => if c =? 45 then Some ([], s') else None
      end
  end.

(** ** MIND *)
Record behavior := mkBehavior
  { b_id : Z; b_user : pystr; b_time : Z; b_impressions : option pystr }.
Record impression := mkImpression
  { i_id : Z; i_user : pystr; i_time : Z; i_item : option pystr; i_clicked : bool;
    i_position : nat; i_split : pystr }.

(** 226: split().explode(): one entry per token, or a single NaN. *)
Definition explode (x : option pystr) : list (option pystr) :=
  match x with
  | None => [None]
  | Some s => match words s with [] => [None] | ws => map Some ws end
  end.
(** 226, 228-230: the candidates together with the row they come from. *)
Definition candidates (bs : list behavior) : list (behavior * option pystr) :=
  flat_map (fun b => map (pair b) (explode (b_impressions b))) bs.
(** 227: columns 0 and 1 of rsplit("-", n=1, expand=True). *)
Definition labels (t : option pystr) : option pystr * option pystr :=
  match t with
  | None => (None, None)
  | Some s => match rsplit1 s with Some (a, b) => (Some a, Some b) | None => (Some s, None) end
  end.
(** 232. *)
Definition is_click (l : option pystr) : bool :=
  match l with Some s => pystr_eqb s (str "1"%string) | None => false end.
(** 233: groupby("impression_id").cumcount(): how often the id has come before. *)
Fixpoint cumcount (seen : list Z) (ids : list Z) : list nat :=
  match ids with
  | [] => []
  | i :: ids' => count_occ Z.eq_dec seen i :: cumcount (i :: seen) ids'
  end.
(** 228-234. *)
Definition make_row (split_name : pystr) (x : (behavior * option pystr) * nat) : impression :=
  let '((b, t), pos) := x in
  mkImpression (b_id b) (b_user b) (b_time b) (fst (labels t)) (is_click (snd (labels t))) pos split_name.
(** 225-235.  An empty log makes read_csv raise EmptyDataError (a ValueError),
    a column that is all NaN has no [.str]; without any '-' there is no column
    1. *)
Definition split_frame (split_name : pystr) (clicked_only : bool) (bs : list behavior) : outcome (list impression) :=
  match bs with
  | [] => Fail ValueError
  | _ =>
      if forallb (fun b => match b_impressions b with None => true | Some _ => false end) bs
      then Fail AttributeError
      else
        let cs := candidates bs in
        if forallb (fun c => match snd (labels (snd c)) with None => true | Some _ => false end) cs
        then Fail KeyError
        else
          let frame := map (make_row split_name) (combine cs (cumcount [] (map (fun c => b_id (fst c)) cs))) in
          Ok (if clicked_only then filter i_clicked frame else frame)
  end.

Definition valid_splits : list pystr := [str "train"%string; str "dev"%string].
(** 164-166, 182-186. *)
Definition iter_splits (split : option pystr) : outcome (list pystr) :=
  match split with
  | None => Ok valid_splits
  | Some s => if existsb (pystr_eqb s) valid_splits then Ok [s] else Fail ValueError
  end.
Fixpoint frames (log : pystr -> list behavior) (clicked_only : bool) (splits : list pystr)
    : outcome (list impression) :=
  match splits with
  | [] => Ok []
  | s :: splits' =>
      obind (split_frame s clicked_only (log s)) (fun f =>
      omap (fun rest => f ++ rest) (frames log clicked_only splits'))
  end.
(** 208-238. *)
Definition read_impressions (log : pystr -> list behavior) (split : option pystr) (clicked_only : bool)
    : outcome (list impression) :=
  obind (iter_splits split) (frames log clicked_only).
(** 240-248. *)
Definition read_interaction (log : pystr -> list behavior) (split : option pystr)
    : outcome (list (Z * pystr * Z * option pystr * pystr)) :=
  omap (map (fun r => (i_id r, i_user r, i_time r, i_item r, i_split r))) (read_impressions log split true).

(** 168-180: the member of the archive a file name stands for. *)
Fixpoint is_suffix (x s : pystr) : bool :=
  pystr_eqb x s || match s with [] => false | _ :: s' => is_suffix x s' end.
Definition locate (names : list pystr) (path : pystr) : outcome pystr :=
  if existsb (pystr_eqb path) names then Ok path
  else match filter (is_suffix (str "/"%string ++ path)) names with
       | [m] => Ok m
       | _ => Fail KeyError
       end.

(** ** NeuMF *)
(** The expression of neu_mf.py 11.  Its character classes are disjoint
    (digits are not white space), so taking as much as possible never has to
    be taken back. *)
Fixpoint span (p : Z -> bool) (s : pystr) : pystr * pystr :=
  match s with
  | c :: s' => if p c then let (a, b) := span p s' in (c :: a, b) else ([], s)
  | [] => ([], [])
  end.
Definition expect (c : Z) (s : pystr) : option pystr :=
  match s with c' :: s' => if c' =? c then Some s' else None | [] => None end.
Definition digits1 (s : pystr) : option (pystr * pystr) :=
  match span (is_digit digit_value) s with ([], _) => None | x => Some x end.
Definition match_prefix (s : pystr) : option (pystr * pystr * pystr) :=
  match expect 40 s with
  | None => None
  | Some s =>
      match digits1 (snd (span is_space s)) with
      | None => None
      | Some (u, s) =>
          match expect 44 (snd (span is_space s)) with
          | None => None
          | Some s =>
              match digits1 (snd (span is_space s)) with
              | None => None
              | Some (i, s) =>
                  match expect 41 (snd (span is_space s)) with
                  | None => None
                  | Some s => Some (u, i, s)
                  end
              end
          end
      end
  end.
(** 42: [search], the leftmost match. *)
Fixpoint search_prefix (s : pystr) : option (pystr * pystr) :=
  match match_prefix s with
  | Some (u, i, _) => Some (u, i)
  | None => match s with [] => None | _ :: s' => search_prefix s' end
  end.
(** 48: [sub("")], all matches from left to right. *)
Fixpoint sub_prefix (fuel : nat) (s : pystr) : pystr :=
  match fuel with
  | O => s
  | S f =>
      match match_prefix s with
      | Some (_, _, rest) => sub_prefix f rest
      | None => match s with [] => [] | c :: s' => c :: sub_prefix f s' end
      end
  end.
(** str.split("\t"). *)
Fixpoint split_tab (s : pystr) : list pystr :=
  match s with
  | [] => [[]]
  | c :: s' =>
      if c =? 9 then [] :: split_tab s'
      else match split_tab s' with w :: ws => (c :: w) :: ws | [] => [[c]] end
  end.
Definition parse_int (s : pystr) : outcome Z :=
  match py_int digit_value is_space max_digits s with Some n => Ok n | None => Fail ValueError end.
Fixpoint parse_ints (l : list pystr) : outcome (list Z) :=
  match l with
  | [] => Ok []
  | s :: l' => obind (parse_int s) (fun n => omap (cons n) (parse_ints l'))
  end.
Definition test_row : Type := (Z * Z * bool)%type.
(** 41-49. *)
Definition test_line (line : pystr) : outcome (list test_row) :=
  match search_prefix line with
  | None => Fail AssertionError
  | Some (us, is_) =>
      obind (parse_int us) (fun uid =>
      obind (parse_int is_) (fun iid =>
      omap (fun negs => (uid, iid, true) :: map (fun n => (uid, n, false)) negs)
        (parse_ints (split_tab (strip is_space (sub_prefix (S (length line)) line))))))
  end.
Fixpoint test_rows (lines : list pystr) : outcome (list test_row) :=
  match lines with
  | [] => Ok []
  | l :: lines' => obind (test_line l) (fun a => omap (fun b => a ++ b) (test_rows lines'))
  end.
(** 50-52: drop_duplicates(["user_id", "item_id"], keep="first"). *)
Fixpoint dedup (seen : list (Z * Z)) (l : list test_row) : list test_row :=
  match l with
  | [] => []
  | r :: l' =>
      if existsb (fun k => (fst k =? fst (fst r)) && (snd k =? snd (fst r))) seen
      then dedup seen l'
      else r :: dedup (fst r :: seen) l'
  end.
(** 38-53, the test part. *)
Definition read_test (lines : list pystr) : outcome (list test_row) :=
  omap (dedup []) (test_rows lines).
End Unicode.
