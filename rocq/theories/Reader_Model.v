(** Model of the readers of the CiteULike and MovieLens archives:
      src/irspack/dataset/citeulike.py 18-33
      src/irspack/dataset/movielens/ML100K.py 50-76
      src/irspack/dataset/movielens/ML1M.py 27-58 (read_interaction, read_item_info).

    Bytes are integers; a file is the list of its bytes.  latin-1 decodes byte
    [b] as character [b].  pandas.read_csv is modelled for files without
    quotes (34) and carriage returns (13) and gives strings; that pandas turns
    columns of numbers into integers or floats and timestamps into dates is
    not modelled.  read_user_info, CiteULike's read_item_meta and the 20M and
    Amazon readers are calls of read_csv (and eval) only and not modelled. *)
From Verif Require Import Base PyStr_Model Mind_Model.
From Coq Require Import String.
From Coq Require Import List.
Local Open Scope Z_scope.

(** White space of bytes.split() and int(bytes). *)
Definition byte_space (c : Z) : bool := ((9 <=? c) && (c <=? 13)) || (c =? 32).
Definition byte_digit (c : Z) : option Z := if (48 <=? c) && (c <=? 57) then Some (c - 48) else None.
(** White space of str.split() and [\s] among the characters of latin-1;
    [\d] is [byte_digit] there. *)
Definition latin_space (c : Z) : bool :=
  ((9 <=? c) && (c <=? 13)) || ((28 <=? c) && (c <=? 32)) || (c =? 133) || (c =? 160).

(** Iterating over a BytesIO: lines end after a newline. *)
Fixpoint lines_of (s : pystr) : list pystr :=
  match s with
  | [] => []
  | c :: s' =>
      if c =? 10 then [c] :: lines_of s'
      else match lines_of s' with
           | [] => [[c]]
           | l :: ls => (c :: l) :: ls
           end
  end.

(** ** citeulike.py *)
Section CiteULike.
Variable max_digits : nat.
Notation parse_int := (parse_int byte_digit byte_space max_digits).
Notation parse_ints := (parse_ints byte_digit byte_space max_digits).

(** 24-31, one line.  [cnt] is the variable user_cnt, which survives from one
    line to the next; [None]: not assigned yet. *)
Definition cite_line (user : Z) (cnt : option Z) (l : pystr) : outcome (option Z * list (Z * Z)) :=
  obind (match words byte_space l with
         | [] => Ok (cnt, [])
         | w :: ws => obind (parse_int w) (fun c => omap (fun items => (Some c, items)) (parse_ints ws))
         end)
    (fun r => match fst r with
              | None => Fail UnboundLocal
              | Some c => if c =? Z.of_nat (length (snd r)) then Ok (Some c, map (pair user) (snd r))
                          else Fail AssertionError
              end).
(** 22-32. *)
Fixpoint cite_lines (user : Z) (cnt : option Z) (ls : list pystr) : outcome (list (Z * Z)) :=
  match ls with
  | [] => Ok []
  | l :: ls' => obind (cite_line user cnt l) (fun r => omap (fun rows => snd r ++ rows) (cite_lines (user + 1) (fst r) ls'))
  end.
(** 18-33. *)
Definition cite_read (file : pystr) : outcome (list (Z * Z)) := cite_lines 0 None (lines_of file).
End CiteULike.

(** ** ML1M.py *)
(** str.split(sep). *)
Fixpoint split_on (sep : Z) (s : pystr) : list pystr :=
  match s with
  | [] => [[]]
  | c :: s' =>
      if c =? sep then [] :: split_on sep s'
      else match split_on sep s' with w :: ws => (c :: w) :: ws | [] => [[c]] end
  end.
Section Csv.
(** Whether pandas takes the (non-empty) field for a missing value. *)
Variable is_na : pystr -> bool.
Definition cell (s : pystr) : option pystr :=
  match s with [] => None | _ => if is_na s then None else Some s end.
(** A line without its newline. *)
Definition chomp (l : pystr) : pystr := filter (fun c => negb (c =? 10)) l.
(** pandas skips lines of blanks and tabs. *)
Definition blank (l : pystr) : bool := forallb (fun c => (c =? 32) || (c =? 9)) l.
Definition pad (n : nat) (l : list (option pystr)) : list (option pystr) := l ++ repeat None (n - length l).
(** pandas.read_csv(file, sep=sep, header=None): the first line gives the
    number of columns; shorter lines are filled up, longer lines are a
    ParserError, an empty file is an EmptyDataError (both ValueErrors). *)
Definition read_csv (sep : Z) (file : pystr) : outcome (nat * list (list (option pystr))) :=
  let rows := map (split_on sep) (filter (fun l => negb (blank l)) (map chomp (lines_of file))) in
  match rows with
  | [] => Fail ValueError
  | r :: _ =>
      if existsb (fun x => (length r <? length x)%nat) rows then Fail ValueError
      else Ok (length r, map (fun x => pad (length r) (map cell x)) rows)
  end.
(** 27-42: columns 0, 2, 4 and 6 of the table. *)
Definition rating_row : Type := (option pystr * option pystr * option pystr * option pystr)%type.
Definition columns_0246 (x : list (option pystr)) : rating_row :=
  (nth 0 x None, nth 2 x None, nth 4 x None, nth 6 x None).
Definition read_ratings (file : pystr) : outcome (list rating_row) :=
  obind (read_csv 58 file) (fun t => if (fst t <=? 6)%nat then Fail KeyError else Ok (map columns_0246 (snd t))).
End Csv.

(** Regular expressions with a group: what was consumed and what is left. *)
Definition captures (a : matcher) (s : pystr) : list (pystr * pystr) :=
  map (fun r => (firstn (length s - length r) s, r)) (a s).
(** 54: str.extract of "^.*\((?P<release_year>\d+)\)\s*$"; the first way to
    match in the order of backtracking. *)
Definition release_digits (title : pystr) : option pystr :=
  hd_error
    (flat_map (fun r1 =>
       match expect 40 r1 with
       | Some r2 =>
           flat_map (fun c =>
             match expect 41 (snd c) with
             | Some r4 => if existsb at_end (star (cls latin_space) r4) then [fst c] else []
             | None => []
             end) (captures (plus (cls (is_digit byte_digit))) r2)
       | None => []
       end) (star (cls (fun c => negb (c =? 10))) title)).
(** 53-56: pd.to_numeric of it (for numbers that fit a machine integer). *)
Definition release_year (title : pystr) : option Z :=
  match release_digits title with
  | Some d => Some (horner (map (fun c => c - 48) d))
  | None => None
  end.

(** ** ML100K.py *)
(** 53: re.sub(r"\|\d+$", "", s); [s] does not end with a newline. *)
Fixpoint drop_number (s : pystr) : pystr :=
  match s with
  | [] => []
  | c :: s' =>
      if (c =? 124) && existsb (fun r => match r with [] => true | _ => false end) (plus (cls (is_digit byte_digit)) s')
      then [] else c :: drop_number s'
  end.
(** 50-53. *)
Definition read_genre (file : pystr) : list pystr :=
  map (fun w => drop_number (strip latin_space w)) (words latin_space file).

(** A line of u.item as read_csv gives it: the movie, four fields that are
    passed on (title, two dates, URL) and the remaining ones; [None] is NaN. *)
Record item_row := mkItem { it_id : Z; it_info : list (option pystr); it_flags : list (option Z) }.
(** numpy's nonzero: NaN is not zero. *)
Definition nonzero (f : option Z) : bool := match f with Some 0 => false | _ => true end.
Definition indexed {A} (l : list A) : list (nat * A) := combine (seq 0 (length l)) l.
(** df[genres].values.nonzero() (70): (row, column), row by row. *)
Definition nonzero_cells (rows : list (list (option Z))) : list (nat * nat) :=
  flat_map (fun x => flat_map (fun y => if nonzero (snd y) then [(fst x, fst y)] else []) (indexed (snd x))) (indexed rows).
(** df[genres]: for every name all columns of that name. *)
Definition select (genres : list pystr) (flags : list (option Z)) : list (option Z) :=
  flat_map (fun g => flat_map (fun p => if pystr_eqb (fst p) g then [snd p] else []) (combine genres flags)) genres.
Fixpoint lookups (ids : list Z) (genres : list pystr) (cells : list (nat * nat)) : outcome (list (Z * pystr)) :=
  match cells with
  | [] => Ok []
  | (r, c) :: cells' =>
      match nth_error ids r, nth_error genres c with
      | Some m, Some g => omap (cons (m, g)) (lookups ids genres cells')
      | _, _ => Fail IndexError
      end
  end.
(** 55-76; [width] is the number of columns of u.item.  The first result is
    the frame of the items without the columns of the genres, the second one
    genre_df.  A genre named like one of the five other columns is not modelled. *)
Definition read_item_info (width : nat) (rows : list item_row) (genres : list pystr)
  : outcome (list (Z * list (option pystr)) * list (Z * pystr)) :=
  if negb (width =? 5 + length genres)%nat then Fail ValueError
  else omap (fun gs => (map (fun r => (it_id r, it_info r)) rows, gs))
         (lookups (map it_id rows) genres (nonzero_cells (map (fun r => select genres (it_flags r)) rows))).
