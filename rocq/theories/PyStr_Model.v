(** Python strings as lists of code points; the parts of the interpreter the
    library leans on for names and numbers, and the library code on top:
      src/irspack/optimization/parameter_range.py 8-97
      src/irspack/_threading.py 5-18.

    The Unicode tables are parameters: which code points are decimal digits
    and with what value, and which are white space. *)
From Verif Require Import Base.
From Coq Require Import QArith.
From Coq Require String Ascii.
Local Open Scope Z_scope.

Definition pystr := list Z.
Definition pystr_eqb (a b : pystr) : bool := if list_eq_dec Z.eq_dec a b then true else false.
(** ASCII literals. *)
Definition str (s : String.string) : pystr :=
  map (fun c => Z.of_nat (Ascii.nat_of_ascii c)) (String.list_ascii_of_string s).

Section Unicode.
Variable digit_value : Z -> option Z. (* decimal digits (category Nd) *)
Variable is_space : Z -> bool.

(** ** re.match as backtracking search: all remainders, in the order they are
    tried. *)
Definition matcher := pystr -> list pystr.
Definition cls (p : Z -> bool) : matcher :=
  fun s => match s with c :: s' => if p c then [s'] else [] | [] => [] end.
Definition seq_re (a b : matcher) : matcher := fun s => flat_map b (a s).
(** Greedy repetition; an iteration that consumes nothing ends it.  The fuel is
    the length of the subject, which bounds the number of iterations. *)
Fixpoint star_fuel (fuel : nat) (a : matcher) (s : pystr) : list pystr :=
  match fuel with
  | O => [s]
  | S f => flat_map (fun s' => if (length s' <? length s)%nat then star_fuel f a s' else []) (a s) ++ [s]
  end.
Definition star (a : matcher) : matcher := fun s => star_fuel (length s) a s.
Definition plus (a : matcher) : matcher := seq_re a (star a).
(** [$] without MULTILINE: at the end or before a final newline. *)
Definition at_end (s : pystr) : bool := match s with [] => true | [10] => true | _ => false end.

(** [a-zA-Z\d] and [\-_]; [\d] is Unicode aware for str patterns. *)
Definition is_letter (c : Z) : bool := ((97 <=? c) && (c <=? 122)) || ((65 <=? c) && (c <=? 90)).
Definition is_digit (c : Z) : bool := match digit_value c with Some _ => true | None => false end.
Definition name_char (c : Z) : bool := is_letter c || is_digit c.
Definition name_mark (c : Z) : bool := (c =? 45) || (c =? 95).
(** parameter_range.py 8: one or more groups, each one or more name characters
    followed by any number of marks. *)
Definition name_checker : matcher := plus (seq_re (plus (cls name_char)) (star (cls name_mark))).
(** parameter_range.py 11-14. *)
Definition is_valid_param_name (name : pystr) : bool := existsb at_end (name_checker name).

(** 24-29; only the stored name matters. *)
Definition parameter_range (name : pystr) : outcome pystr :=
  if is_valid_param_name name then Ok name else Fail ValueError.
(** 36-44, 50-58, 64-73, 81-89: the four ranges with bounds check alike. *)
Record bounded_range := mkRange { rg_name : pystr; rg_low : Q; rg_high : Q }.
Definition make_range (name : pystr) (low high : Q) : outcome bounded_range :=
  obind (parameter_range name) (fun n =>
  if negb (Qle_bool low high) then Fail ValueError else Ok (mkRange n low high)).

(** ** int(str): white space around, a sign, digits separated by at most one
    underscore; more than [max_digits] digits are refused
    (sys.get_int_max_str_digits, 4300 by default). *)
Variable max_digits : nat.

Fixpoint lstrip (s : pystr) : pystr :=
  match s with c :: s' => if is_space c then lstrip s' else s | [] => [] end.
Definition strip (s : pystr) : pystr := rev (lstrip (rev (lstrip s))).

(** [prev_digit] says whether the character before was a digit. *)
Fixpoint int_body (prev_digit : bool) (s : pystr) : option (list Z) :=
  match s with
  | [] => if prev_digit then Some [] else None
  | c :: s' =>
      match digit_value c with
      | Some d => match int_body true s' with Some ds => Some (d :: ds) | None => None end
      | None => if (c =? 95) && prev_digit then int_body false s' else None
      end
  end.
Definition horner (ds : list Z) : Z := fold_left (fun a d => a * 10 + d) ds 0.
Definition unsigned_int (s : pystr) : option Z :=
  match int_body false s with
  | Some ds => if (max_digits <? length ds)%nat then None else Some (horner ds)
  | None => None
  end.
Definition py_int (s : pystr) : option Z :=
  match strip s with
  | 45 :: s' => match unsigned_int s' with Some n => Some (- n) | None => None end
  | 43 :: s' => unsigned_int s'
  | s' => unsigned_int s'
  end.

(** _threading.py 5-18.  [env] is the variable's value if set, [cpu_count]
    what os.cpu_count() returns.  [x or 1] is 1 for "", None and 0. *)
Definition get_n_threads (n_threads : option Z) (env : option pystr) (cpu_count : option Z) : outcome Z :=
  match n_threads with
  | Some n => Ok n
  | None =>
      match env with
      | Some [] => Ok 1
      | Some s => match py_int s with Some n => Ok n | None => Fail ValueError end
      | None => match cpu_count with Some 0 | None => Ok 1 | Some n => Ok n end
      end
  end.
End Unicode.
