(** Vocabulary for names and integer literals. *)
From Verif Require Import Base PyStr_Model.
Local Open Scope Z_scope.

(** A Unicode table that agrees with ASCII. *)
Definition ascii_digits (digit_value : Z -> option Z) : Prop :=
  forall c, 0 <= c < 128 -> digit_value c = if (48 <=? c) && (c <=? 57) then Some (c - 48) else None.
Definition ascii_spaces (is_space : Z -> bool) : Prop :=
  forall c, 0 <= c < 128 -> is_space c = ((9 <=? c) && (c <=? 13)) || ((28 <=? c) && (c <=? 32)).

Definition letter_or_digit (digit_value : Z -> option Z) (c : Z) : Prop :=
  (97 <= c <= 122 \/ 65 <= c <= 90) \/ digit_value c <> None.

(** The documented language: a letter or digit, then letters, digits, '-', '_'. *)
Definition documented_name (digit_value : Z -> option Z) (s : pystr) : Prop :=
  exists c w, s = c :: w /\ letter_or_digit digit_value c /\
    forall x, In x w -> letter_or_digit digit_value x \/ x = 45 \/ x = 95.

(** Digits [ds] written with at most one underscore between two of them. *)
Inductive grouped (digit_value : Z -> option Z) : pystr -> list Z -> Prop :=
| grouped_one c d : digit_value c = Some d -> grouped digit_value [c] [d]
| grouped_next c d s ds : digit_value c = Some d -> grouped digit_value s ds -> grouped digit_value (c :: s) (d :: ds)
| grouped_under c d s ds : digit_value c = Some d -> grouped digit_value s ds -> grouped digit_value (c :: 95 :: s) (d :: ds).

(** Value of a sequence of decimal digits, most significant first. *)
Fixpoint decimal (ds : list Z) : Z :=
  match ds with [] => 0 | d :: ds' => d * 10 ^ Z.of_nat (length ds') + decimal ds' end.

(** White space, a sign, digits, white space. *)
Definition integer_literal (digit_value : Z -> option Z) (is_space : Z -> bool) (max_digits : nat) (s : pystr) (n : Z) : Prop :=
  exists left sign body right ds, s = left ++ sign ++ body ++ right /\
    (forall c, In c left -> is_space c = true) /\ (forall c, In c right -> is_space c = true) /\
    grouped digit_value body ds /\ (length ds <= max_digits)%nat /\
    ((sign = [45] /\ n = - decimal ds) \/ ((sign = [] \/ sign = [43]) /\ n = decimal ds)).
