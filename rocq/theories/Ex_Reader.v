(** Concrete files for C65. *)
From Verif Require Import Base PyStr_Model PyStr_Spec Mind_Model Mind_Spec Reader_Model Reader_Spec.
From Coq Require Import String.
From Coq Require Import List.
Local Open Scope Z_scope.
Definition s (x : string) : pystr := str x.
Definition nl (x : string) : pystr := str x ++ [10].
(** Three users; the second one has no items. *)
Definition users_file : list pystr := [nl "2 7 11"%string; nl "0"%string; nl "1 3"%string].
Definition users_table : list (list Z) := [[7; 11]; []; [3]].
(** A blank line after a user without items. *)
Definition blank_file : pystr := nl "0"%string ++ [10] ++ nl "1 5"%string.
Definition not_na (x : pystr) : bool := false.
Definition two_ratings : list (pystr * pystr * pystr * pystr) :=
  [(s "1", s "1193", s "5", s "978300760"); (s "1", s "661", s "3", s "978302109")]%string.
Definition genre_table : list (pystr * pystr) := [(s "unknown", s "0"); (s "Action", s "1"); (s "Film-Noir", s "10")]%string.
Definition two_items : list item_row :=
  [mkItem 7 [Some (s "Toy Story (1995)")] [Some 0; Some 1; Some 1]; mkItem 3 [Some (s "GoldenEye (1995)")] [Some 0; Some 1; Some 0]]%string.
