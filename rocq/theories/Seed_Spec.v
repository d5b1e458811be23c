(** Vocabulary of C68: what is asked of the generators, and how two runs are
    compared. *)
From Verif Require Import Base.
From Verif Require Export Split_Spec Seed_Model.
Local Open Scope nat_scope.

(** A shuffle of [n] elements is a permutation of the positions. *)
Definition permutes {S} (draw : S -> nat -> list nat * S) : Prop := forall s n, Permutation (fst (draw s n)) (seq 0 n).

(** A rule that holds out no more than another. *)
Definition holds_no_more (s s' : split_rule) : Prop :=
  match s, s' with
  | FixedN n, FixedN n' => n <= n'
  | ByRatio q c, ByRatio q' c' => (q <= q')%Q /\ (c = true -> c' = true)
  | _, _ => False
  end.

(** The triplets of one row. *)
Definition in_row (r : nat) (m : coo) : list (nat * nat * Q) := filter (fun t => fst (fst t) =? r) (c_ent m).

(** Options that choose the same users: the hold-out of interactions, the
    ratings and the time column may differ. *)
Definition same_user_choice (o o' : options) : Prop :=
  o_n_val o = o_n_val o' /\ o_n_test o = o_n_test o' /\ o_val_ratio o = o_val_ratio o' /\ o_test_ratio o = o_test_ratio o'.

(** Two runs of Python may iterate over a set in different orders (string
    hashes are salted); nothing else differs. *)
Definition same_but_sets {X} (uniq uniq' : listing -> list X -> list X) : Prop :=
  forall l, uniq ByAppearance l = uniq' ByAppearance l /\ uniq BySort l = uniq' BySort l.

(** The same interactions in each matrix, in whatever order of rows and columns. *)
Definition same_part {U I} (is is' : list I) (p p' : pair_data U) : Prop :=
  Permutation (learn_labels is p) (learn_labels is' p') /\ Permutation (held_labels is p) (held_labels is' p').
Definition same_split {U I} (d d' : datasets U I) : Prop :=
  same_part (ds_items d) (ds_items d') (ds_train d) (ds_train d') /\
  same_part (ds_items d) (ds_items d') (ds_val d) (ds_val d') /\
  same_part (ds_items d) (ds_items d') (ds_test d) (ds_test d').
