(** Vocabulary of C69. *)
From Coq Require Import Sorted.
From Verif Require Import Base.
From Verif Require Export Split_Spec Pair_Model.
Local Open Scope nat_scope.

(** Every stored position lies in the matrix. *)
Definition in_shape (m : coo) : Prop := forall r c v, In (r, c, v) (c_ent m) -> r < c_rows m /\ c < c_cols m.
(** The same of an optional matrix. *)
Definition some_shape (test : option coo) : Prop := match test with Some x => in_shape x | None => True end.
(** A position for which a value is stored. *)
Definition occupied (m : coo) (r c : nat) : Prop := exists v, In (r, c, v) (c_ent m).
(** A zero is stored somewhere (after summing duplicates). *)
Definition stores_zero (m : coo) : Prop := exists r c, occupied m r c /\ (entry m r c == 0)%Q.

(** The arguments the constructor accepts. *)
Definition pair_shapes {U I} (users : list U) (train : coo) (test : option coo) (items : option (list I)) : Prop :=
  length users = c_rows train /\
  match test with Some x => c_rows x = c_rows train /\ c_cols x = c_cols train | None => True end /\
  match items with Some is => length is = c_cols train | None => True end.
(** The entry of the optional test matrix. *)
Definition test_entry (test : option coo) (r c : nat) : Q := match test with Some x => entry x r c | None => 0%Q end.

(** Positions in the order of rows, and of columns within a row. *)
Definition position_lt (a b : nat * nat) : Prop := fst a < fst b \/ (fst a = fst b /\ snd a < snd b).
(** The frame lists the stored entries of the matrix, each once, in the order
    of their positions, with the ids of their row and column. *)
Definition frame_of {U I} (users : list U) (items : list I) (m : coo) (rows : list (U * I * Q)) : Prop :=
  exists ps, StronglySorted position_lt ps /\ (forall r c, In (r, c) ps <-> occupied m r c) /\
    Forall2 (fun p x => nth_error users (fst p) = Some (fst (fst x)) /\ nth_error items (snd p) = Some (snd (fst x)) /\ (snd x == entry m (fst p) (snd p))%Q) ps rows.
(** The rows of a frame as a data frame for [df_to_sparse]. *)
Definition frame_events {U I} (rows : list (U * I * Q)) : list (event U I unit) :=
  map (fun x => mkEvent (fst (fst x)) (snd (fst x)) tt (snd x)) rows.

(** Rows of a matrix below those of another one. *)
Definition stacked (a b m : coo) : Prop :=
  c_rows m = c_rows a + c_rows b /\ c_cols m = c_cols a /\
  (forall r c, r < c_rows a -> (entry m r c == entry a r c)%Q) /\
  (forall r c, (entry m (c_rows a + r) c == entry b r c)%Q).

(** The first row of the data frame for its user and item. *)
Definition first_row {U I T} (df : list (event U I T)) (e : event U I T) : Prop :=
  exists before after, df = before ++ e :: after /\ forall e', In e' before -> ~ (ev_u e' = ev_u e /\ ev_i e' = ev_i e).
(** The two frames of a part of a split: [d] are the interactions of its users. *)
Definition lists_interactions {U I T} (rated : bool) (d : event U I T -> Prop) (learn held : list (U * I * Q)) : Prop :=
  NoDup (map fst (learn ++ held)) /\
  (forall x y, In (x, y) (map fst (learn ++ held)) <-> exists e, d e /\ ev_u e = x /\ ev_i e = y) /\
  (forall x y v, In (x, y, v) (learn ++ held) -> exists e, d e /\ ev_u e = x /\ ev_i e = y /\ (v == if rated then inject_Z (trunc (ev_r e)) else 1)%Q).
