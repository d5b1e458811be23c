(** Contracts of the oracles of Split_Model.v and vocabulary of C17-C22, C43. *)
From Verif Require Import Base.
From Verif Require Export Rec_Model Split_Model.
Local Open Scope nat_scope.

(** Rounding of floating point results: monotone, exact on the integers up to [B]
    (2^53 for double). *)
Definition faithful (rnd : Q -> Q) (B : nat) : Prop :=
  (forall a b, (a <= b -> rnd a <= rnd b)%Q) /\ (forall n, n <= B -> (rnd (inject_Z (Z.of_nat n)) == inject_Z (Z.of_nat n))%Q).
Definition shuffles {X} (sh : list X -> list X) : Prop := forall l, Permutation (sh l) l.
Definition row_shuffles (sh : nat -> nat -> list nat) : Prop := forall r n, Permutation (sh r n) (seq 0 n).
Definition lists_distinct {X} (uniq : listing -> list X -> list X) : Prop := forall s l, NoDup (uniq s l) /\ forall x, In x (uniq s l) <-> In x l.
(** A sort by (user, time): rows of one user end up in order of time. *)
Definition sorts_time {U I T} (le : T -> T -> Prop) (sort : list (event U I T) -> list (event U I T)) : Prop :=
  forall l, Permutation (sort l) l /\ StronglySorted (fun a b => ev_u a = ev_u b -> le (ev_t a) (ev_t b)) (sort l).

(** Entry of a matrix given by rows. *)
Definition row_entry (rows : list (list (nat * Q))) (r c : nat) : Q :=
  fold_right Qplus 0%Q (map snd (filter (fun e => fst e =? c) (nth r rows []))).
(** Integer part (towards zero). *)
Definition trunc (q : Q) : Z := Z.quot (Qnum q) (Zpos (Qden q)).
Definition int64_range (q : Q) : Prop := (- 2 ^ 63 <= trunc q < 2 ^ 63)%Z.

(** The stored entries of a matrix with ids in place of indices. *)
Definition labels {U I} (us : list U) (is : list I) (m : coo) : list (U * I * Q) :=
  flat_map (fun e => match nth_error us (fst (fst e)), nth_error is (snd (fst e)) with
                     | Some x, Some y => [(x, y, snd e)]
                     | _, _ => []
                     end) (c_ent m).
(** All entries of the five matrices of a split. *)
Definition learn_labels {U I} (is : list I) (p : pair_data U) := labels (pd_users p) is (pd_train p).
Definition held_labels {U I} (is : list I) (p : pair_data U) := labels (pd_users p) is (pd_test p).
Definition all_labels {U I} (ds : datasets U I) : list (U * I * Q) :=
  learn_labels (ds_items ds) (ds_train ds) ++ held_labels (ds_items ds) (ds_train ds) ++
  learn_labels (ds_items ds) (ds_val ds) ++ held_labels (ds_items ds) (ds_val ds) ++
  learn_labels (ds_items ds) (ds_test ds) ++ held_labels (ds_items ds) (ds_test ds).
Definition all_users {U I} (ds : datasets U I) : list U := pd_users (ds_train ds) ++ pd_users (ds_val ds) ++ pd_users (ds_test ds).

Section Oracles.
Context {U I T : Type}.
(** Every oracle meets its contract. *)
Record oracles_ok (uniq_u : listing -> list U -> list U) (uniq_i : listing -> list I -> list I) (le : T -> T -> Prop) (sort_time : list (event U I T) -> list (event U I T)) : Prop := {
  ok_uniq_u : lists_distinct uniq_u;
  ok_uniq_i : lists_distinct uniq_i;
  ok_sort : sorts_time le sort_time }.
Record choices_ok (ch : choices U) : Prop := {
  ok_first : shuffles (ch_first ch);
  ok_second : shuffles (ch_second ch);
  ok_val : row_shuffles (ch_val ch);
  ok_test : row_shuffles (ch_test ch) }.
End Oracles.
