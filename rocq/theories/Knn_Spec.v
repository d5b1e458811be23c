(** Vocabulary for the nearest-neighbour properties, stated without the
    helpers of the model. *)
From Verif Require Import Base Knn_Model.
From Coq Require Import QArith Reals.
Local Open Scope nat_scope.

(** What is assumed of the library calls. *)

(** Eigen stores the entries of a product row in some order. *)
Definition layout_ok {V} (layout : srow V -> srow V) : Prop :=
  forall r, Permutation (layout r) r.

(** [comp] is a strict weak order, as the C++ standard requires of the
    comparator given to std::nth_element. *)
Definition strict_weak (comp : nat -> nat -> bool) : Prop :=
  (forall a, comp a a = false) /\
  (forall a b c, comp a b = true -> comp b c = true -> comp a c = true) /\
  (forall a b c, comp a b = true -> comp a c = true \/ comp c b = true).

(** The C++ standard on std::nth_element: the range is permuted such that no
    element behind position [k] compares less than one in front of it. *)
Definition nth_element_ok
    (nth_element : (nat -> nat -> bool) -> nat -> list nat -> list nat) : Prop :=
  forall comp k l,
    strict_weak comp -> k <= length l ->
    Permutation (nth_element comp k l) l /\
    forall a b, In a (firstn k (nth_element comp k l)) ->
                In b (skipn k (nth_element comp k l)) -> comp b a = false.

(** std::sort on integers. *)
Definition sort_nat_ok (sort_nat : list nat -> list nat) : Prop :=
  forall l, Permutation (sort_nat l) l /\ StronglySorted le (sort_nat l).

(** The comparisons are those of a linear order (no NaN). *)
Definition linear_values {V} (vneqb vgtb : V -> V -> bool) : Prop :=
  (forall a, vneqb a a = false) /\
  (forall a b, vneqb a b = true <-> vgtb a b = true \/ vgtb b a = true) /\
  (forall a b c, vgtb a b = true -> vgtb b c = true -> vgtb a c = true) /\
  (forall a b c, vgtb a b = true -> vgtb a c = true \/ vgtb c b = true) /\
  (forall a, vgtb a a = false).

(** [e] ranks before [d]: larger value, or the same value and a smaller
    column. *)
Definition ranks_before {V} (vneqb vgtb : V -> V -> bool) (e d : nat * V) : Prop :=
  vgtb (snd e) (snd d) = true \/ (vneqb (snd e) (snd d) = false /\ fst e < fst d).

(** [kept] is the restriction of the row [full] to its [k] best entries, in
    increasing column order. *)
Definition top_k_of {V} (vneqb vgtb : V -> V -> bool) (k : nat) (full kept : srow V) : Prop :=
  StronglySorted lt (map fst kept) /\
  length kept = min k (length full) /\
  incl kept full /\
  (forall e d, In e kept -> In d full -> ~ In d kept -> ranks_before vneqb vgtb e d).

(** A row of a well-formed matrix with [n] columns: distinct columns in
    range. *)
Definition good_row {V} (n : nat) (r : srow V) : Prop :=
  NoDup (map fst r) /\ (forall c, In c (map fst r) -> c < n).

Definition good_mat {V} (X : smat V) : Prop :=
  forall r, In r (m_rows X) -> good_row (m_cols X) r.

(** The stored values at position (i, j): none or one in a well-formed
    matrix. *)
Definition stored {V} (X : smat V) (i j : nat) : list V :=
  map snd (filter (fun e => fst e =? j) (nth i (m_rows X) [])).

(** Features of a row and their overlap. *)
Definition support {V} (r : srow V) : list nat := map fst r.
Definition common (a b : list nat) : nat := length (filter (fun c => existsb (Nat.eqb c) b) a).

(** Sum of a list of rationals. *)
Definition Qsum (l : list Q) : Q := fold_right Qplus 0%Q l.
Definition Rsum (l : list R) : R := fold_right Rplus 0%R l.

(** What every similarity constructor gives: a computer whose result rows
    have one column for every row of the matrix given, which treats the rows
    of its argument one by one, with at least one thread and a positive chunk
    size. *)
Definition well_built {V} (create : smat V -> outcome (computer (V:=V))) : Prop :=
  forall Y c, create Y = Ok c ->
    cp_N c = length (m_rows Y) /\ cp_features c = m_cols Y /\
    1 <= cp_threads c /\ 1 <= cp_chunk c /\
    exists f, (forall target s e, cp_block c target s e = map f (middle_rows target s e)) /\
              (forall t, good_row (cp_N c) (f t)).

(** Feature weighting keeps the shape of the matrix. *)
Definition keeps_shape {V} (weight : smat V -> smat V) : Prop :=
  forall X, m_cols (weight X) = m_cols X /\ length (m_rows (weight X)) = length (m_rows X).

(** The same interactions except possibly with item [i]. *)
Definition same_except {V} (i : nat) (x x' : srow V) : Prop :=
  filter (fun e => negb (fst e =? i)) x = filter (fun e => negb (fst e =? i)) x'.

(** Every stored value is positive. *)
Definition positive_values (X : smat Q) : Prop :=
  forall r e, In r (m_rows X) -> In e r -> (0 < snd e)%Q.

(** compute_similarity on exact rationals and exact reals. *)
Definition compute_Q nth_element sort_nat := cp_compute 0%Q Qplus qneqb qgtb nth_element sort_nat.
Definition compute_R nth_element sort_nat := cp_compute 0%R Rplus rneqb rgtb nth_element sort_nat.

(** The library calls behave as specified. *)
Definition library_ok (layout_Q : srow Q -> srow Q) (layout_R : srow R -> srow R)
    nth_element sort_nat : Prop :=
  layout_ok layout_Q /\ layout_ok layout_R /\ nth_element_ok nth_element /\ sort_nat_ok sort_nat.
