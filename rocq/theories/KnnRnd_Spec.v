(** Vocabulary for the similarities in floating point. *)
From Verif Require Import Base Knn_Model Knn_Spec.
From Coq Require Import QArith Reals Qreals.
Local Open Scope nat_scope.

(** A square root whose square is off by a factor of at most (1 - 1/B)^3: the
    correctly rounded root of a number rounded to the format.  Asked for numbers
    between 1/B^2 and B^2. *)
Record sqrt_rounding (B : positive) (rsqrt : Q -> Q) : Prop := {
  sq_zero : forall q, (q == 0 -> rsqrt q == 0)%Q;
  sq_nonneg : forall q, (0 <= q -> 0 <= rsqrt q)%Q;
  sq_error : forall q, ((1 # B * B) <= q -> q <= inject_Z (Zpos (B * B)) ->
    (1 - (1 # B)) * (1 - (1 # B)) * (1 - (1 # B)) * q <= rsqrt q * rsqrt q /\
    (1 - (1 # B)) * (1 - (1 # B)) * (1 - (1 # B)) * (rsqrt q * rsqrt q) <= q)%Q }.

(** The documented values for two feature sets (similarities.hpp 125, 179),
    with the 1e-6 the code adds. *)
Definition count (n : nat) : Q := inject_Z (Z.of_nat n).
Definition jaccard_index (s : Q) (a b : list nat) : Q :=
  (count (common a b) / (count (length a) + count (length b) - count (common a b) + s + (1 # 1000000)))%Q.
Definition tversky_index (s alpha beta : Q) (a b : list nat) : Q :=
  (count (common a b) /
   (count (common a b) + alpha * (count (length a) - count (common a b))
    + beta * (count (length b) - count (common a b)) + s + (1 # 1000000)))%Q.

(** Zero, or between 1/B and B. *)
Definition moderate (B : positive) (q : Q) : Prop := (q == 0 \/ 1 # B <= q /\ q <= inject_Z (Zpos B))%Q.
(** Every stored value is moderate. *)
Definition moderate_values (K : positive) (X : smat Q) : Prop :=
  forall r e, In r (m_rows X) -> In e r -> moderate K (snd e).

(** The same matrix with real numbers. *)
Definition real_mat (X : smat Q) : smat R :=
  {| m_cols := m_cols X; m_rows := map (map (fun e => (fst e, Q2R (snd e)))) (m_rows X) |}.

(** The value of a row in a column, the scalar product of two rows, and the
    documented cosine (similarities.hpp 38-42) as a real number. *)
Definition value (x : srow Q) (c : nat) : Q := Qsum (map snd (filter (fun e => fst e =? c) x)).
Definition dot (t x : srow Q) : Q := Qsum (map (fun e => snd e * value x (fst e))%Q t).
Definition cosine_index (s : Q) (t x : srow Q) : R :=
  (Q2R (dot t x) / (sqrt (Q2R (dot t t)) * sqrt (Q2R (dot x x)) + Q2R s + / 1000000))%R.

(** Rows sorted by column, as scipy's canonical format has them. *)
Definition sorted_rows (X : smat Q) : Prop := forall r, In r (m_rows X) -> StronglySorted lt (map fst r).
(** Every stored value is a natural number. *)
Definition whole_values (X : smat Q) : Prop :=
  forall r e, In r (m_rows X) -> In e r -> exists m, (snd e == count m)%Q.
(** No stored value is negative. *)
Definition nonneg_values (X : smat Q) : Prop := forall r e, In r (m_rows X) -> In e r -> (0 <= snd e)%Q.
