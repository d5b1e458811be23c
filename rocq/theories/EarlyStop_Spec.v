(** Vocabulary for the early stopping properties. *)
From Verif Require Import Base EarlyStop_Model.
From Coq Require Import QArith.
Local Open Scope nat_scope.

(** Scores of the validations 1, 2, ... *)
Definition scores := nat -> fval.

(** [a > b] for floats; NaN is neither above nor below anything.  The
    comparison [fgt] of the model is this relation (C35_order). *)
Inductive exceeds : fval -> fval -> Prop :=
| exceeds_fin p q : (q < p)%Q -> exceeds (Fin p) (Fin q)
| exceeds_fin_neg p : exceeds (Fin p) NegInf
| exceeds_pos_fin q : exceeds PosInf (Fin q)
| exceeds_pos_neg : exceeds PosInf NegInf.

(** Validation [b] is the first best one of the validations 1..m: above -inf,
    beaten by none, better than every earlier one (or that one is NaN). *)
Definition first_best (ss : scores) (m b : nat) : Prop :=
  1 <= b <= m /\ fgt (ss b) NegInf = true /\
  (forall i, 1 <= i <= m -> fgt (ss i) (ss b) = false) /\
  (forall i, 1 <= i < b -> fgt (ss b) (ss i) = true \/ ss i = NaN).

(** Validation [i] improves on all earlier ones. *)
Definition improves (ss : scores) (i : nat) : Prop :=
  fgt (ss i) NegInf = true /\ forall k, 1 <= k < i -> fgt (ss i) (ss k) = true \/ ss k = NaN.

(** The last [d] of the validations 1..m do not improve. *)
Definition degraded (ss : scores) (d m : nat) : Prop :=
  d <= m /\ forall i, m - d < i <= m -> ~ improves ss i.

(** The trainer after [k] epochs; the score of its [i]-th validation, one
    every [v] epochs; the first [m] validations with their epochs. *)
Definition trained {T : Type} (create : T) (run : T -> T) (k : nat) : T := Nat.iter k run create.
Definition validation {T : Type} (create : T) (run : T -> T) (score : T -> fval) (v i : nat) : fval :=
  score (trained create run (i * v)).
Definition validations {T : Type} (create : T) (run : T -> T) (score : T -> fval) (v m : nat) : list (Z * fval) :=
  map (fun i => (Z.of_nat (i * v), validation create run score v i)) (seq 1 m).

(** A run makes exactly [m] validations: it stops at the first one that ends
    [D] without improvement, or after [M]. *)
Definition stops_after (ss : scores) (D M m : nat) : Prop :=
  m <= M /\ (forall m', m' < m -> ~ degraded ss D m') /\ (degraded ss D m \/ m = M).

(** The pruner, asked with the epoch (counted from 0) and the score, wants to
    stop the run at validation [m] and at none before, and patience lasted
    until then. *)
Definition pruned_at (ss : scores) (v D : nat) (prune : Z -> fval -> bool) (m : nat) : Prop :=
  1 <= m /\ prune (Z.of_nat (m * v) - 1)%Z (ss m) = true /\
  (forall m', 1 <= m' < m -> prune (Z.of_nat (m' * v) - 1)%Z (ss m') = false) /\
  forall m', m' <= m -> ~ degraded ss D m'.
