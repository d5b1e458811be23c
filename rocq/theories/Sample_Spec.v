(** Vocabulary for random example data. *)
From Verif Require Import Base Sample_Model.
From Coq Require Import Reals.
Local Open Scope R_scope.

(** The expectation of [f] over independent coins with the given probabilities. *)
Fixpoint expectation (ps : list R) (f : list bool -> R) : R :=
  match ps with
  | [] => f []
  | p :: ps => p * expectation ps (fun l => f (true :: l)) + (1 - p) * expectation ps (fun l => f (false :: l))
  end.

(** The share of ones in a matrix with the given rows of column numbers. *)
Definition density (n_users n_items : nat) (rows : list (list nat)) : R :=
  INR (length (concat rows)) / INR (n_users * n_items).

(** The expected density of the data drawn with all biases equal to [b]. *)
Definition density_at (user_factors item_factors : list (list R)) (b : R) : R :=
  Rsum (map (fun u => Rsum (map (fun v => / (1 + exp (- (vdot u v + b)))) item_factors)) user_factors)
  / INR (length user_factors * length item_factors).

(** [x] moved into the interval from [lo] to [hi]. *)
Definition clamp (lo hi x : R) : R := Rmax lo (Rmin hi x).

(** The result where there is one. *)
Definition value_or (A : Type) (d : A) (x : outcome A) : A := match x with Ok a => a | _ => d end.
Arguments value_or {A} d x.
