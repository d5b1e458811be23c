(** Vocabulary for the similarities that use powers, in floating point. *)
From Verif Require Import Base Knn_Model Knn_Spec KnnRnd_Model KnnRnd_Spec RndScore_Spec.
From Coq Require Import QArith Reals Qreals.
Local Open Scope nat_scope.

(** [b] is [a] up to [p] roundings. *)
Definition roundings_apart (B : positive) (p : nat) (a b : R) : Prop :=
  (a * (1 - / IZR (Zpos B)) ^ p <= b /\ b * (1 - / IZR (Zpos B)) ^ p <= a)%R.

(** std::pow with the exponent [a] is as good as [p] roundings on positive
    arguments whose power lies between 1/B and B. *)
Definition pow_rounding (B : positive) (p : nat) (a : Q) (rpow : Q -> Q -> Q) : Prop :=
  forall x, (0 < x)%Q -> (/ IZR (Zpos B) <= Rpower (Q2R x) (Q2R a) <= IZR (Zpos B))%R ->
  roundings_apart B p (Rpower (Q2R x) (Q2R a)) (Q2R (rpow x a)).
(** The same for every entry of an array; entries outside that range do not
    disturb the others. *)
Definition array_pow_rounding (B : positive) (p : nat) (a : Q) (apow : list Q -> Q -> list Q) : Prop :=
  forall l, length (apow l a) = length l /\
  forall k, k < length l -> (0 < nth k l 0)%Q -> (/ IZR (Zpos B) <= Rpower (Q2R (nth k l 0%Q)) (Q2R a) <= IZR (Zpos B))%R ->
  roundings_apart B p (Rpower (Q2R (nth k l 0%Q)) (Q2R a)) (Q2R (nth k (apow l a) 0%Q)).

(** The sum of the powers of some ratings. *)
Definition mass (a : Q) (l : list Q) : R := Rsum (map (fun x => Rpower (Q2R x) (Q2R a)) l).
(** The random walk of P3alpha: from item [i] to a user who interacted with it,
    from a user to one of the user's items. *)
Definition to_user (a : Q) (X : smat Q) (i u : nat) : R := (mass a (stored X u i) / mass a (map snd (column X i)))%R.
Definition to_item (a : Q) (X : smat Q) (u j : nat) : R := (mass a (stored X u j) / mass a (map snd (nth u (m_rows X) [])))%R.
Definition walk (a : Q) (X : smat Q) (i j : nat) : R :=
  Rsum (map (fun u => to_user a X i u * to_item a X u j)%R (seq 0 (length (m_rows X)))).
(** RP3beta: the same, divided by the popularity of [j] to the power beta. *)
Definition popularity (X : smat Q) (j : nat) : R := Rsum (map Q2R (map snd (column X j))).
Definition rewalk (a b : Q) (X : smat Q) (i j : nat) : R := (walk a X i j / Rpower (popularity X j) (Q2R b))%R.

(** Ratings that are positive and of moderate size, as are their powers. *)
Definition moderate_powers (K : positive) (a : Q) (X : smat Q) : Prop :=
  forall r e, In r (m_rows X) -> In e r -> (0 < snd e)%Q /\ (/ IZR (Zpos K) <= Rpower (Q2R (snd e)) (Q2R a) <= IZR (Zpos K))%R.
(** The ratings lie between 1/K and K, and so do the powers of the popularities. *)
Definition moderate_popularity (K : positive) (b : Q) (X : smat Q) : Prop :=
  (forall r e, In r (m_rows X) -> In e r -> (1 # K <= snd e /\ snd e <= inject_Z (Zpos K))%Q) /\
  (forall j, column X j <> [] -> (/ IZR (Zpos K) <= Rpower (popularity X j) (Q2R b) <= IZR (Zpos K))%R).

(** The documented asymmetric cosine (similarities.hpp 75-86). *)
Definition asymmetric_index (s a : Q) (t x : srow Q) : R :=
  (Q2R (dot t x) / (Rpower (Q2R (dot t t)) (Q2R a) * Rpower (Q2R (dot x x)) (1 - Q2R a) + Q2R s + / 1000000))%R.
(** Stored ratings between 1/K and K. *)
Definition positive_moderate (K : positive) (X : smat Q) : Prop :=
  forall r e, In r (m_rows X) -> In e r -> (1 # K <= snd e /\ snd e <= inject_Z (Zpos K))%Q.

(** The documented score of item [j] for the profile [x]: the kept weights of the
    items of the profile, weighted by the interactions. *)
Definition walk_score (weight : nat -> nat -> R) (W : smat Q) (x : srow Q) (j : nat) : R :=
  Rsum (map (fun e => if neighbour W (fst e) j then Q2R (snd e) * weight (fst e) j else 0)%R x).
