(** Vocabulary for scores that are not numbers. *)
From Verif Require Import Base Sched_Model.
From Verif Require Export Rec_Spec RecNan_Model.
Local Open Scope nat_scope.

(** numpy sorts NaN behind everything else. *)
Definition fle (a b : fscore) : Prop :=
  match a, b with
  | _, NaN => True
  | NaN, Num _ => False
  | Num a, Num b => scmp a b <> Gt
  end.
Definition fsorts (argsort : list fscore -> list nat) : Prop :=
  forall v, Permutation (argsort v) (seq 0 (length v)) /\
    StronglySorted (fun a b => fle (nth a v NaN) (nth b v NaN)) (argsort v).

(** [a > b] for numbers. *)
Definition above_num (a b : fscore) : Prop :=
  match a, b with Num a, Num b => scmp a b = Gt | _, _ => False end.
(** Contract of [std::partial_sort], for lists on which the comparison is a
    strict weak order. *)
Definition fpartially_sorts (psort : nat -> list (nat * fscore) -> list (nat * fscore)) : Prop :=
  forall m l, strict_weak fgreater l = true ->
    Permutation (psort m l) l /\
    StronglySorted (fun a b => ~ above_num (snd b) (snd a)) (firstn m (psort m l)) /\
    forall a b, In a (firstn m (psort m l)) -> In b (skipn m (psort m l)) -> ~ above_num (snd b) (snd a).

(** Number of a score, minus infinity for NaN. *)
Definition unnan (s : fscore) : score := match s with Num s => s | NaN => NegInf end.
Definition is_nan (s : fscore) : bool := match s with NaN => true | Num _ => false end.

Section Ids.
Context {I : Type}.
Variable eq_dec : forall a b : I, {a = b} + {a <> b}.
(** The (id, score) pairs of one user from which recommendations are drawn. *)
Definition foffered (ids : list I) (row : list fscore) (allowed : option (list I)) : list (I * fscore) :=
  match allowed with
  | None => combine ids row
  | Some a => flat_map (fun x => filter (fun p => if eq_dec (fst p) x then true else false) (combine ids row)) a
  end.
(** Offered, not forbidden, NaN. *)
Definition pool_nan (ids : list I) (row : list fscore) (allowed forbidden : option (list I)) : list (I * fscore) :=
  filter (fun p => is_nan (snd p) && negb (banned eq_dec forbidden (fst p))) (foffered ids row allowed).
(** The scores compared by the batch call: converted to float, minus infinity
    for forbidden items. *)
Definition compared (fl : score -> score) (ids : list I) (row : list fscore) (allowed forbidden : option (list I)) : list fscore :=
  map (fun p => if banned eq_dec forbidden (fst p) then Num NegInf else ffl fl (snd p)) (foffered ids row allowed).
End Ids.

(** A NaN next to two different numbers. *)
Definition mixed (l : list fscore) : Prop :=
  In NaN l /\ exists a b, In (Num a) l /\ In (Num b) l /\ scmp a b = Lt.
