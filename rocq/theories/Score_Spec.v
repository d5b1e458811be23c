(** What the scores should be, as plain sums over all items, users or latent
    dimensions. *)
From Coq Require Import QArith.
From Verif Require Import Base Eval_Model Score_Model.
Local Open Scope nat_scope.

Fixpoint qsum (n : nat) (f : nat -> Q) : Q :=
  match n with 0 => 0%Q | S n' => (qsum n' f + f n')%Q end.

Definition cell (M : mat) (a b : nat) : Q := nth b (nth a M []) 0%Q.
(** Dense value of a stored row: entries of the same column add up. *)
Fixpoint value (x : srow) (j : nat) : Q :=
  match x with
  | [] => 0%Q
  | (c, v) :: x' => ((if c =? j then v else 0) + value x' j)%Q
  end.
Definition interaction (r : recommender) (u i : nat) : Q := value (nth u (r_X r) []) i.

(** A matrix of the given shape. *)
Definition shape (a b : nat) (M : mat) : Prop := length M = a /\ forall row, In row M -> length row = b.

(** Shapes of a recommender of [r_users r] users and [r_items r] items. *)
Definition well_formed (r : recommender) : Prop :=
  (forall x e, In x (r_X r) -> In e x -> fst e < r_items r) /\
  match r_model r with
  | Similarity (Some W) => shape (r_items r) (r_items r) W
  | UserSimilarity (Some U) => shape (r_users r) (r_users r) U
  | TopPop (Some s) => length s = r_items r
  | TruncSVD (Some (z, c)) | Nmf (Some (z, c)) => exists d, shape (r_users r) d z /\ shape d (r_items r) c
  | Bprfm (Some (u, i, b)) => (exists d, shape (r_users r) d u /\ shape (r_items r) d i) /\ length b = r_items r
  | Ials (Some (u, i)) => exists d, shape (r_users r) d u /\ shape (r_items r) d i
  | _ => True
  end.

(** The score of item [i] for user [u]. *)
Definition true_score (r : recommender) (u i : nat) : Q :=
  match r_model r with
  | Similarity (Some W) => qsum (r_items r) (fun j => interaction r u j * cell W j i)%Q
  | UserSimilarity (Some U) => qsum (r_users r) (fun v => cell U u v * interaction r v i)%Q
  | TopPop (Some s) => nth i s 0%Q
  | TruncSVD (Some (z, c)) | Nmf (Some (z, c)) =>
      qsum (length c) (fun k => cell z u k * cell c k i)%Q
  | Bprfm (Some (us, is_, b)) =>
      (qsum (length (nth u us [])) (fun k => cell us u k * cell is_ i k) + nth i b 0)%Q
  | Ials (Some (us, is_)) => qsum (length (nth u us [])) (fun k => cell us u k * cell is_ i k)%Q
  | _ => 0%Q
  end.

Definition learnt (r : recommender) : bool :=
  match r_model r with
  | Similarity x | UserSimilarity x => if x then true else false
  | TopPop x => if x then true else false
  | TruncSVD x | Nmf x | Ials x => if x then true else false
  | Bprfm x => if x then true else false
  end.
(** What asking for scores raises before [learn]. *)
Definition unlearnt_error (r : recommender) : err :=
  match r_model r with Nmf _ => AttributeError | _ => RuntimeError end.
Definition has_block (r : recommender) : bool :=
  match r_model r with TopPop _ | Nmf _ => false | _ => true end.

(** The user an index denotes: 0 .. n-1, or counted from the end. *)
Definition denotes (n : nat) (k : Z) (u : nat) : Prop :=
  u < n /\ (k = Z.of_nat u \/ k = Z.of_nat u - Z.of_nat n)%Z.

(** The user has a non-zero interaction with the item. *)
Definition seen (x : srow) (i : nat) : Prop := exists v, In (i, v) x /\ ~ (v == 0)%Q.
