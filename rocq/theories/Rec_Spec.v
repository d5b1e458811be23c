(** What a recommendation list must be. *)
From Coq Require Export QArith.
From Verif Require Import Base.
From Verif Require Export Eval_Model EvalPy_Model Rec_Model.
Local Open Scope nat_scope.

(** Contract of argsort: a permutation of the positions along which the values do not decrease. *)
Definition sorts (argsort : list score -> list nat) : Prop :=
  forall v, Permutation (argsort v) (seq 0 (length v)) /\
    StronglySorted (fun a b => scmp (nth a v NegInf) (nth b v NegInf) <> Gt) (argsort v).
(** Contract of std::partial_sort with "greater score" as order. *)
Definition partially_sorts (psort : nat -> list (nat * score) -> list (nat * score)) : Prop :=
  forall m l, Permutation (psort m l) l /\
    StronglySorted (fun a b => scmp (snd a) (snd b) <> Lt) (firstn m (psort m l)) /\
    forall a b, In a (firstn m (psort m l)) -> In b (skipn m (psort m l)) -> scmp (snd a) (snd b) <> Lt.
(** Contract of the conversion to float: order preserving, infinities fixed. *)
Record rounding (fl : score -> score) : Prop := {
  fl_neginf : fl NegInf = NegInf;
  fl_posinf : fl PosInf = PosInf;
  fl_mono : forall a b, scmp a b <> Gt -> scmp (fl a) (fl b) <> Gt }.

(** [l] lists [k] best entries of the multiset [pool] (all if there are
    fewer), best first. *)
Definition best {X} (pool : list (X * score)) (k : nat) (l : list (X * score)) : Prop :=
  exists rest, Permutation (l ++ rest) pool /\
    StronglySorted (fun a b => scmp (snd a) (snd b) <> Lt) l /\
    length l = min k (length pool) /\
    forall a b, In a l -> In b rest -> scmp (snd b) (snd a) <> Gt.

Section Ids.
Context {I : Type}.
Variable eq_dec : forall a b : I, {a = b} + {a <> b}.

(** The (id, score) pairs of one user from which recommendations are drawn:
    all known ids, or those of the allowed list (once per occurrence, unknown
    ids ignored). *)
Definition offered (ids : list I) (row : list score) (allowed : option (list I)) : list (I * score) :=
  match allowed with
  | None => combine ids row
  | Some a => flat_map (fun x => filter (fun p => if eq_dec (fst p) x then true else false) (combine ids row)) a
  end.
Definition banned (forbidden : option (list I)) (x : I) : bool :=
  match forbidden with None => false | Some f => if in_dec eq_dec x f then true else false end.
(** Offered, not forbidden, finite score. *)
Definition pool_finite (ids : list I) (row : list score) (allowed forbidden : option (list I)) : list (I * score) :=
  filter (fun p => match snd p with Fin _ => negb (banned forbidden (fst p)) | _ => false end) (offered ids row allowed).
(** Offered, not forbidden, score after conversion not minus infinity. *)
Definition pool_batch (fl : score -> score) (ids : list I) (row : list score) (allowed forbidden : option (list I)) : list (I * score) :=
  filter (fun p => match snd p with NegInf => false | _ => true end)
         (map (fun p => (fst p, fl (snd p))) (filter (fun p => negb (banned forbidden (fst p))) (offered ids row allowed))).

(** Allowed ids of user [u] in a batch call. *)
Definition batch_allowed (allowed : option (list I)) (per_user : option (list (list I))) (u : nat) : option (list I) :=
  match per_user with
  | Some p => Some (nth u p [])
  | None => allowed
  end.
Definition batch_forbidden (forbidden : option (list (list I))) (u : nat) : option (list I) :=
  option_map (fun f => nth u f []) forbidden.

(** An item a user may be offered: position [i], id [x], score [s]. *)
Definition eligible (ids : list I) (row : list score) (allowed forbidden : option (list I)) (x : I) (s : score) : Prop :=
  (exists i, nth_error ids i = Some x /\ nth_error row i = Some s) /\
  (forall a, allowed = Some a -> In x a) /\ (forall f, forbidden = Some f -> ~ In x f).

(** A list that meets every claim of C24; [good] says which scores may be
    returned, [conv] how scores are converted. *)
Record respects (conv : score -> score) (good : score -> Prop) (ids : list I) (row : list score)
       (allowed forbidden : option (list I)) (cutoff : nat) (l : list (I * score)) : Prop := {
  rs_cutoff : length l <= cutoff;
  rs_eligible : forall x t, In (x, t) l -> exists s, eligible ids row allowed forbidden x s /\ t = conv s /\ good t;
  rs_sorted : StronglySorted (fun a b => scmp (snd a) (snd b) <> Lt) l;
  rs_complete : forall x s, eligible ids row allowed forbidden x s -> good (conv s) -> ~ In (x, conv s) l ->
                length l = cutoff /\ forall y t, In (y, t) l -> scmp (conv s) t <> Gt;
  rs_nodup : (forall a, allowed = Some a -> NoDup a) -> NoDup (map fst l) }.

(** The rating a profile gives to an id. *)
Definition rating (p : profile I) (x : I) : Q :=
  match p with
  | PList l => inject_Z (Z.of_nat (count_occ eq_dec l x))
  | PDict d => fold_right Qplus 0%Q (map snd (filter (fun e => if eq_dec (fst e) x then true else false) d))
  end.
(** Does a profile mention the id (with a rating other than 0)? *)
Definition mentions (p : profile I) (x : I) : Prop :=
  match p with
  | PList l => In x l
  | PDict d => exists q, In (x, q) d /\ ~ (q == 0)%Q
  end.
End Ids.

(** Entry of a sparse matrix: stored entries of the same position add up. *)
Definition csr_entry (x : csr) (u i : nat) : Q :=
  fold_right Qplus 0%Q (map snd (filter (fun e => fst e =? i) (csr_row x u))).

Definition finite (s : score) : Prop := exists q, s = Fin q.
(** A recommender's scores have the announced shape. *)
Definition scores_shape (rc : recommender) (n : nat) : Prop :=
  forall ks, d_cols (rc_score rc ks) = n /\ length (d_rows (rc_score rc ks)) = length ks /\ Forall (fun r => length r = n) (d_rows (rc_score rc ks)).

