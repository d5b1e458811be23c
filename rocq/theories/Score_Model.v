(** Model of the scoring interface of the recommenders:
      src/irspack/recommenders/base.py 283-457 (get_score, get_score_block,
        the *_remove_seen variants, item and user similarity recommenders),
      toppop.py, truncsvd.py, nmf.py, bpr.py and the scoring methods of ials.py.

    Simplifications: floating point numbers are exact rationals; similarity and
    embedding matrices are given by their dense values; what the external
    solvers (sklearn, LightFM) put into them is arbitrary.  The training matrix
    is a list of rows of stored (column, value) entries. *)
From Coq Require Import QArith.
From Verif Require Import Base Eval_Model.
Local Open Scope nat_scope.

Definition mat := list (list Q).
Definition srow := list (nat * Q).

(** ** Python indexing *)
(** [a[k]] for an axis of length [n]: negative indices count from the end. *)
Definition py_index (n : nat) (k : Z) : option nat :=
  (if (0 <=? k) && (k <? Z.of_nat n) then Some (Z.to_nat k)
   else if (- Z.of_nat n <=? k) && (k <? 0) then Some (Z.to_nat (k + Z.of_nat n))
   else None)%Z.
(** [a[idx]] with an integer array: IndexError if one index is out of range. *)
Fixpoint py_take {A} (rows : list A) (idx : list Z) : outcome (list A) :=
  match idx with
  | [] => Ok []
  | k :: idx' =>
      match py_index (length rows) k with
      | None => Fail IndexError
      | Some i => match nth_error rows i with
                  | None => Fail IndexError
                  | Some r => omap (cons r) (py_take rows idx')
                  end
      end
  end.
(** [a[begin:end]]: both bounds are clipped, an empty range gives no rows. *)
Definition py_bound (n : nat) (k : Z) : nat :=
  (if k <? 0 then Z.to_nat (Z.max 0 (k + Z.of_nat n)) else Z.to_nat (Z.min k (Z.of_nat n)))%Z.
Definition py_slice {A} (rows : list A) (b e : Z) : list A :=
  let b' := py_bound (length rows) b in
  let e' := py_bound (length rows) e in
  firstn (e' - b') (skipn b' rows).

(** ** Products *)
(** Row vector times matrix with [n] columns, dense and sparse. *)
Definition vec_mat (x : list Q) (M : mat) (n : nat) : list Q :=
  map (fun i => fold_left Qplus (map (fun p => fst p * nth i (snd p) 0)%Q (combine x M)) 0%Q) (seq 0 n).
Definition sp_mat (x : srow) (M : mat) (n : nat) : list Q :=
  map (fun i => fold_left Qplus (map (fun e => snd e * nth i (nth (fst e) M []) 0)%Q x) 0%Q) (seq 0 n).
(** A dense row times a sparse matrix (here: user similarities times X). *)
Definition vec_sp (x : list Q) (X : list srow) (n : nat) : list Q :=
  map (fun i => fold_left Qplus
         (flat_map (fun p => map (fun e => fst p * snd e)%Q (filter (fun e => fst e =? i) (snd p))) (combine x X)) 0%Q)
      (seq 0 n).
(** [M.T] of a matrix with [n] columns. *)
Definition mat_T (M : mat) (n : nat) : mat := map (fun i => map (fun r => nth i r 0%Q) M) (seq 0 n).
Definition add_row (a b : list Q) : list Q := map (fun p => fst p + snd p)%Q (combine a b).

(** ** Fitted recommenders; [None]: not learnt yet *)
Inductive model :=
| Similarity (W : option mat)                       (* base.py 406-430 *)
| UserSimilarity (U : option mat)                   (* base.py 433-457 *)
| TopPop (score : option (list Q))                  (* toppop.py 15-50 *)
| TruncSVD (z_comp : option (mat * mat))            (* truncsvd.py 26-116: z_ and components_ *)
| Nmf (w_h : option (mat * mat))                    (* nmf.py 24-72: W and H *)
| Bprfm (fm : option (mat * mat * list Q))          (* bpr.py 60-184: user, item embeddings, item biases *)
| Ials (f : option (mat * mat)).                    (* ials.py 248-630: user and item *)

Record recommender := mkRec {
  r_X : list srow;        (* X_train_all *)
  r_items : nat;          (* n_items *)
  r_model : model }.
Definition r_users (r : recommender) : nat := length (r_X r).

(** Properties W / U / score / z / fm / trainer_as_ials raise RuntimeError
    before [learn]; NMF has no attribute W yet (AttributeError). *)
Definition fitted {A} (x : option A) : outcome A :=
  match x with Some a => Ok a | None => Fail RuntimeError end.
Definition fitted_nmf {A} (x : option A) : outcome A :=
  match x with Some a => Ok a | None => Fail AttributeError end.

(** TopPopRecommender._learn (toppop.py 32-33): [X_train_all.sum(axis=0)]. *)
Definition toppop_learn (X : list srow) (n : nat) : list Q :=
  map (fun i => fold_left Qplus (map snd (filter (fun e => fst e =? i) (concat X))) 0%Q) (seq 0 n).

(** [get_score]: base.py 423-424, 452-453; toppop.py 41-44; truncsvd.py 80-82;
    nmf.py 66-68; bpr.py 145-150; ials.py 481-485. *)
Definition get_score (r : recommender) (us : list Z) : outcome mat :=
  let n := r_items r in
  match r_model r with
  | Similarity W =>
      obind (py_take (r_X r) us) (fun rows => omap (fun W => map (fun x => sp_mat x W n) rows) (fitted W))
  | UserSimilarity U =>
      obind (fitted U) (fun U => omap (map (fun s => vec_sp s (r_X r) n)) (py_take U us))
  | TopPop s => omap (fun s => map (fun _ => s) us) (fitted s)
  | TruncSVD zc =>
      obind (fitted zc) (fun zc => omap (map (fun x => vec_mat x (snd zc) n)) (py_take (fst zc) us))
  | Nmf wh =>
      obind (fitted_nmf wh) (fun wh => omap (map (fun x => vec_mat x (snd wh) n)) (py_take (fst wh) us))
  | Bprfm fm =>
      obind (fitted fm) (fun fm =>
      let '(u, i, b) := fm in
      let d := length (hd [] i) in
      omap (map (fun x => add_row (vec_mat x (mat_T i d) n) b)) (py_take u us))
  | Ials f =>
      obind (fitted f) (fun f =>
      let d := length (hd [] (snd f)) in
      omap (map (fun x => vec_mat x (mat_T (snd f) d) n)) (py_take (fst f) us))
  end.

(** [get_score_block]: base.py 297-307 (not implemented), 429-430, 455-456;
    truncsvd.py 84-86; bpr.py 152-157.  iALS (ials.py 487-488) calls the C++
    [user_scores], which checks its bounds (IALSTrainer.hpp 942-951); a negative
    number is not convertible to size_t (TypeError). *)
Definition get_score_block (r : recommender) (b e : Z) : outcome mat :=
  let n := r_items r in
  match r_model r with
  | Similarity W => omap (fun W => map (fun x => sp_mat x W n) (py_slice (r_X r) b e)) (fitted W)
  | UserSimilarity U => omap (fun U => map (fun s => vec_sp s (r_X r) n) (py_slice U b e)) (fitted U)
  | TopPop _ => Fail NotImplemented
  | TruncSVD zc => omap (fun zc => map (fun x => vec_mat x (snd zc) n) (py_slice (fst zc) b e)) (fitted zc)
  | Nmf _ => Fail NotImplemented
  | Bprfm fm =>
      omap (fun fm : mat * mat * list Q =>
        let '(u, i, bias) := fm in
        let d := length (hd [] i) in
        map (fun x => add_row (vec_mat x (mat_T i d) n) bias) (py_slice u b e)) (fitted fm)
  | Ials f =>
      obind (fitted f) (fun f =>
      if ((b <? 0) || (e <? 0))%Z then Fail TypeError
      else check_arg (b <=? e)%Z (check_arg (e <=? Z.of_nat (length (fst f)))%Z (
        let d := length (hd [] (snd f)) in
        Ok (map (fun x => vec_mat x (mat_T (snd f) d) n) (py_slice (fst f) b e)))))
  end.

(** [scores[m.nonzero()] = -np.inf] *)
Definition mask_row (x : srow) (s : list Q) : list score :=
  map (fun p => if existsb (fun e => (fst e =? fst p) && negb (Qeq_bool (snd e) 0)) x then NegInf else Fin (snd p))
      (combine (seq 0 (length s)) s).
Definition mask (rows : list srow) (S : mat) : list (list score) :=
  map (fun p => mask_row (fst p) (snd p)) (combine rows S).

(** [get_score_remove_seen], base.py 309-323 *)
Definition get_score_remove_seen (r : recommender) (us : list Z) : outcome (list (list score)) :=
  obind (get_score r us) (fun S => omap (fun m => mask m S) (py_take (r_X r) us)).
(** [get_score_remove_seen_block], base.py 325-338 *)
Definition get_score_remove_seen_block (r : recommender) (b e : Z) : outcome (list (list score)) :=
  omap (fun S => mask (py_slice (r_X r) b e) S) (get_score_block r b e).

Section Cold.
(** [NMF.transform], external. *)
Variable nmf_transform : mat -> list srow -> mat.
(** [IALSTrainer.transform_user], see Ials_Model.v. *)
Variable ials_transform : mat -> list srow -> outcome mat.

(** [get_score_cold_user], base.py 340-352 (not implemented), 426-427;
    toppop.py 46-50; truncsvd.py 88-92 ([TruncatedSVD.transform] is
    [X.dot(components_.T)]); nmf.py 70-72; ials.py 490-494.  [cols] is the number
    of columns of [X]; scipy refuses a product of mismatched shapes. *)
Definition get_score_cold_user (r : recommender) (cols : nat) (X : list srow) : outcome mat :=
  let n := r_items r in
  match r_model r with
  | Similarity W =>
      obind (fitted W) (fun W =>
      if cols =? length W then Ok (map (fun x => sp_mat x W n) X) else Fail ValueError)
  | UserSimilarity _ => Fail NotImplemented
  | TopPop s => omap (fun s => map (fun _ => s) X) (fitted s)
  | TruncSVD zc =>
      obind (fitted zc) (fun zc =>
      if cols =? n
      then Ok (map (fun x => vec_mat (sp_mat x (mat_T (snd zc) n) (length (snd zc))) (snd zc) n) X)
      else Fail ValueError)
  | Nmf wh =>
      obind (fitted_nmf wh) (fun wh =>
      if cols =? n then Ok (map (fun x => vec_mat x (snd wh) n) (nmf_transform (snd wh) X)) else Fail ValueError)
  | Bprfm _ => Fail NotImplemented
  | Ials f =>
      obind (fitted f) (fun f =>
      let d := length (hd [] (snd f)) in
      omap (map (fun x => vec_mat x (mat_T (snd f) d) n)) (ials_transform (snd f) X))
  end.
(** [get_score_cold_user_remove_seen], base.py 391-403 *)
Definition get_score_cold_user_remove_seen (r : recommender) (cols : nat) (X : list srow)
    : outcome (list (list score)) :=
  omap (fun S => mask X S) (get_score_cold_user r cols X).
End Cold.

(** ** Embeddings: truncsvd.py 94-116, bpr.py 159-184, ials.py 535-545, 624-630 *)
Definition get_user_embedding (r : recommender) : outcome mat :=
  match r_model r with
  | TruncSVD zc => omap fst (fitted zc)
  | Bprfm fm => omap (fun fm => fst (fst fm)) (fitted fm)
  | Ials f => omap fst (fitted f)
  | _ => Fail AttributeError
  end.
Definition get_item_embedding (r : recommender) : outcome mat :=
  match r_model r with
  | TruncSVD zc => omap (fun zc => mat_T (snd zc) (r_items r)) (fitted zc)
  | Bprfm fm => omap (fun fm => snd (fst fm)) (fitted fm)
  | Ials f => omap snd (fitted f)
  | _ => Fail AttributeError
  end.
Definition get_score_from_user_embedding (r : recommender) (E : mat) : outcome mat :=
  let n := r_items r in
  match r_model r with
  | TruncSVD zc => omap (fun zc => map (fun x => vec_mat x (snd zc) n) E) (fitted zc)
  | Bprfm fm =>
      omap (fun fm : mat * mat * list Q =>
        let '(u, i, b) := fm in
        map (fun x => add_row (vec_mat x (mat_T i (length (hd [] i))) n) b) E) (fitted fm)
  | Ials f => omap (fun f => map (fun x => vec_mat x (mat_T (snd f) (length (hd [] (snd f)))) n) E) (fitted f)
  | _ => Fail AttributeError
  end.
(** The scores of the given users for the items whose embeddings are the rows
    of [E]; bpr.py 177-184 leaves the item biases out. *)
Definition get_score_from_item_embedding (r : recommender) (us : list Z) (E : mat) : outcome mat :=
  let f users := omap (map (fun x => vec_mat x (mat_T E (length (hd [] E))) (length E))) (py_take users us) in
  match r_model r with
  | TruncSVD zc => obind (fitted zc) (fun zc => f (fst zc))
  | Bprfm fm => obind (fitted fm) (fun fm => f (fst (fst fm)))
  | Ials t => obind (fitted t) (fun t => f (fst t))
  | _ => Fail AttributeError
  end.
