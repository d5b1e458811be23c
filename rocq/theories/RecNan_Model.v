(** Scores that are not numbers.

    Refines [score_to_recommended_items] and [score_to_recommended_items_batch]
    (src/irspack/utils/id_mapping.py 221-324), [retrieve_recommend_from_score]
    (cpp_source/util.hpp 426-504) of Rec_Model.v and the ranking of one user
    (cpp_source/evaluator.cpp 317-362) of Eval_Model.v: a score may be NaN.

    [std::partial_sort] requires that the comparison is a strict weak order on
    the elements ([alg.sorting.general] of the C++ standard); otherwise the
    behaviour is undefined, here [UB].  Rows of a batch are treated one after
    the other (C51: the schedule does not matter). *)
From Verif Require Import Base Sched_Model Eval_Model EvalPy_Model Rec_Model.
Local Open Scope nat_scope.

(** Floats. *)
Inductive fscore := Num (s : score) | NaN.
(** [np.isinf]: false for NaN. *)
Definition fisinf (s : fscore) : bool := match s with Num s => isinf s | NaN => false end.
(** IEEE [<]: false as soon as one side is NaN. *)
Definition flt (a b : fscore) : bool := match a, b with Num a, Num b => slt a b | _, _ => false end.
(** unary minus *)
Definition fneg (a : fscore) : fscore := match a with Num a => Num (sneg a) | NaN => NaN end.
(** [score != -infinity]: true for NaN. *)
Definition fnot_neginf (a : fscore) : bool := match a with Num a => not_neginf a | NaN => true end.

(** Is [lt] a strict weak order on the elements of [l]: irreflexive,
    transitive, and "neither before the other" is transitive? *)
Definition tied {X} (lt : X -> X -> bool) (a b : X) : bool := negb (lt a b) && negb (lt b a).
Definition strict_weak {X} (lt : X -> X -> bool) (l : list X) : bool :=
  forallb (fun a => negb (lt a a) &&
    forallb (fun b => forallb (fun c =>
      implb (lt a b && lt b c) (lt a c) && implb (tied lt a b && tied lt b c) (tied lt a c)) l) l) l.

Section Ids.
Context {I : Type}.
Variable eq_dec : forall a b : I, {a = b} + {a <> b}.

(** The loop of id_mapping.py 240-252. *)
Fixpoint frec_loop (ids : list I) (score_row : list fscore) (cutoff : Z) (forbidden : option (list I))
         (inds : list nat) (acc : list (I * fscore)) : outcome (list (I * fscore)) :=
  match inds with
  | [] => Ok acc
  | i :: rest =>
      match nth_error score_row i, nth_error ids i with
      | Some s, Some x =>
          if fisinf s then frec_loop ids score_row cutoff forbidden rest acc
          else if match forbidden with Some f => id_mem eq_dec x f | None => false end
               then frec_loop ids score_row cutoff forbidden rest acc
               else let acc' := acc ++ [(x, s)] in
                    if (cutoff <=? Z.of_nat (length acc'))%Z then Ok acc'
                    else frec_loop ids score_row cutoff forbidden rest acc'
      | _, _ => Fail IndexError
      end
  end.

(** [score_to_recommended_items] (221-253). *)
Definition frecommended_items (argsort : list fscore -> list nat) (m : mapper I) (score_row : list fscore) (cutoff : Z)
           (allowed forbidden : option (list I)) : outcome (list (I * fscore)) :=
  if negb (length score_row =? length (mp_ids m)) then Fail ValueError
  else
    let high_score_inds :=
      match allowed with
      | Some a =>
          let inds := index_list eq_dec m a in
          map (fun k => nth k inds 0) (rev (argsort (map (fun i => nth i score_row NaN) inds)))
      | None => rev (argsort score_row)
      end in
    frec_loop (mp_ids m) score_row cutoff forbidden high_score_inds [].

(** Masked assignment of minus infinity (base.py 309-323, 391-403;
    id_mapping.py 298-304). *)
Definition fset_neginf (row : list fscore) (cols : list nat) : list fscore :=
  fold_left (fun r j => update_nth r j (Num NegInf)) cols row.

Section Batch.
(** Conversion of the scores that are numbers to [float]; NaN stays NaN. *)
Variable fl : score -> score.
Definition ffl (s : fscore) : fscore := match s with Num s => Num (fl s) | NaN => NaN end.
Variable psort : nat -> list (nat * fscore) -> list (nat * fscore).

(** util.hpp 457-479. *)
Definition fcandidates (n_items : nat) (score_row : list fscore) (allowed : list (list nat)) (row : nat) : outcome (list (nat * fscore)) :=
  match allowed with
  | [] => Ok (map (fun i => (i, ffl (nth i score_row NaN))) (seq 0 n_items))
  | [a] => Ok (map (fun i => (i, ffl (nth i score_row NaN))) (filter (fun i => i <? n_items) a))
  | _ => match nth_error allowed row with
         | Some a => Ok (map (fun i => (i, ffl (nth i score_row NaN))) (filter (fun i => i <? n_items) a))
         | None => Fail IndexError
         end
  end.
(** The loop 487-498. *)
Fixpoint ftake_loop (cutoff k : nat) (l : list (nat * fscore)) : list (nat * fscore) :=
  match l with
  | [] => []
  | p :: l' =>
      if cutoff <=? k then []
      else if fnot_neginf (snd p) then p :: ftake_loop cutoff (S k) l' else []
  end.
(** Comparison of [partial_sort] (483-485): greater score. *)
Definition fgreater (a b : nat * fscore) : bool := flt (snd b) (snd a).
Definition fretrieve_row (n_items : nat) (score_row : list fscore) (allowed : list (list nat)) (row cutoff : nat) : outcome (list (nat * fscore)) :=
  obind (fcandidates n_items score_row allowed row) (fun cand =>
  if strict_weak fgreater cand then Ok (ftake_loop cutoff 0 (psort (min cutoff (length cand)) cand)) else UB).
Definition fto_ids (ids : list I) (l : list (nat * fscore)) : outcome (list (I * fscore)) :=
  oall (map (fun p => match nth_error ids (fst p) with Some x => Ok (x, snd p) | None => Fail IndexError end) l).

(** [score_to_recommended_items_batch] (255-324); [n_items] columns. *)
Definition frecommended_items_batch (m : mapper I) (n_items : nat) (rows : list (list fscore)) (cutoff : nat)
           (allowed : option (list I)) (per_user : option (list (list I))) (forbidden : option (list (list I))) : outcome (list (list (I * fscore))) :=
  if negb (n_items =? length (mp_ids m)) then Fail ValueError
  else if match forbidden with Some f => negb (length f =? length rows) | None => false end then Fail AssertionError
  else if match per_user with Some p => negb (length p =? length rows) | None => false end then Fail AssertionError
  else
    let allowed_indices :=
      match per_user, allowed with
      | Some p, _ => map (index_list eq_dec m) p
      | None, Some a => [index_list eq_dec m a]
      | None, None => []
      end in
    let rows' :=
      match forbidden with
      | None => rows
      | Some f => map (fun u => fset_neginf (nth u rows []) (index_list eq_dec m (nth u f []))) (seq 0 (length rows))
      end in
    obind (oall (map (fun u => fretrieve_row n_items (nth u rows' []) allowed_indices u cutoff) (seq 0 (length rows))))
          (fun raw => oall (map (fto_ids (mp_ids m)) raw)).
End Batch.
End Ids.

(** ** Evaluation *)
(** [operator<] of [std::pair] (C++17): the second components decide as soon
    as neither first component is below the other. *)
Definition fpair_lt (x y : fscore * nat) : bool :=
  flt (fst x) (fst y) || (negb (flt (fst y) (fst x)) && (snd x <? snd y)).
(** evaluator.cpp 326-347. *)
Fixpoint fcollect (data : list fscore) (base : nat) (items : list nat) : outcome (list (fscore * nat)) :=
  match items with
  | [] => Ok []
  | i :: items' =>
      match nth_error data (base + i) with
      | None => UB
      | Some s =>
          omap (fun rest => if fnot_neginf s then (fneg s, i) :: rest else rest)
               (fcollect data base items')
      end
  end.
(** 356-362. *)
Fixpoint fpush_loop (cnt n_rec : nat) (l : list (fscore * nat)) : list nat :=
  match l with
  | [] => []
  | p :: l' => snd p :: (if n_rec <=? S cnt then [] else fpush_loop (S cnt) n_rec l')
  end.
(** Ranking of one user (317-362).  Where the comparison is a strict weak
    order it is total (RecNan_Proofs), so the result of [partial_sort] is the
    prefix of the sorted list. *)
Definition franking (c : core) (data : list fscore) (u u_orig cutoff : nat) : outcome (list nat) :=
  obind (fcollect data (c_n_items c * u) (offered_items c u_orig)) (fun cand =>
  if strict_weak fpair_lt cand
  then Ok (fpush_loop 0 (min cutoff (length cand)) (sort_by fpair_lt cand))
  else UB).
