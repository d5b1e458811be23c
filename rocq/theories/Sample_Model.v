(** Model of src/irspack/utils/sample_data.py 8-34 (mf_example_data).

    Floats are real numbers.  The factors drawn by [rns.randn] and divided by
    the square root of n_components are arbitrary; the draws of
    [rns.binomial(1, score)] are a list of coin flips, one per entry in row
    order, so that the distribution of the result can be talked about. *)
From Verif Require Import Base.
From Coq Require Import Reals.
Local Open Scope R_scope.

Definition Rsum (l : list R) : R := fold_right Rplus 0 l.

(** scipy.special.expit *)
Definition expit (x : R) : R := / (1 + exp (- x)).

(** user_factors.dot(item_factors.T), line 22 and 32 *)
Definition vdot (u v : list R) : R := Rsum (map (fun p => fst p * snd p) (combine u v)).
Definition all_scores (user_factors item_factors : list (list R)) : list (list R) :=
  map (fun u => map (vdot u) item_factors) user_factors.

(** expit(all_scores.ravel() + bias_try).mean(), line 24; the mean of an empty
    array is a NaN. *)
Definition mean (l : list R) : option R :=
  match l with [] => None | _ => Some (Rsum l / INR (length l)) end.
Definition expected_density (scores : list (list R)) (bias : R) : option R :=
  mean (map (fun x => expit (x + bias)) (concat scores)).
(** A comparison with a NaN is false. *)
Definition nan_gt (a : option R) (b : R) : bool :=
  match a with Some x => if Rlt_dec b x then true else false | None => false end.

(** Lines 18-30: [fuel] iterations of the search. *)
Definition search_eps : R := / 100000.
Fixpoint search (fuel : nat) (scores : list (list R)) (target bias_max bias_min bias_try : R) : R :=
  match fuel with
  | O => bias_try
  | S fuel =>
      let up := nan_gt (expected_density scores bias_try) target in
      let bias_max := if up then bias_try else bias_max in
      let bias_min := if up then bias_min else bias_try in
      if Rlt_dec (bias_max - bias_min) search_eps then bias_try
      else search fuel scores target bias_max bias_min ((bias_max + bias_min) / 2)
  end.
Definition bias_of (scores : list (list R)) (target : R) : R := search 100 scores target 100 (-100) 0.

(** Line 32 *)
Definition probabilities (user_factors item_factors : list (list R)) (target : R) : list (list R) :=
  let bias := bias_of (all_scores user_factors item_factors) target in
  map (map (fun x => expit (x + bias))) (all_scores user_factors item_factors).

(** sps.csr_matrix: the columns of the ones of every row, line 33.  numpy
    refuses a probability outside of [0, 1]. *)
Definition ones (flips : list bool) : list nat :=
  map fst (filter snd (combine (seq 0 (length flips)) flips)).
Fixpoint reshape (rows : list (list R)) (flips : list bool) : list (list nat) :=
  match rows with
  | [] => []
  | r :: rows => ones (firstn (length r) flips) :: reshape rows (skipn (length r) flips)
  end.
Definition is_probability (p : R) : bool :=
  if Rle_dec 0 p then if Rle_dec p 1 then true else false else false.
Definition mf_example_data (user_factors item_factors : list (list R)) (density_target : R) (flips : list bool)
    : outcome (list (list nat)) :=
  let score := probabilities user_factors item_factors density_target in
  if forallb is_probability (concat score) then Ok (reshape score flips) else Fail ValueError.
