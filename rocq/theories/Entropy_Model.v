(** The entropy entry of the report (evaluator.cpp 94, 101-103), over the
    real numbers: the loop adds [-log(p) * p] for the numbers [p] collected in
    [r_probs] (Eval_Model.v, [as_dict]). *)
From Coq Require Import Reals Qreals.
From Verif Require Import Base Eval_Model.

Definition r_entropy (r : report) : R :=
  fold_left (fun e p => (e + - ln (Q2R p) * Q2R p)%R) (r_probs r) 0%R.

(** [1 / std::log2(2 + i)], entry [i] of [prepare_dcg_discount] (evaluator.cpp 42-48). *)
Definition log2_discount (i : nat) : R := (1 / (ln (2 + INR i) / ln 2))%R.
