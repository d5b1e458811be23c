(** Arrays as mutable objects: which arrays does an evaluation write to?

    Refines the loops of EvalPy_Model.v (evaluator.py 357-398 and 400-441):
    arrays live in a store, numpy slices of rows are views into them,
    [ndarray.copy] allocates, masked assignment writes in place. *)
From Verif Require Import Base Sched_Model Eval_Model EvalPy_Model.
Local Open Scope nat_scope.

Definition store := list dense.
(** Rows [v_lo, v_hi) of the array number [v_addr]. *)
Record view := mkView { v_addr : nat; v_lo : nat; v_hi : nat }.
Definition read (st : store) (v : view) : dense :=
  let d := nth (v_addr v) st (mkDense 0 []) in mkDense (d_cols d) (slice (d_rows d) (v_lo v) (v_hi v)).
(** In-place assignment of all rows of a view. *)
Definition write (st : store) (v : view) (rows : list (list score)) : store :=
  let d := nth (v_addr v) st (mkDense 0 []) in
  update_nth st (v_addr v) (mkDense (d_cols d) (firstn (v_lo v) (d_rows d) ++ rows ++ skipn (v_hi v) (d_rows d))).
(** [copy(order="C")] (386). *)
Definition copy (st : store) (v : view) : store * view :=
  (st ++ [read st v], mkView (length st) 0 (length (d_rows (read st v)))).
(** [scores[mask.nonzero()] = -np.inf] (388, 432): nothing is written when an
    index is out of range. *)
Definition assign_mask (st : store) (v : view) (mask : list (list nat)) : store * outcome unit :=
  match apply_mask (read st v) mask with
  | Ok d => (write st v (d_rows d), Ok tt)
  | Fail e => (st, Fail e)
  | UB => (st, UB)
  | Pending => (st, Pending)
  end.

Section Run.
Variable disc : nat -> Q.

(** 364-392 with the arrays; the chunks are views of existing arrays. *)
Fixpoint chunk_loop_mem (ev : evaluator) (mask : option (list (list nat))) (cutoffs : list nat)
         (xs : nat -> nat -> execution) (ci chunk_start : nat)
         (chunks : list view) (ms : list metrics) (st : store) : store * outcome (nat * list metrics) :=
  match chunks with
  | [] => (st, Ok (chunk_start, ms))
  | v :: rest =>
      let d := read st v in
      if negb (d_cols d =? e_n_items ev) then (st, Fail ValueError)
      else
        let chunk_end := chunk_start + length (d_rows d) in
        if e_n_users ev <? chunk_end then (st, Fail ValueError)
        else if length (d_rows d) =? 0 then chunk_loop_mem ev mask cutoffs xs (S ci) chunk_start rest ms st
        else
          let '(st1, c) := copy st v in
          let '(st2, r) := match mask with
                           | None => (st1, Ok tt)
                           | Some m => assign_mask st1 c (slice m chunk_start chunk_end)
                           end in
          match obind r (fun _ => merge_cutoffs disc ev (read st2 c) chunk_start (xs ci) 0 cutoffs ms) with
          | Ok ms' => chunk_loop_mem ev mask cutoffs xs (S ci) chunk_end rest ms' st2
          | Fail e => (st2, Fail e)
          | UB => (st2, UB)
          | Pending => (st2, Pending)
          end
  end.

(** 417-439 with the arrays; [block a b] is the view returned by
    [get_score_block(a, b)]. *)
Fixpoint model_loop_mem (ev : evaluator) (train : list (list nat)) (block : nat -> nat -> view)
         (cutoffs : list nat) (xs : nat -> nat -> execution)
         (block_end ci : nat) (starts : list nat) (ms : list metrics) (st : store) : store * outcome (list metrics) :=
  match starts with
  | [] => (st, Ok ms)
  | chunk_start :: rest =>
      let chunk_end := min (chunk_start + Z.to_nat (e_mb_size ev)) block_end in
      let v := block chunk_start chunk_end in
      let mask := match e_masked ev with
                  | None => slice train chunk_start chunk_end
                  | Some m => slice m (chunk_start - e_offset ev) (chunk_end - e_offset ev)
                  end in
      let '(st1, r) := assign_mask st v mask in
      match obind r (fun _ => merge_cutoffs disc ev (read st1 v) (chunk_start - e_offset ev) (xs ci) 0 cutoffs ms) with
      | Ok ms' => model_loop_mem ev train block cutoffs xs block_end (S ci) rest ms' st1
      | Fail e => (st1, Fail e)
      | UB => (st1, UB)
      | Pending => (st1, Pending)
      end
  end.
End Run.
