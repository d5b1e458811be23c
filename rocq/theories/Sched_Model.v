(** Work-stealing workers sharing an atomic cursor.

    Models the worker pattern used all over the C++ code:
    - cpp_source/evaluator.cpp 216-252, 271-282 + 307-311, 400-425 (block 1)
    - cpp_source/util.hpp 49-67 (block 16), 253-283 (block = packet size), 438-452 (block 1)
    - cpp_source/als/IALSTrainer.hpp 84-112 (block 16) and the solver steps (block 1 or chunk)

    Every worker loops: [i = cursor.fetch_add(block); if (i >= n) break;]
    then handles the indices [i, min(i+block, n)) one after the other.
    The scheduler picks the worker that makes the next step; a step is either
    one atomic [fetch_add] (with the thread-local comparison that follows) or
    the handling of one index.
    Simplification: the handling of one index is one step.  It touches only
    worker-local data ([A]) and the part of the shared result that belongs to
    that index ([S]), so finer interleavings of two handlings commute. *)
From Verif Require Import Base.

Section Pool.
Context {A S : Type}.
Variable n : nat.                 (* number of rows / items to handle *)
Variable block : nat.             (* chunk size of fetch_add *)
Variable local_work : nat -> A -> A.   (* effect of an index on the worker's own data *)
Variable shared_work : nat -> S -> S.  (* effect of an index on the shared result *)

Inductive status :=
| Ready                       (* about to execute fetch_add *)
| Holding (todo : list nat)   (* owns these indices, next to be handled first *)
| Done.                       (* left the loop *)

Record worker := mkWorker { w_status : status; w_acc : A }.
Record pool := mkPool { p_cursor : nat; p_workers : list worker; p_shared : S }.

(** State right after the workers were created. *)
Definition init_pool (n_threads : nat) (a0 : A) (s0 : S) : pool :=
  mkPool 0 (repeat (mkWorker Ready a0) n_threads) s0.

Fixpoint update_nth {X : Type} (l : list X) (k : nat) (x : X) : list X :=
  match l, k with
  | [], _ => []
  | _ :: l', 0 => x :: l'
  | y :: l', Datatypes.S k' => y :: update_nth l' k' x
  end.

(** The indices owned after [fetch_add] returned [i < n]:
    [i, min(i + block, n)) (e.g. util.hpp 59-60). *)
Definition owned (i : nat) : list nat := seq i (min (i + block) n - i).

(** One step of worker [t]; a step of a finished or non-existing worker is
    no step. *)
Definition pool_step (p : pool) (t : nat) : pool :=
  match nth_error (p_workers p) t with
  | None => p
  | Some w =>
    match w_status w with
    | Done => p
    | Ready =>
        let i := p_cursor p in
        let st := if n <=? i then Done else Holding (owned i) in
        mkPool (i + block) (update_nth (p_workers p) t (mkWorker st (w_acc w))) (p_shared p)
    | Holding [] =>
        mkPool (p_cursor p) (update_nth (p_workers p) t (mkWorker Ready (w_acc w))) (p_shared p)
    | Holding (r :: rs) =>
        mkPool (p_cursor p)
               (update_nth (p_workers p) t
                  (mkWorker (match rs with [] => Ready | _ => Holding rs end) (local_work r (w_acc w))))
               (shared_work r (p_shared p))
    end
  end.

Definition run_pool (sched : list nat) (p : pool) : pool := fold_left pool_step sched p.

Definition worker_done (w : worker) : bool := match w_status w with Done => true | _ => false end.
(** All workers left their loop: the joins / future.get() calls return. *)
Definition completed (p : pool) : bool := forallb worker_done (p_workers p).
End Pool.
Arguments worker A : clear implicits.
Arguments pool A S : clear implicits.
