(** Shared vocabulary: outcomes of calls that may raise or be undefined. *)
From Coq Require Export List Arith ZArith Lia Bool Permutation Sorting.Sorted.
Export ListNotations.

(** Exceptions are values.  [Fail e] is a raised C++/Python exception,
    [UB] is an access outside of an allocated buffer (undefined behaviour
    of the C++ program), [Pending] says that the schedule considered ends
    before the call has returned, [Ok] is a normal return. *)
Inductive err :=
| InvalidArgument (* std::invalid_argument raised by cpp_source/argcheck.hpp 7-11; surfaces as ValueError *)
| ValueError
| RuntimeError
| ZeroDivision
| KeyError
| AssertionError
| TypeError
| IndexError
| NotImplemented
| TrialPruned (* optuna.exceptions.TrialPruned *)
| NetworkError (* urllib.error.URLError and its subclasses, http.client exceptions *)
| BadZipFile (* zipfile.BadZipFile *)
| FileNotFound
| AttributeError
| LinAlgError (* numpy.linalg.LinAlgError: the matrix to be inverted is singular *)
| UnboundLocal (* UnboundLocalError: a local variable is read before it is assigned *)
| NotANumber. (* not an exception: the call returns, but the result holds a NaN (0/0) *)

Inductive outcome (A : Type) :=
| Ok (a : A)
| Fail (e : err)
| UB
| Pending.
Arguments Ok {A} a.
Arguments Fail {A} e.
Arguments UB {A}.
Arguments Pending {A}.

Definition obind {A B : Type} (x : outcome A) (f : A -> outcome B) : outcome B :=
  match x with
  | Ok a => f a
  | Fail e => Fail e
  | UB => UB
  | Pending => Pending
  end.

Definition omap {A B : Type} (f : A -> B) (x : outcome A) : outcome B :=
  obind x (fun a => Ok (f a)).

Definition of_option {A : Type} (x : option A) : outcome A :=
  match x with Some a => Ok a | None => UB end.

(** [check_arg cond msg] of cpp_source/argcheck.hpp 7-11: throws when the
    condition is false. *)
Definition check_arg {A : Type} (cond : bool) (k : outcome A) : outcome A :=
  if cond then k else Fail InvalidArgument.

Definition is_ok {A : Type} (x : outcome A) : bool :=
  match x with Ok _ => true | _ => false end.

(** Wait for a condition (all workers have left their loops). *)
Definition await {A : Type} (done : bool) (k : outcome A) : outcome A :=
  if done then k else Pending.

(** Monadic left fold. *)
Fixpoint ofold {A B : Type} (f : B -> A -> outcome B) (l : list A) (b : B) : outcome B :=
  match l with
  | [] => Ok b
  | a :: l' => obind (f b a) (ofold f l')
  end.
