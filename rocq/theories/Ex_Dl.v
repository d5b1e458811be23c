(** Example data for C44. *)
From Coq Require Import String.
From Coq Require Import List.
From Verif Require Import Base PyStr_Model Dl_Model Dl_Spec.
Local Open Scope Z_scope.

Definition train_zip : path := (str "/data"%string, str "train.zip"%string).
Definition dev_zip : path := (str "/data"%string, str "dev.zip"%string).
Definition other_file : path := (str "/data"%string, str "notes.txt"%string).
Definition two_paths : list path := [train_zip; dev_zip].
(** The published archives: five bytes each, the last one is 6. *)
Definition published (p : path) : bytes :=
  if path_eqb p train_zip then [80; 75; 1; 5; 6] else [80; 75; 2; 5; 6].
(** Accepts what ends in 5, 6. *)
Definition ends_well (c : bytes) : bool :=
  match rev c with 6 :: 5 :: _ => true | _ => false end.
Definition empty_disk : fs := fun p => if path_eqb p other_file then Some [42] else None.

Definition good_net (p : path) : response := Body (published p) Complete.
Definition session_with (net : path -> response) (kill : option nat) : session :=
  mkSession (str "small"%string) (str "huggingface"%string) true false (fun _ => str "x1"%string) net kill.
(** Killed while the second archive is being fetched; the connection breaks in
    the first; then everything works. *)
Definition killed_session : session := session_with good_net (Some 11%nat).
Definition broken_session : session :=
  session_with (fun p => Body (firstn 2 (published p)) Broken) None.
Definition good_session : session := session_with good_net None.
Definition dropped_session : session :=
  session_with (fun p => Body (firstn 3 (published p)) Dropped) None.
Definition three_sessions : list session := [broken_session; killed_session; good_session].

(** A zip format for the examples: every member is its name, its length and
    its bytes, the length of the name in front. *)
Definition toy_zip (ms : list (pystr * bytes)) : bytes :=
  flat_map (fun m => Z.of_nat (length (fst m)) :: fst m ++ Z.of_nat (length (snd m)) :: snd m) ms ++ [5; 6].
