(** What C44 speaks about. *)
From Verif Require Import Base PyStr_Model Dl_Model.
Local Open Scope Z_scope.

(** A file name that does not begin with a dot. *)
Definition visible (p : path) : Prop := hd_error (snd p) <> Some 46.
(** The archive is not there, or it is the one published at its address. *)
Definition intact (full : path -> bytes) (s : fs) (p : path) : Prop :=
  s p = None \/ s p = Some (full p).
(** Refused, broken or complete transfers, but no lost connection that reads
    as the end of the file. *)
Definition honest (full : path -> bytes) (paths : list path) (sn : session) : Prop :=
  forall p, In p paths ->
    match sn_net sn p with
    | Body b Complete => b = full p
    | Body _ Dropped => False
    | _ => True
    end.
