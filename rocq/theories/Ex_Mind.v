(** Example data for C48. *)
From Coq Require Import String.
From Coq Require Import List.
From Verif Require Import Base PyStr_Model Mind_Model Mind_Spec Ex_PyStr.
Local Open Scope Z_scope.

Definition bh (id : Z) (user : String.string) (imp : option pystr) : behavior :=
  mkBehavior id (str user) (1000 + id) imp.
(** Two impressions with labels, one of them on an item with a '-' of its own;
    one blank; one missing. *)
Definition train_log : list behavior :=
  [bh 1 "U1"%string (Some (str "N1-0 N-2-1  N3-1"%string));
   bh 2 "U2"%string (Some (str " "%string));
   bh 3 "U1"%string None;
   bh 4 "U3"%string (Some (str "N4-1 N5"%string))].
Definition dev_log : list behavior := [bh 9 "U9"%string (Some (str "N7-0"%string))].
Definition no_labels : list behavior := [bh 1 "U1"%string (Some (str "N1 N2"%string))].
Definition logs (split : pystr) : list behavior :=
  if pystr_eqb split (str "train"%string) then train_log else dev_log.

Lemma ascii_tables : ascii_ok ascii_table ascii_space.
Proof.
  constructor.
  - intros d H. unfold ascii_table. rewrite (proj2 (Z.leb_le 48 (48 + d))), (proj2 (Z.leb_le (48 + d) 57)) by lia.
    cbn [andb]. f_equal. lia.
  - intros c H. repeat (destruct H as [<-|H]; [reflexivity|]). destruct H.
  - split; reflexivity.
  - intros c H. unfold ascii_space.
    destruct (Z.leb_spec 9 c), (Z.leb_spec c 13), (Z.leb_spec 28 c), (Z.leb_spec c 32); cbn; lia || reflexivity.
Qed.
Definition two_entries : list entry :=
  [(str "0"%string, str "25"%string, [str "1064"%string; str "25"%string; str "174"%string]);
   (str "0"%string, str "174"%string, [str "7"%string])].
