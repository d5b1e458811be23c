(** Example Unicode tables: ASCII, and ASCII with the Arabic-Indic digits. *)
From Verif Require Import Base PyStr_Model PyStr_Spec.
Local Open Scope Z_scope.

Definition ascii_table (c : Z) : option Z := if (48 <=? c) && (c <=? 57) then Some (c - 48) else None.
Definition arabic_table (c : Z) : option Z :=
  if (1632 <=? c) && (c <=? 1641) then Some (c - 1632) else ascii_table c.
Definition ascii_space (c : Z) : bool := ((9 <=? c) && (c <=? 13)) || ((28 <=? c) && (c <=? 32)).

Lemma ascii_table_ok : ascii_digits ascii_table.
Proof. intros c Hc. reflexivity. Qed.
Lemma arabic_table_ok : ascii_digits arabic_table.
Proof. intros c Hc. unfold arabic_table. destruct (Z.leb_spec 1632 c); [lia|reflexivity]. Qed.
Lemma ascii_space_ok : ascii_spaces ascii_space.
Proof. intros c Hc. reflexivity. Qed.
Lemma ascii_disjoint : forall c, ascii_table c <> None -> ascii_space c = false.
Proof.
  intros c H. unfold ascii_table in H. destruct (Z.leb_spec 48 c), (Z.leb_spec c 57); cbn in H; try congruence.
  unfold ascii_space. destruct (Z.leb_spec 9 c), (Z.leb_spec c 13), (Z.leb_spec 28 c), (Z.leb_spec c 32); cbn; lia || reflexivity.
Qed.
