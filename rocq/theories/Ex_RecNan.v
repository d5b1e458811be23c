(** Concrete inputs used by the examples of Prop_RecNan.v. *)
From Coq Require Import QArith.
From Verif Require Import Base Sched_Model Eval_Model Sort_Proofs EvalPy_Model RecNan_Spec Rec_Proofs RecNan_Proofs Ex_Rec.
Local Open Scope nat_scope.

(** A sort with NaN last. *)
Definition nan_last (a b : fscore) : bool :=
  match a, b with Num a, Num b => slt a b | Num _, NaN => true | NaN, _ => false end.
Lemma nan_last_asym a b : nan_last a b = true -> nan_last b a = false.
Proof. destruct a, b; cbn; auto. apply slt_asym. Qed.
Lemma nan_last_negtrans a b c : nan_last a b = false -> nan_last b c = false -> nan_last a c = false.
Proof. destruct a, b, c; cbn; auto; try discriminate. apply slt_negtrans. Qed.
Definition ex_fargsort (v : list fscore) : list nat := sort_by (fun a b => nan_last (nth a v NaN) (nth b v NaN)) (seq 0 (length v)).
Lemma ex_fargsort_ok : fsorts ex_fargsort.
Proof.
  intros v. split; [apply sort_by_perm|]. unfold ex_fargsort.
  eapply sorted_impl_in; [|apply sort_by_sorted; intros; [apply nan_last_asym|eapply nan_last_negtrans]; eauto]. cbn. intros a b _ _ H.
  unfold nle in H. destruct (nth a v NaN), (nth b v NaN); cbn in *; auto; [|discriminate]. now apply slt_false in H.
Qed.
(** A partial sort; elements that are all tied are reversed, as by the two
    heap operations of libstdc++ on two elements. *)
Definition ex_fpsort (m : nat) (l : list (nat * fscore)) : list (nat * fscore) :=
  if existsb (fun p => is_nan (snd p)) l then rev l
  else sort_by (fun a b => slt (unnan (snd b)) (unnan (snd a))) l.
Lemma ex_fpsort_ok : fpartially_sorts ex_fpsort.
Proof.
  intros m l HW. unfold ex_fpsort. destruct (existsb (fun p => is_nan (snd p)) l) eqn:E.
  - assert (T : forall a b, In a l -> In b l -> ~ above_num (snd b) (snd a)).
    { intros a b Ha Hb H. destruct (strict_weak fgreater l) eqn:E2; [|discriminate].
      assert (mixed (map snd l)) as X; [|apply mixed_iff in X; congruence].
      apply existsb_exists in E as (n & Hn & En). unfold mixed. apply in_map with (f := snd) in Ha, Hb, Hn.
      destruct (snd n); [discriminate|]. destruct (snd a) as [s|], (snd b) as [t|]; cbn in H; try tauto.
      split; auto. exists s, t. split; auto. split; auto. rewrite (scmp_antisym t s), H. reflexivity. }
    split; [now rewrite <- Permutation_rev|]. split.
    + apply sorted_firstn. assert (G : forall k, (forall x, In x k -> In x l) -> StronglySorted (fun a b : nat * fscore => ~ above_num (snd b) (snd a)) k).
      { induction k as [|x k IH]; intros H; constructor; [apply IH; intros; apply H; now right|].
        apply Forall_forall. intros y Hy. apply T; apply H; [now left|now right]. }
      apply G. intros x Hx. now apply in_rev in Hx.
    + intros a b Ha Hb. apply firstn_in, in_rev in Ha. apply skipn_in, in_rev in Hb. auto.
  - assert (HN : forall p, In p l -> snd p = Num (unnan (snd p))).
    { intros p Hp. destruct (snd p) eqn:Es; auto. assert (existsb (fun p => is_nan (snd p)) l = true); [|congruence].
      apply existsb_exists. exists p. split; auto. now rewrite Es. }
    set (s := sort_by _ l). assert (HP : Permutation s l) by apply sort_by_perm. split; auto.
    assert (HS : StronglySorted (fun a b : nat * fscore => ~ above_num (snd b) (snd a)) s).
    { eapply sorted_impl_in; [|apply (sort_by_sorted (fun a b : nat * fscore => slt (unnan (snd b)) (unnan (snd a)))); intros; [apply slt_asym|eapply slt_negtrans]; eauto].
      intros a b Ha Hb H. apply (Permutation_in _ HP) in Ha, Hb. rewrite (HN a Ha), (HN b Hb). cbn. unfold nle in H. apply slt_false in H. exact H. }
    split; [now apply sorted_firstn|]. rewrite <- (firstn_skipn m s) in HS. apply strongly_sorted_app_inv in HS as (_ & _ & HS). exact HS.
Qed.

Definition fz (z : Z) : fscore := Num (zfin z).
Definition ex_frow : list fscore := [fz 3; NaN; Num NegInf; fz 5].
