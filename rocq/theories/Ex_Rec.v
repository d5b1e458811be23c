(** Concrete inputs used by the examples of Prop_Rec.v. *)
From Coq Require Import QArith SpecFloat.
From Verif Require Import Base Sched_Model Eval_Model Sort_Proofs EvalPy_Model Rec_Spec Rec_Proofs.
Local Open Scope nat_scope.

(** Stable sorts meet the contracts. *)
Lemma slt_asym a b : slt a b = true -> slt b a = false.
Proof. unfold slt. rewrite (scmp_antisym a b). destruct (scmp a b); cbn; congruence. Qed.
Lemma slt_false a b : slt a b = false <-> scmp b a <> Gt.
Proof. unfold slt. rewrite (scmp_antisym a b). destruct (scmp a b); cbn; split; congruence. Qed.
Lemma slt_negtrans a b c : slt a b = false -> slt b c = false -> slt a c = false.
Proof.
  intros H1 H2. destruct (slt a c) eqn:E; auto. apply slt_lt in E. apply slt_false in H1, H2.
  destruct (scmp b a) eqn:E1; [| |congruence].
  - rewrite <- (scmp_eq_trans_l _ _ c E1) in E. apply slt_lt in E. destruct (scmp c b) eqn:E2; [| |congruence].
    + apply slt_lt in E. apply scmp_eq_sym in E2. congruence.
    + apply slt_lt in E. pose proof (scmp_lt_trans _ _ _ E E2) as X. rewrite scmp_refl in X. discriminate.
  - pose proof (scmp_lt_trans _ _ _ E1 E) as X. destruct (scmp c b) eqn:E2; [| |congruence].
    + apply scmp_eq_sym in E2. congruence.
    + pose proof (scmp_lt_trans _ _ _ X E2) as Y. rewrite scmp_refl in Y. discriminate.
Qed.
Definition ex_argsort (v : list score) : list nat := sort_by (fun a b => slt (nth a v NegInf) (nth b v NegInf)) (seq 0 (length v)).
Lemma ex_argsort_ok : sorts ex_argsort.
Proof.
  intros v. split; [apply sort_by_perm|]. unfold ex_argsort.
  eapply sorted_impl_in; [|apply sort_by_sorted; intros; [apply slt_asym|eapply slt_negtrans]; eauto]. cbn. intros a b _ _ H.
  unfold nle in H. now apply slt_false in H.
Qed.
Definition ex_psort (m : nat) (l : list (nat * score)) : list (nat * score) := sort_by (fun a b => slt (snd b) (snd a)) l.
Lemma ex_psort_ok : partially_sorts ex_psort.
Proof.
  intros m l. split; [apply sort_by_perm|].
  assert (HS : StronglySorted (fun a b : nat * score => scmp (snd a) (snd b) <> Lt) (ex_psort m l)).
  { unfold ex_psort. eapply sorted_impl_in; [|apply sort_by_sorted; intros; [apply slt_asym|eapply slt_negtrans]; eauto]. cbn. intros a b _ _ H.
    unfold nle in H. apply slt_false in H. now apply scmp_notgt_notlt. }
  rewrite <- (firstn_skipn m (ex_psort m l)) in HS. apply strongly_sorted_app_inv in HS as (H1 & _ & H2). auto.
Qed.
Lemma id_rounding : rounding (fun s => s).
Proof. constructor; auto. Qed.

(** Conversion of a score to IEEE binary32 (round to nearest even); exact for
    scores with denominator 1, the only ones it is used on. *)
Definition fl32 (s : score) : score :=
  match s with
  | Fin q => match binary_normalize 24 128 (Qnum q) 0 false with
             | S754_finite sg m e => Fin (inject_Z (cond_Zopp sg (Zpos m)) * (if (0 <=? e)%Z then inject_Z (2 ^ e) else 1 # Z.to_pos (2 ^ (- e))))
             | S754_infinity sg => if sg then NegInf else PosInf
             | _ => Fin 0
             end
  | s => s
  end.

Definition zfin (z : Z) : score := Fin (inject_Z z).
(** Items 10, 20, 30, 40. *)
Definition ex_ids : list nat := [10; 20; 30; 40].
Definition ex_m : mapper nat := Eval vm_compute in match make_mapper Nat.eq_dec ex_ids with Ok m => m | _ => mkMapper [] [] end.
Definition ex_row : list score := [zfin 3; zfin 7; NegInf; zfin 5].
Definition ex_scores : dense := mkDense 4 [ex_row; [zfin 1; zfin 2; zfin 3; zfin 4]].
Definition ex_sched : list nat := concat (repeat [0; 1] 12).
