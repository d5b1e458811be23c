(** Proofs for C74: what a sweep with small changes leaves; runs of SLIM. *)
From Verif Require Import Base Sched_Model Sched_Proofs SchedOne_Proofs Knn_Model Knn_Spec Slim_Model Slim_Spec SlimRep_Spec Slim_Proofs SlimObj_Proofs SlimTop_Proofs SlimRep_Proofs KnnP3_Proofs KnnSim_Proofs.
From Coq Require Import QArith Qabs Lqa.
Local Open Scope Q_scope.

Lemma distance2_sym X w w' : distance2 X w w' == distance2 X w' w.
Proof. apply qs_ext. intros; ring. Qed.
Lemma distance2_ext X w w' v v' : same_weights X w v -> same_weights X w' v' -> distance2 X w w' == distance2 X v v'.
Proof. intros H H'. apply qs_ext. intros f Hf. rewrite (H f Hf), (H' f Hf). reflexivity. Qed.
Lemma distance2_zero X w w' : distance2 X w w' <= 0 -> same_weights X w w'.
Proof.
  intros H f Hf.
  assert (N : forall i, (i < length X)%nat -> 0 <= (nth i w 0 - nth i w' 0) * (nth i w 0 - nth i w' 0)) by (intros; apply square_nonneg).
  assert (E : distance2 X w w' == 0) by (apply Qle_antisym; [exact H|apply qs_nonneg; exact N]).
  pose proof (qs_zero_terms _ _ N E f Hf) as Z. cbn beta in Z. apply Qmult_integral in Z. destruct Z; lra.
Qed.

(** Two solutions. *)
Lemma optimal_unique positive_only n X l2 l1 j w w' : 0 < l2 -> 0 <= l1 -> (j < length X)%nat ->
  optimal positive_only n X l2 l1 j w -> optimal positive_only n X l2 l1 j w' -> same_weights X w w'.
Proof.
  intros L2 L1 Hj O O'.
  pose proof (optimal_growth positive_only n X l2 l1 ltac:(lra) L1 j w w' Hj O (proj1 O')) as A.
  pose proof (optimal_growth positive_only n X l2 l1 ltac:(lra) L1 j w' w Hj O' (proj1 O)) as B.
  fold (distance2 X w' w) in A. fold (distance2 X w w') in B. rewrite (distance2_sym X w' w) in A.
  apply distance2_zero. assert (H : l2 * distance2 X w w' <= 0) by lra.
  destruct (Qlt_le_dec 0 (distance2 X w w')) as [P|P]; [|exact P]. pose proof (Qmult_lt_0_compat _ _ L2 P). lra.
Qed.

Section Sweep.
Variable is_zero : list Q -> bool.
Variable positive_only : bool.
Variable n : nat.
Variable X : list (srow Q).
Variables l2 l1 : Q.
Hypothesis exz : exact_test is_zero.
Hypothesis GX : good_columns n X.
Hypothesis l2_0 : 0 <= l2.
Hypothesis l1_0 : 0 <= l1.
Notation F := (length X).
Notation x r f := (xval X r f).
Notation cd_step := (cd_step 0 Qplus Qminus Qmult Qdiv Qopp Qabs qltb is_zero positive_only X l2 l1).
Notation new_coef := (new_coef 0 Qplus Qminus Qmult Qdiv Qopp qltb positive_only X l2 l1).
Notation diff f l := (new_coef f l - nth f (ln_coef l) 0).
Notation good_lane := (good_lane positive_only n X).
Notation next := (next positive_only n X l2 l1).
Notation grad := (grad n X).
Notation gram f g := (qs n (fun r => x r f * x r g)).
Notation near_kkt := (near_kkt positive_only n X l2 l1).

Lemma step_small f lanes delta c : 0 <= c -> snd (cd_step (lanes, delta) f) <= c -> delta <= c /\ forall l, In l lanes -> Qabs (diff f l) <= c.
Proof.
  intros C0. unfold Slim_Model.cd_step. destruct (is_zero _) eqn:Z; cbn [snd].
  - intros H. split; [exact H|]. intros l Hl. assert (E : diff f l == 0) by (apply (proj1 (exz _) Z), in_map_iff; exists l; auto).
    rewrite E. exact C0.
  - intros H. apply vmax_le in H. destruct H as [A B]. split; [exact A|]. intros l Hl.
    apply max_abs_le in B. destruct B as [_ B]. apply B, in_map_iff. exists l; auto.
Qed.
Lemma sweep_small inds c : 0 <= c -> forall st, snd (fold_left cd_step inds st) <= c -> snd st <= c.
Proof.
  intros C0. induction inds as [|f inds IH]; intros [lanes delta] H; cbn [fold_left] in H; [exact H|].
  apply IH in H. now apply step_small in H.
Qed.

(** The gradient after the update of another coordinate. *)
Lemma grad_other j f g l : length (ln_coef l) = F -> (g < F)%nat ->
  grad j (updated positive_only X l2 l1 g l) f == grad j (ln_coef l) f + gram f g * diff g l.
Proof.
  intros L Hg. unfold SlimObj_Proofs.grad.
  rewrite (qs_ext n _ (fun r => x r f * residual X j (ln_coef l) r + diff g l * (x r f * x r g))).
  - rewrite qs_plus, qs_scal. ring.
  - intros r _. rewrite residual_updated by assumption. ring.
Qed.

Definition sumg (f : nat) (inds : list nat) : Q := Qsum (map (fun g => Qabs (gram f g)) inds).

Lemma Qsum_cons a l : Qsum (a :: l) == a + Qsum l.
Proof. reflexivity. Qed.

Lemma sumg_one f g : sumg f [g] == Qabs (gram f g).
Proof. unfold sumg. cbn [map]. rewrite Qsum_cons. apply Qplus_0_r. Qed.

Definition moved_little (c : Q) (inds : list nat) (l l' : lane Q) : Prop :=
  ln_item l' = ln_item l /\ (forall g, ~ In g inds -> nth g (ln_coef l') 0 = nth g (ln_coef l) 0) /\
  forall f, Qabs (grad (ln_item l) (ln_coef l') f - grad (ln_item l) (ln_coef l) f) <= c * sumg f inds.

Lemma near_moved c e j w w' f : near_kkt e j w f -> nth f w' 0 = nth f w 0 -> Qabs (grad j w' f - grad j w f) <= c -> near_kkt (e + c) j w' f.
Proof.
  intros (A & B & C) E H. apply abs_le_both in H. unfold SlimRep_Proofs.near_kkt. rewrite E. split; [|split].
  - intros U. specialize (A U). apply abs_le_both in A. apply Qabs_Qle_condition. lra.
  - intros U. specialize (B U). apply abs_le_both in B. apply Qabs_Qle_condition. lra.
  - intros U. destruct (C U) as [C1 C2]. split; [lra|]. intros Hp. specialize (C2 Hp). lra.
Qed.

Lemma kkt_near e j w f : 0 <= e -> kkt positive_only n X l2 l1 j w f -> near_kkt e j w f.
Proof.
  intros E (A & B & C). split; [|split].
  - intros U. rewrite (A U). exact E.
  - intros U. rewrite (B U). exact E.
  - intros U. destruct (C U) as [C1 C2]. split; [lra|]. intros Hp. specialize (C2 Hp). lra.
Qed.

Lemma small_sweep inds c : 0 <= c -> NoDup inds -> (forall f, In f inds -> (f < F)%nat) -> forall lanes delta, Forall good_lane lanes ->
  snd (fold_left cd_step inds (lanes, delta)) <= c ->
  Forall2 (moved_little c inds) lanes (fst (fold_left cd_step inds (lanes, delta))) /\
  forall l', In l' (fst (fold_left cd_step inds (lanes, delta))) -> forall f, In f inds -> ln_item l' <> f ->
    near_kkt (c * sumg f inds) (ln_item l') (ln_coef l') f.
Proof.
  intros C0. induction inds as [|g inds IH]; intros ND H lanes delta G E; cbn [fold_left] in *.
  - cbn [fst]. split; [|intros l' _ f []]. clear. induction lanes; constructor; auto. split; [reflexivity|]. split; [reflexivity|].
    intros f. setoid_replace (grad (ln_item a) (ln_coef a) f - grad (ln_item a) (ln_coef a) f) with 0 by ring. cbn. unfold sumg. cbn. lra.
  - assert (Hg : (g < F)%nat) by (apply H; now left). inversion ND as [|? ? Ng ND']; subst.
    pose proof (good_step positive_only n X l2 l1 GX is_zero exz g lanes delta Hg G) as G1.
    pose proof (cd_step_next positive_only n X l2 l1 GX is_zero exz g lanes delta Hg) as N.
    pose proof (sweep_small _ _ C0 _ E) as E1. apply (step_small _ _ _ _ C0) in E1. destruct E1 as [_ D].
    destruct (cd_step (lanes, delta) g) as [lanes1 delta1]. cbn [fst] in *.
    destruct (IH ND' (fun f Hf => H f (or_intror Hf)) lanes1 delta1 G1 E) as [S K].
    assert (SN : forall f, 0 <= sumg f inds) by (intros f; unfold sumg; apply Qsum_nonneg, Forall_map, Forall_forall; intros; apply Qabs_nonneg).
    assert (SC : forall f, sumg f (g :: inds) == Qabs (gram f g) + sumg f inds) by (intros f; unfold sumg; cbn [map]; apply Qsum_cons).
    assert (S1 : Forall2 (moved_little c [g]) lanes lanes1).
    { clear -N G D Hg C0. induction N as [|l l' ls ls' (A & B & C) N IH]; constructor.
      - inversion G as [|? ? [(_ & Lc & _) _] G']; subst. split; [exact A|]. split.
        + intros h Hh. rewrite B, updated_nth by assumption. destruct (Nat.eqb_spec h g) as [->|]; [|reflexivity]. exfalso. apply Hh. now left.
        + intros f. rewrite B, grad_other by assumption.
          setoid_replace (grad (ln_item l) (ln_coef l) f + gram f g * diff g l - grad (ln_item l) (ln_coef l) f) with (gram f g * diff g l) by ring.
          rewrite Qabs_Qmult. specialize (D l (or_introl eq_refl)). rewrite sumg_one, Qmult_comm. apply Qmult_le_compat_r; [exact D|apply Qabs_nonneg].
      - apply IH; [now inversion G|]. intros; apply D; now right. }
    split.
    + clear -S S1 SC. revert S. generalize (fst (fold_left cd_step inds (lanes1, delta1))).
      induction S1 as [|l l' ls ls' (A & B & Gd) S1 IH]; intros ms S; inversion S as [|? m ? ms' (A' & B' & Gd') S']; subst; constructor; auto.
      split; [congruence|]. split.
      * intros h Hh. rewrite B', B; [reflexivity| |]; intros Hin; apply Hh; [destruct Hin as [->|[]]; now left|now right].
      * intros f. specialize (Gd f). specialize (Gd' f). rewrite A in Gd'. rewrite SC. rewrite sumg_one in Gd.
        setoid_replace (grad (ln_item l) (ln_coef m) f - grad (ln_item l) (ln_coef l) f) with
          ((grad (ln_item l) (ln_coef m) f - grad (ln_item l) (ln_coef l') f) + (grad (ln_item l) (ln_coef l') f - grad (ln_item l) (ln_coef l) f)) by ring.
        eapply Qle_trans; [apply Qabs_triangle|]. rewrite Qmult_plus_distr_r. lra.
    + intros l' Hl' f Hin Hne.
      assert (M : c * sumg f inds <= c * sumg f (g :: inds)).
      { rewrite SC, Qmult_plus_distr_r. assert (0 <= c * Qabs (gram f g)) by (apply Qmult_le_0_compat; [exact C0|apply Qabs_nonneg]). lra. }
      assert (W : near_kkt (c * sumg f inds) (ln_item l') (ln_coef l') f).
      { destruct Hin as [<-|Hin]; [|now apply K].
        destruct (Forall2_in_r _ _ _ S l' Hl') as (l1' & Hl1 & (A & B & Gd)).
        destruct (Forall2_in_r _ _ _ N l1' Hl1) as (l0 & Hl0 & (A0 & B0 & _)).
        assert (Kk : near_kkt 0 (ln_item l') (ln_coef l1') g).
        { apply kkt_near; [lra|]. rewrite A, A0, B0.
          apply new_coef_kkt; auto; [apply (proj1 (Forall_forall _ _) G l0 Hl0)|congruence]. }
        assert (Hm : Qabs (grad (ln_item l') (ln_coef l') g - grad (ln_item l') (ln_coef l1') g) <= c * sumg g inds) by (rewrite A; apply Gd).
        pose proof (near_moved _ _ _ _ _ _ Kk (B g Ng) Hm) as Z.
        destruct Z as (Z1 & Z2 & Z3). split; [|split].
        - intros U. specialize (Z1 U). lra.
        - intros U. specialize (Z2 U). lra.
        - intros U. destruct (Z3 U) as [Y1 Y2]. split; [lra|]. intros Hp. specialize (Y2 Hp). lra. }
      destruct W as (Z1 & Z2 & Z3). split; [|split].
      * intros U. specialize (Z1 U). lra.
      * intros U. specialize (Z2 U). lra.
      * intros U. destruct (Z3 U) as [Y1 Y2]. split; [lra|]. intros Hp. specialize (Y2 Hp). lra.
Qed.
End Sweep.

(** ** Settled columns *)
Section Settled.
Variable is_zero : list Q -> bool.
Variable positive_only : bool.
Variables block_size n : nat.
Variable X : list (srow Q).
Variables l2 l1 tol : Q.
Hypothesis exz : exact_test is_zero.
Hypothesis GX : good_columns n X.
Hypothesis l2_0 : 0 <= l2.
Hypothesis l1_0 : 0 <= l1.
Notation F := (length X).
Notation cd_step := (cd_step 0 Qplus Qminus Qmult Qdiv Qopp Qabs qltb is_zero positive_only X l2 l1).
Notation e := (fun f => tol * gram_row n X f).

Lemma gram_row_nonneg f : 0 <= gram_row n X f.
Proof. apply qs_nonneg. intros; apply Qabs_nonneg. Qed.

Lemma near_weaken d d' j w f : d <= d' -> near_kkt positive_only n X l2 l1 d j w f -> near_kkt positive_only n X l2 l1 d' j w f.
Proof.
  intros D (Z1 & Z2 & Z3). split; [|split].
  - intros U. specialize (Z1 U). lra.
  - intros U. specialize (Z2 U). lra.
  - intros U. destruct (Z3 U) as [Y1 Y2]. split; [lra|]. intros Hp. specialize (Y2 Hp). lra.
Qed.

Lemma delta_nonneg inds : forall st, 0 <= snd st -> 0 <= snd (fold_left cd_step inds st).
Proof.
  induction inds as [|f inds IH]; intros [lanes d] H; cbn [fold_left]; [exact H|]. apply IH. cbn [snd] in H.
  unfold Slim_Model.cd_step. destruct (is_zero _); [exact H|]. cbn [snd]. unfold vmax. destruct (qltb d _) eqn:E; [|exact H].
  apply qltb_true in E. lra.
Qed.

Lemma settled_near j w : settled_column is_zero positive_only block_size n X l2 l1 tol j w -> (j < F)%nat ->
  0 <= tol /\ feasible positive_only X j w /\ forall f, (f < F)%nat -> f <> j -> near_kkt positive_only n X l2 l1 (e f) j w f.
Proof.
  intros (before & inds & l & Hb & P & D & Hl & Il & S) Hj.
  set (lanes := fst (fold_left cd_step before (block_lanes 0 Qopp block_size n X (j / block_size), 0))) in *.
  assert (G : Forall (good_lane positive_only n X) lanes).
  { apply (steps_follow positive_only n X l2 l1 GX l2_0 l1_0 is_zero exz before Hb). now apply (start_good positive_only block_size n X). }
  assert (T : 0 <= snd (fold_left cd_step inds (lanes, 0))) by (apply delta_nonneg; cbn; lra).
  assert (Hi : forall f, In f inds <-> (f < F)%nat).
  { intros f. split; intros H; [apply (Permutation_in _ P) in H; apply in_seq in H; lia|apply (Permutation_in _ (Permutation_sym P)), in_seq; lia]. }
  destruct (small_sweep is_zero positive_only n X l2 l1 exz GX l2_0 l1_0 inds tol ltac:(lra)
     (Permutation_NoDup (Permutation_sym P) (seq_NoDup _ _)) (fun f => proj1 (Hi f)) lanes 0 G ltac:(lra)) as [_ K].
  destruct (steps_follow positive_only n X l2 l1 GX l2_0 l1_0 is_zero exz inds (fun f => proj1 (Hi f)) lanes 0 G) as [G2 _].
  pose proof (proj1 (Forall_forall _ _) G2 l Hl) as Gl. apply good_feasible in Gl. rewrite Il in Gl.
  split; [lra|]. split.
  { destruct Gl as [Z Po]. split; [rewrite (S j Hj); exact Z|]. intros Hp f Hf. rewrite (S f Hf). now apply Po. }
  intros f Hf Hne. assert (Kf := K l Hl f (proj2 (Hi f) Hf) ltac:(congruence)). rewrite Il in Kf.
  assert (Eq : sumg n X f inds == gram_row n X f).
  { unfold sumg, gram_row. apply Qsum_perm. apply Permutation_map, P. }
  unfold SlimRep_Proofs.near_kkt in Kf |- *. rewrite Eq in Kf.
  rewrite (grad_ext n X j (ln_coef l) w f S), (S f Hf). exact Kf.
Qed.

Lemma e_nonneg : 0 <= tol -> forall f, (f < F)%nat -> 0 <= e f.
Proof. intros T f _. apply Qmult_le_0_compat; [exact T|apply gram_row_nonneg]. Qed.

Lemma settled_growth j w w' : settled_column is_zero positive_only block_size n X l2 l1 tol j w -> (j < F)%nat -> feasible positive_only X j w' ->
  objective n X l2 l1 j w + l2 * (1 # 2) * distance2 X w' w - qs F (fun f => e f * Qabs (nth f w' 0 - nth f w 0)) <= objective n X l2 l1 j w'.
Proof.
  intros S Hj [Z P]. destruct (settled_near j w S Hj) as (T & [Zw _] & K).
  apply (near_growth positive_only n X l2 l1 l1_0 e j w w' (e_nonneg T)); [|exact P].
  intros f Hf. destruct (Nat.eq_dec f j) as [->|Hne]; [left; rewrite Z, Zw; reflexivity|right; now apply K].
Qed.

Lemma settled_excess j w w' : settled_column is_zero positive_only block_size n X l2 l1 tol j w -> (j < F)%nat -> feasible positive_only X j w' ->
  2 * l2 * (objective n X l2 l1 j w - objective n X l2 l1 j w') <= slack n X tol.
Proof.
  intros S Hj Fw. pose proof (settled_growth j w w' S Hj Fw) as A.
  pose proof (complete X l2 e (fun f => nth f w' 0 - nth f w 0)) as B. cbn beta in B. fold (slack n X tol) in B. fold (distance2 X w' w) in B.
  set (O := objective n X l2 l1 j w) in *. set (O' := objective n X l2 l1 j w') in *. set (D := distance2 X w' w) in *.
  set (T := qs F (fun f => e f * Qabs (nth f w' 0 - nth f w 0))) in *. change (qs F _) with T in B.
  assert (M : 0 <= 2 * l2 * (T - l2 * (1 # 2) * D - (O - O'))) by (apply Qmult_le_0_compat; lra).
  setoid_replace (2 * l2 * (T - l2 * (1 # 2) * D - (O - O'))) with (2 * l2 * T - l2 * l2 * D - 2 * l2 * (O - O')) in M by ring. lra.
Qed.

Lemma settled_distance j w w' : settled_column is_zero positive_only block_size n X l2 l1 tol j w -> (j < F)%nat ->
  optimal positive_only n X l2 l1 j w' -> l2 * l2 * distance2 X w w' <= slack n X tol.
Proof.
  intros S Hj O. pose proof (settled_growth j w w' S Hj (proj1 O)) as A.
  pose proof (optimal_growth positive_only n X l2 l1 l2_0 l1_0 j w' w Hj O) as B.
  destruct (settled_near j w S Hj) as (_ & Fw & _). specialize (B Fw). fold (distance2 X w w') in B. rewrite (distance2_sym X w' w) in A.
  pose proof (complete X l2 e (fun f => nth f w' 0 - nth f w 0)) as C. cbn beta in C. fold (slack n X tol) in C. fold (distance2 X w' w) in C.
  rewrite (distance2_sym X w' w) in C.
  set (T := qs F (fun f => e f * Qabs (nth f w' 0 - nth f w 0))) in *. change (qs F (fun f => tol * gram_row n X f * Qabs (nth f w' 0 - nth f w 0))) with T in C.
  set (D := distance2 X w w') in *.
  assert (M : 0 <= 2 * l2 * (T - l2 * D)) by (apply Qmult_le_0_compat; lra).
  setoid_replace (2 * l2 * (T - l2 * D)) with (2 * l2 * T - 2 * (l2 * l2 * D)) in M by ring. lra.
Qed.
End Settled.

Lemma settled_pair is_zero is_zero' positive_only block_size block_size' n X l2 l1 tol j w w' :
  exact_test is_zero -> exact_test is_zero' -> good_columns n X -> 0 <= l2 -> 0 <= l1 -> (j < length X)%nat ->
  settled_column is_zero positive_only block_size n X l2 l1 tol j w -> settled_column is_zero' positive_only block_size' n X l2 l1 tol j w' ->
  l2 * l2 * distance2 X w w' <= 4 * slack n X tol.
Proof.
  intros E E' GX L2 L1 Hj S S'.
  pose proof (proj1 (proj2 (settled_near is_zero positive_only block_size n X l2 l1 tol E GX L2 L1 j w S Hj))) as Fw.
  pose proof (proj1 (proj2 (settled_near is_zero' positive_only block_size' n X l2 l1 tol E' GX L2 L1 j w' S' Hj))) as Fw'.
  pose proof (settled_growth is_zero positive_only block_size n X l2 l1 tol E GX L2 L1 j w w' S Hj Fw') as A.
  pose proof (settled_growth is_zero' positive_only block_size' n X l2 l1 tol E' GX L2 L1 j w' w S' Hj Fw) as B.
  rewrite (distance2_sym X w' w) in A.
  assert (EqT : qs (length X) (fun f => tol * gram_row n X f * Qabs (nth f w 0 - nth f w' 0)) == qs (length X) (fun f => tol * gram_row n X f * Qabs (nth f w' 0 - nth f w 0))).
  { apply qs_ext. intros f _. setoid_replace (nth f w 0 - nth f w' 0) with (- (nth f w' 0 - nth f w 0)) by ring. rewrite Qabs_opp. reflexivity. }
  cbn beta in A, B. rewrite EqT in B.
  pose proof (complete X l2 (fun f => 2 * (tol * gram_row n X f)) (fun f => nth f w' 0 - nth f w 0)) as C. cbn beta in C.
  fold (distance2 X w' w) in C. rewrite (distance2_sym X w' w) in C.
  set (T := qs (length X) (fun f => tol * gram_row n X f * Qabs (nth f w' 0 - nth f w 0))) in *.
  assert (E1 : qs (length X) (fun f => 2 * (tol * gram_row n X f) * Qabs (nth f w' 0 - nth f w 0)) == 2 * T).
  { unfold T. rewrite <- qs_scal. apply qs_ext. intros; ring. }
  assert (E2 : qs (length X) (fun f => 2 * (tol * gram_row n X f) * (2 * (tol * gram_row n X f))) == 4 * slack n X tol).
  { unfold slack. rewrite <- qs_scal. apply qs_ext. intros; ring. }
  rewrite E1, E2 in C. set (D := distance2 X w w') in *.
  assert (M : 0 <= 2 * l2 * (2 * T - l2 * D)) by (apply Qmult_le_0_compat; lra).
  setoid_replace (2 * l2 * (2 * T - l2 * D)) with (2 * l2 * (2 * T) - 2 * (l2 * l2 * D)) in M by ring. lra.
Qed.

(** ** Runs *)
Section Stops.
Context {G : Type}.
Variables (is_zero : list Q -> bool) (shuffle : G -> list nat -> list nat * G) (positive_only : bool) (X : list (srow Q)) (l2 l1 tol : Q).
Hypothesis shuf : shuffle_ok shuffle.
Notation F := (length X).
Notation cd_step := (cd_step 0 Qplus Qminus Qmult Qdiv Qopp Qabs qltb is_zero positive_only X l2 l1).
Notation descent := (descent 0 Qplus Qminus Qmult Qdiv Qopp Qabs qltb is_zero shuffle positive_only X l2 l1 tol).

Lemma step_lanes f lanes d d' : fst (cd_step (lanes, d) f) = fst (cd_step (lanes, d') f).
Proof. unfold Slim_Model.cd_step. destruct (is_zero _); reflexivity. Qed.
Lemma fold_lanes inds : forall lanes d d', fst (fold_left cd_step inds (lanes, d)) = fst (fold_left cd_step inds (lanes, d')).
Proof.
  induction inds as [|f inds IH]; intros lanes d d'; [reflexivity|]. cbn [fold_left].
  pose proof (step_lanes f lanes d d') as E. destruct (cd_step (lanes, d) f), (cd_step (lanes, d') f). cbn [fst] in E. subst. apply IH.
Qed.

Lemma descent_stops k : forall g inds lanes g' inds' lanes', Permutation inds (seq 0 F) -> descent k g inds lanes = (g', inds', lanes') ->
  (exists before last, (forall f, In f before -> (f < F)%nat) /\ Permutation last (seq 0 F) /\
     let r := fold_left cd_step last (fst (fold_left cd_step before (lanes, 0)), 0) in snd r < tol /\ lanes' = fst r) \/
  (exists sweeps, length sweeps = k /\ (forall o, In o sweeps -> Permutation o (seq 0 F)) /\ all_moved cd_step tol sweeps lanes /\
     lanes' = fst (fold_left cd_step (concat sweeps) (lanes, 0))).
Proof.
  induction k as [|k IH]; intros g inds lanes g' inds' lanes' P E; cbn [Slim_Model.descent] in E.
  - injection E as <- <- <-. right. exists []. repeat split; auto. intros o [].
  - pose proof (shuf g inds) as SP. destruct (shuffle g inds) as [i1 g1]. cbn [fst] in SP.
    assert (P1 : Permutation i1 (seq 0 F)) by now rewrite SP.
    destruct (fold_left cd_step i1 (lanes, 0)) as [lanes1 delta] eqn:Ef.
    destruct (qltb delta tol) eqn:Q.
    + injection E as <- <- <-. left. exists [], i1. split; [intros f []|]. split; [exact P1|]. cbn [fold_left fst]. rewrite Ef. cbn. split; [now apply qltb_true|reflexivity].
    + apply qltb_false in Q. destruct (IH _ _ _ _ _ _ P1 E) as [(before & last & Hb & Pl & S)|(sw & L & Po & M & Eq)].
      * left. exists (i1 ++ before), last. split.
        { intros f Hf. apply in_app_or in Hf. destruct Hf as [Hf|Hf]; [apply (Permutation_in _ P1), in_seq in Hf; lia|now apply Hb]. }
        split; [exact Pl|]. cbn zeta. rewrite fold_left_app, Ef, (fold_lanes before lanes1 delta 0). exact S.
      * right. exists (i1 :: sw). split; [cbn; now rewrite L|]. split; [intros o [<-|Ho]; auto|]. split.
        { cbn [all_moved]. rewrite Ef. cbn [fst snd]. split; [exact Q|exact M]. }
        cbn [concat]. rewrite fold_left_app, Ef, (fold_lanes (concat sw) lanes1 delta 0). exact Eq.
Qed.

Lemma column_stops block_size n n_iter j w : descent_column is_zero shuffle positive_only block_size n X l2 l1 tol n_iter j w ->
  settled_column is_zero positive_only block_size n X l2 l1 tol j w \/ unsettled_column is_zero positive_only block_size n X l2 l1 tol n_iter j w.
Proof.
  intros (g & inds & g' & inds' & lanes & l & P & E & Hl & Il & ->).
  destruct (descent_stops _ _ _ _ _ _ _ P E) as [(before & last & Hb & Pl & D & Eq)|(sw & L & Po & M & Eq)].
  - left. exists before, last, l. cbn zeta. rewrite <- Eq. refine (conj Hb (conj Pl (conj D (conj Hl (conj Il _))))). intros f _; reflexivity.
  - right. exists sw, l. cbn zeta. rewrite <- Eq. refine (conj L (conj Po (conj M (conj Hl (conj Il _))))). intros f _; reflexivity.
Qed.

Lemma same_trans w w' v : same_weights X w w' -> same_weights X w' v -> same_weights X w v.
Proof. intros A B f Hf. rewrite (A f Hf). auto. Qed.

Lemma settled_same block_size n j w w' : same_weights X w w' -> settled_column is_zero positive_only block_size n X l2 l1 tol j w' ->
  settled_column is_zero positive_only block_size n X l2 l1 tol j w.
Proof. intros E (b & i & l & A & B & C & D & H & S). exists b, i, l. refine (conj A (conj B (conj C (conj D (conj H _))))). exact (same_trans _ _ _ E S). Qed.
Lemma unsettled_same block_size n n_iter j w w' : same_weights X w w' -> unsettled_column is_zero positive_only block_size n X l2 l1 tol n_iter j w' ->
  unsettled_column is_zero positive_only block_size n X l2 l1 tol n_iter j w.
Proof. intros E (b & l & A & B & C & D & H & S). exists b, l. refine (conj A (conj B (conj C (conj D (conj H _))))). exact (same_trans _ _ _ E S). Qed.

Lemma slim_stops gen0 sort_desc block_size n n_iter top_k n_threads sched W : (1 <= block_size)%nat -> (top_k < 0)%Z ->
  slim_Q is_zero gen0 shuffle sort_desc positive_only block_size n X l2 l1 tol n_iter top_k n_threads sched = Ok W ->
  0 <= l2 /\ 0 <= l1 /\
  forall j, (j < F)%nat -> settled_column is_zero positive_only block_size n X l2 l1 tol j (weight_column W j) \/
    unsettled_column is_zero positive_only block_size n X l2 l1 tol n_iter j (weight_column W j).
Proof.
  intros B T E. destruct (slim_checked is_zero gen0 shuffle sort_desc positive_only block_size n X l2 l1 tol n_iter top_k n_threads sched W E) as [A1 A2].
  split; [exact A1|]. split; [exact A2|]. intros j Hj.
  destruct (slim_found is_zero gen0 shuffle sort_desc positive_only block_size n X l2 l1 tol n_iter top_k shuf B n_threads sched W E) as (_ & _ & C).
  destruct (C j Hj) as (_ & w & D & S). specialize (S (or_introl T)).
  destruct (column_stops _ _ _ _ _ D) as [K|K]; [left; apply (settled_same _ _ _ _ w S K)|right; apply (unsettled_same _ _ _ _ _ w S K)].
Qed.
End Stops.

Lemma result_near {G} is_zero (gen0 : G) shuffle sort_desc positive_only block_size n X l2 l1 tol n_iter top_k n_threads sched W :
  exact_test is_zero -> shuffle_ok shuffle -> (1 <= block_size)%nat -> good_columns n X -> (top_k < 0)%Z ->
  slim_Q is_zero gen0 shuffle sort_desc positive_only block_size n X l2 l1 tol n_iter top_k n_threads sched = Ok W ->
  forall j, (j < length X)%nat ->
    unsettled_column is_zero positive_only block_size n X l2 l1 tol n_iter j (weight_column W j) \/
    (forall w, feasible positive_only X j w ->
       2 * l2 * (objective n X l2 l1 j (weight_column W j) - objective n X l2 l1 j w) <= slack n X tol) /\
    (forall w, optimal positive_only n X l2 l1 j w -> l2 * l2 * distance2 X (weight_column W j) w <= slack n X tol).
Proof.
  intros E S B GX T Ok j Hj. destruct (slim_stops is_zero shuffle positive_only X l2 l1 tol S gen0 sort_desc block_size n n_iter top_k n_threads sched W B T Ok) as (L2 & L1 & C).
  destruct (C j Hj) as [K|K]; [right|left; exact K]. split; intros w Hw.
  - exact (settled_excess is_zero positive_only block_size n X l2 l1 tol E GX L2 L1 j _ w K Hj Hw).
  - exact (settled_distance is_zero positive_only block_size n X l2 l1 tol E GX L2 L1 j _ w K Hj Hw).
Qed.

Lemma runs_near {G G'} is_zero is_zero' (gen0 : G) (gen0' : G') shuffle shuffle' sort_desc sort_desc' positive_only
    block_size block_size' n X l2 l1 tol n_iter n_iter' top_k n_threads n_threads' sched sched' W W' :
  exact_test is_zero -> exact_test is_zero' -> shuffle_ok shuffle -> shuffle_ok shuffle' -> (1 <= block_size)%nat -> (1 <= block_size')%nat ->
  good_columns n X -> (top_k < 0)%Z ->
  slim_Q is_zero gen0 shuffle sort_desc positive_only block_size n X l2 l1 tol n_iter top_k n_threads sched = Ok W ->
  slim_Q is_zero' gen0' shuffle' sort_desc' positive_only block_size' n X l2 l1 tol n_iter' top_k n_threads' sched' = Ok W' ->
  forall j, (j < length X)%nat ->
    unsettled_column is_zero positive_only block_size n X l2 l1 tol n_iter j (weight_column W j) \/
    unsettled_column is_zero' positive_only block_size' n X l2 l1 tol n_iter' j (weight_column W' j) \/
    l2 * l2 * distance2 X (weight_column W j) (weight_column W' j) <= 4 * slack n X tol.
Proof.
  intros E E' S S' B B' GX T Ok Ok' j Hj.
  destruct (slim_stops is_zero shuffle positive_only X l2 l1 tol S gen0 sort_desc block_size n n_iter top_k n_threads sched W B T Ok) as (L2 & L1 & C).
  destruct (slim_stops is_zero' shuffle' positive_only X l2 l1 tol S' gen0' sort_desc' block_size' n n_iter' top_k n_threads' sched' W' B' T Ok') as (_ & _ & C').
  destruct (C j Hj) as [K|K]; [right|left; exact K]. destruct (C' j Hj) as [K'|K']; [right|left; exact K'].
  exact (settled_pair is_zero is_zero' positive_only block_size block_size' n X l2 l1 tol j _ _ E E' GX L2 L1 Hj K K').
Qed.

Lemma learn_near {G} is_zero (gen0 : G) shuffle sort_desc block_size alpha l1_ratio positive_only n_iter tol users X n_threads n_threads' sched sched' W W' :
  exact_test is_zero -> shuffle_ok shuffle -> (1 <= block_size)%nat -> good_columns users X ->
  let learn := slim_learn is_zero gen0 shuffle sort_desc block_size alpha l1_ratio positive_only n_iter tol None users X in
  let l2 := inject_Z (Z.of_nat users) * alpha * (1 - l1_ratio) in
  let l1 := inject_Z (Z.of_nat users) * alpha * l1_ratio in
  learn n_threads sched = Ok W -> learn n_threads' sched' = Ok W' ->
  forall j, (j < length X)%nat ->
    unsettled_column is_zero positive_only block_size users X l2 l1 tol n_iter j (weight_column W j) \/
    unsettled_column is_zero positive_only block_size users X l2 l1 tol n_iter j (weight_column W' j) \/
    l2 * l2 * distance2 X (weight_column W j) (weight_column W' j) <= 4 * slack users X tol.
Proof.
  intros E S B GX learn l2 l1 Ok Ok'.
  exact (runs_near is_zero is_zero gen0 gen0 shuffle shuffle sort_desc sort_desc positive_only block_size block_size users X l2 l1 tol n_iter n_iter (-1)
    n_threads n_threads' sched sched' W W' E E S S B B GX eq_refl Ok Ok').
Qed.
