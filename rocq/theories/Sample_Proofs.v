(** The bisection of mf_example_data finds the bias for the wanted density. *)
From Verif Require Import Base Sample_Model Sample_Spec.
From Coq Require Import Reals Lra.
From Coquelicot Require Import Coquelicot.
Local Open Scope R_scope.

(** ** expit *)
Lemma exp_den x : 0 < 1 + exp (- x).
Proof. pose proof (exp_pos (- x)); lra. Qed.
Lemma expit_bounds x : 0 < expit x < 1.
Proof.
  unfold expit. pose proof (exp_pos (- x)). split.
  - apply Rinv_0_lt_compat. lra.
  - rewrite <- Rinv_1. apply Rinv_lt_contravar; lra.
Qed.
Lemma expit_derive x : is_derive expit x (expit x * (1 - expit x)).
Proof.
  unfold expit. pose proof (exp_pos (- x)). auto_derive; [lra|]. field. lra.
Qed.
Lemma expit_quarter x : 0 <= expit x * (1 - expit x) <= / 4.
Proof.
  pose proof (expit_bounds x). split; [apply Rmult_le_pos; lra|].
  pose proof (Rle_0_sqr (expit x - / 2)). unfold Rsqr in *. lra.
Qed.
Lemma expit_lip x y : x <= y -> 0 <= expit y - expit x <= (y - x) / 4.
Proof.
  intros [H|<-]; [|lra].
  destruct (MVT_cor2 expit (fun c => expit c * (1 - expit c)) x y H) as [c [Hc _]].
  { intros c _. apply is_derive_Reals, expit_derive. }
  rewrite Hc. pose proof (expit_quarter c). split.
  - apply Rmult_le_pos; lra.
  - apply Rle_trans with (/ 4 * (y - x)); [apply Rmult_le_compat_r; lra|lra].
Qed.

(** ** Sums *)
Lemma Rsum_app a b : Rsum (a ++ b) = Rsum a + Rsum b.
Proof. unfold Rsum. induction a as [|x a IH]; cbn [app fold_right]; [ring|]. rewrite IH. ring. Qed.
Lemma Rsum_bounds (l : list R) (f g : R -> R) lo hi :
  (forall x, lo <= g x - f x <= hi) ->
  INR (length l) * lo <= Rsum (map g l) - Rsum (map f l) <= INR (length l) * hi.
Proof.
  intros H. induction l as [|x l IH]; [cbn; lra|].
  cbn [length map Rsum fold_right]. fold (Rsum (map f l)). fold (Rsum (map g l)). rewrite S_INR. specialize (H x). lra.
Qed.

Definition dens (l : list R) (b : R) : R := Rsum (map (fun x => expit (x + b)) l) / INR (length l).
Lemma dens_lip l b c : l <> [] -> b <= c -> 0 <= dens l c - dens l b <= (c - b) / 4.
Proof.
  intros Hl Hb. unfold dens.
  pose proof (Rsum_bounds l (fun x => expit (x + b)) (fun x => expit (x + c)) 0 ((c - b) / 4)) as H.
  assert (forall x, 0 <= expit (x + c) - expit (x + b) <= (c - b) / 4) as H0.
  { intros x. pose proof (expit_lip (x + b) (x + c)). lra. }
  specialize (H H0). clear H0.
  assert (0 < INR (length l)) as Hn. { apply lt_0_INR. destruct l; [congruence|cbn; lia]. }
  set (n := INR (length l)) in *. set (A := Rsum (map (fun x => expit (x + c)) l)) in *. set (B := Rsum (map (fun x => expit (x + b)) l)) in *.
  replace (A / n - B / n) with ((A - B) / n) by (field; lra). split.
  - apply Rmult_le_pos; [lra|]. apply Rlt_le, Rinv_0_lt_compat, Hn.
  - apply Rmult_le_reg_r with n; [exact Hn|]. unfold Rdiv at 1. rewrite Rmult_assoc, Rinv_l by lra. lra.
Qed.
Lemma expected_densityE s b : concat s <> [] -> expected_density s b = Some (dens (concat s) b).
Proof.
  intros H. unfold expected_density, mean, dens. rewrite map_length.
  destruct (concat s) as [|x l]; [congruence|]. reflexivity.
Qed.

(** ** The search *)
Section Search.
Variable s : list (list R).
Hypothesis Hs : concat s <> [].
Variable target : R.
Let D := dens (concat s).
Let goal := clamp (D (-100)) (D 100) target.

Lemma D_mono b c : b <= c -> D b <= D c.
Proof. intros H. pose proof (dens_lip (concat s) b c Hs H). unfold D. lra. Qed.
Definition low (b : R) : Prop := -100 <= b <= 100 /\ (b = -100 \/ D b <= target).
Definition high (b : R) : Prop := -100 <= b <= 100 /\ (b = 100 \/ target < D b).
Lemma low_goal b : low b -> D b <= goal.
Proof.
  intros [Hb [->|H]]; unfold goal, clamp; [apply Rmax_l|].
  apply Rle_trans with (Rmin (D 100) target); [|apply Rmax_r].
  apply Rmin_glb; [apply D_mono; lra|exact H].
Qed.
Lemma high_goal b : high b -> goal <= D b.
Proof.
  intros [Hb H]; unfold goal, clamp. apply Rmax_lub; [apply D_mono; lra|].
  destruct H as [->|H]; [apply Rmin_l|]. apply Rle_trans with target; [apply Rmin_r|lra].
Qed.
Lemma near lo hi b : low lo -> high hi -> lo <= b <= hi -> Rabs (D b - goal) <= (hi - lo) / 4.
Proof.
  intros Hlo Hhi Hb. pose proof (low_goal lo Hlo). pose proof (high_goal hi Hhi).
  pose proof (D_mono lo b ltac:(lra)). pose proof (D_mono b hi ltac:(lra)).
  pose proof (dens_lip (concat s) lo hi Hs ltac:(lra)) as H3. fold (D lo) (D hi) in H3.
  apply Rabs_le. lra.
Qed.

Lemma search_near fuel : forall mx mn, low mn -> high mx -> mn <= mx -> mx - mn < search_eps * 2 ^ fuel ->
  Rabs (D (search fuel s target mx mn ((mx + mn) / 2)) - goal) <= search_eps / 4 /\
  mn <= search fuel s target mx mn ((mx + mn) / 2) <= mx.
Proof.
  induction fuel as [|fuel IH]; intros mx mn Hl Hh Hm Hw.
  { cbn [search]. cbn in Hw. split; [|lra]. pose proof (near mn mx ((mx + mn) / 2) Hl Hh ltac:(lra)). lra. }
  cbn [search]. rewrite expected_densityE by assumption. cbn [nan_gt]. fold (D ((mx + mn) / 2)).
  cbn [pow] in Hw. set (b := (mx + mn) / 2) in *.
  assert (-100 <= b <= 100) as Hb by (destruct Hl, Hh; unfold b; lra).
  destruct (Rlt_dec target (D b)) as [Ht|Ht].
  - assert (high b) as Hb' by (split; [exact Hb|right; exact Ht]).
    destruct (Rlt_dec (b - mn) search_eps) as [He|He].
    + split; [|unfold b; lra]. pose proof (near mn b b Hl Hb' ltac:(unfold b; lra)). lra.
    + destruct (IH b mn Hl Hb' ltac:(unfold b; lra) ltac:(unfold b; lra)) as [H1 H2].
      split; [exact H1|]. unfold b in *. lra.
  - assert (low b) as Hb' by (split; [exact Hb|right; lra]).
    destruct (Rlt_dec (mx - b) search_eps) as [He|He].
    + split; [|unfold b; lra]. pose proof (near b mx b Hb' Hh ltac:(unfold b; lra)). lra.
    + destruct (IH mx b Hb' Hh ltac:(unfold b; lra) ltac:(unfold b; lra)) as [H1 H2].
      split; [exact H1|]. unfold b in *. lra.
Qed.
Lemma bias_near : Rabs (D (bias_of s target) - goal) <= search_eps / 4 /\ -100 <= bias_of s target <= 100.
Proof.
  unfold bias_of. replace 0 with ((100 + -100) / 2) by lra. apply search_near.
  - split; [lra|left; reflexivity].
  - split; [lra|left; reflexivity].
  - lra.
  - assert (2 ^ 27 <= 2 ^ 100) by (apply Rle_pow; [lra|lia]).
    assert (2 ^ 27 = 134217728) by ring. unfold search_eps. lra.
Qed.
End Search.

(** ** Probabilities *)
Lemma in_probabilities U V t p : In p (concat (probabilities U V t)) -> 0 < p < 1.
Proof.
  unfold probabilities. intros H. apply in_concat in H. destruct H as [r [Hr Hp]].
  apply in_map_iff in Hr. destruct Hr as [q [<- _]]. apply in_map_iff in Hp. destruct Hp as [x [<- _]].
  apply expit_bounds.
Qed.
Lemma mf_ok U V t flips : mf_example_data U V t flips = Ok (reshape (probabilities U V t) flips).
Proof.
  unfold mf_example_data. destruct (forallb _ _) eqn:E; [reflexivity|].
  apply not_true_iff_false in E. exfalso. apply E. apply forallb_forall. intros p Hp.
  apply in_probabilities in Hp. unfold is_probability. destruct (Rle_dec 0 p); [|lra]. destruct (Rle_dec p 1); [reflexivity|lra].
Qed.
Lemma concat_map_map (A B : Type) (f : A -> B) (l : list (list A)) : concat (map (map f) l) = map f (concat l).
Proof. symmetry. apply concat_map. Qed.

Lemma Rsum_concat l : Rsum (concat l) = Rsum (map Rsum l).
Proof. induction l as [|x l IH]; [reflexivity|]. cbn [concat map]. rewrite Rsum_app, IH. reflexivity. Qed.
Lemma scores_length U V : length (concat (all_scores U V)) = (length U * length V)%nat.
Proof.
  unfold all_scores. induction U as [|u U IH]; [reflexivity|].
  cbn [map concat length]. rewrite app_length, IH, map_length. cbn. lia.
Qed.
Lemma densE U V b : dens (concat (all_scores U V)) b = density_at U V b.
Proof.
  unfold dens, density_at. rewrite scores_length. f_equal.
  rewrite concat_map, Rsum_concat. unfold all_scores. rewrite !map_map. f_equal. apply map_ext. intros u.
  rewrite map_map. reflexivity.
Qed.
Lemma density_at_mono U V b c : b <= c -> density_at U V b <= density_at U V c.
Proof.
  intros H. rewrite <- !densE. destruct (concat (all_scores U V)) as [|x l] eqn:E.
  - unfold dens. cbn. lra.
  - pose proof (dens_lip (x :: l) b c ltac:(discriminate) H). lra.
Qed.

(** ** Expectation *)
Lemma expectation_ext ps : forall f g, (forall l, length l = length ps -> f l = g l) -> expectation ps f = expectation ps g.
Proof.
  induction ps as [|p ps IH]; intros f g H; cbn [expectation].
  - apply H. reflexivity.
  - f_equal; f_equal; apply IH; intros l Hl; apply H; cbn; lia.
Qed.
Lemma expectation_scale ps : forall f c d, expectation ps (fun l => c * f l + d) = c * expectation ps f + d.
Proof.
  induction ps as [|p ps IH]; intros f c d; cbn [expectation]; [reflexivity|].
  rewrite (IH (fun l => f (true :: l)) c d), (IH (fun l => f (false :: l)) c d). ring.
Qed.
Definition count_true (l : list bool) : nat := length (filter (fun b => b) l).
Lemma expectation_count ps : expectation ps (fun l => INR (count_true l)) = Rsum ps.
Proof.
  induction ps as [|p ps IH]; [reflexivity|]. cbn [expectation Rsum fold_right]. fold (Rsum ps).
  rewrite (expectation_ext ps _ (fun l => 1 * INR (count_true l) + 1)).
  2: { intros l _. unfold count_true. cbn [filter length]. rewrite S_INR. ring. }
  rewrite expectation_scale, IH.
  rewrite (expectation_ext ps (fun l => INR (count_true (false :: l))) (fun l => INR (count_true l))) by reflexivity.
  rewrite IH. ring.
Qed.

Lemma ones_length l : length (ones l) = count_true l.
Proof.
  unfold ones, count_true. rewrite map_length. generalize 0%nat. induction l as [|b l IH]; intros k; [reflexivity|].
  cbn [length seq combine filter snd]. destruct b; cbn [length]; rewrite IH; reflexivity.
Qed.
Lemma count_app a b : count_true (a ++ b) = (count_true a + count_true b)%nat.
Proof. unfold count_true. rewrite filter_app, app_length. reflexivity. Qed.
Lemma reshape_length rows : forall flips, length flips = length (concat rows) ->
  length (concat (reshape rows flips)) = count_true flips.
Proof.
  induction rows as [|r rows IH]; intros flips H.
  - cbn in *. destruct flips; [reflexivity|discriminate].
  - cbn [reshape concat]. cbn [concat] in H. rewrite app_length in H.
    rewrite app_length, ones_length, IH by (rewrite skipn_length; lia).
    rewrite <- count_app, firstn_skipn. reflexivity.
Qed.

Lemma expected_result U V t : U <> [] -> V <> [] ->
  let b := bias_of (all_scores U V) t in
  expectation (concat (probabilities U V t)) (fun flips =>
    density (length U) (length V) (value_or [] (mf_example_data U V t flips))) = density_at U V b.
Proof.
  intros HU HV b.
  rewrite (expectation_ext _ _ (fun l => / INR (length U * length V) * INR (count_true l) + 0)).
  2: { intros l Hl. rewrite mf_ok. cbn [value_or]. unfold density. rewrite reshape_length by exact Hl.
       unfold Rdiv. ring. }
  rewrite expectation_scale, expectation_count, <- densE. unfold dens. rewrite scores_length.
  unfold probabilities. fold b. rewrite concat_map_map. unfold Rdiv. ring.
Qed.

Lemma scores_nonempty U V : U <> [] -> V <> [] -> concat (all_scores U V) <> [].
Proof.
  intros HU HV H. apply (f_equal (@length R)) in H. rewrite scores_length in H. cbn in H.
  destruct U; [congruence|]. destruct V; [congruence|]. cbn in H. lia.
Qed.
Lemma expected_near U V t : U <> [] -> V <> [] ->
  Rabs (expectation (concat (probabilities U V t)) (fun flips =>
          density (length U) (length V) (value_or [] (mf_example_data U V t flips)))
        - clamp (density_at U V (-100)) (density_at U V 100) t) <= / 400000.
Proof.
  intros HU HV. rewrite expected_result by assumption. rewrite <- !densE.
  pose proof (bias_near (all_scores U V) (scores_nonempty U V HU HV) t) as [H _].
  unfold search_eps in H. lra.
Qed.

(** ** Shape *)
Lemma ones_range l j : In j (ones l) <-> (j < length l)%nat /\ nth j l false = true.
Proof.
  unfold ones. rewrite in_map_iff. split.
  - intros [[i b] [<- H]]. apply filter_In in H. cbn in H. destruct H as [H ->].
    apply (In_nth _ _ (0%nat, false)) in H. destruct H as [k [Hk Hn]].
    rewrite combine_length, seq_length in Hk. rewrite combine_nth in Hn by apply seq_length.
    rewrite seq_nth in Hn by lia. cbn in Hn. injection Hn as <- Hn. cbn. split; [lia|exact Hn].
  - intros [Hj Hn]. exists (j, true). split; [reflexivity|]. apply filter_In. split; [|reflexivity].
    replace (j, true) with (nth j (combine (seq 0 (length l)) l) (0%nat, false)).
    + apply nth_In. rewrite combine_length, seq_length. lia.
    + rewrite combine_nth by apply seq_length. rewrite seq_nth by lia. rewrite Hn. reflexivity.
Qed.
Lemma skip_skip (A : Type) (l : list A) : forall a b, skipn a (skipn b l) = skipn (a + b) l.
Proof.
  induction l as [|x l IH]; intros a b; [rewrite !skipn_nil; reflexivity|].
  destruct b as [|b]; [rewrite Nat.add_0_r; reflexivity|]. rewrite Nat.add_succ_r. cbn [skipn]. apply IH.
Qed.
Lemma reshape_rows rows : forall w flips, (forall r, In r rows -> length r = w) ->
  length (reshape rows flips) = length rows /\
  forall i, (i < length rows)%nat ->
    nth i (reshape rows flips) [] = ones (firstn w (skipn (i * w) flips)).
Proof.
  induction rows as [|r rows IH]; intros w flips H; [split; [reflexivity|cbn; lia]|].
  cbn [reshape length]. rewrite (H r (or_introl eq_refl)).
  destruct (IH w (skipn w flips) (fun r' Hr' => H r' (or_intror Hr'))) as [H1 H2].
  split; [congruence|]. intros [|i] Hi; [reflexivity|]. cbn [nth]. rewrite H2 by lia.
  f_equal. f_equal. rewrite skip_skip. f_equal. cbn. lia.
Qed.
Lemma probability_rows U V t r : In r (probabilities U V t) -> length r = length V.
Proof.
  unfold probabilities, all_scores. intros H. apply in_map_iff in H. destruct H as [q [<- H]].
  apply in_map_iff in H. destruct H as [u [<- _]]. rewrite !map_length. reflexivity.
Qed.
Lemma nth_skip (l : list bool) : forall k j, nth j (skipn k l) false = nth (k + j) l false.
Proof. induction l as [|b l IH]; intros [|k] j; cbn; try reflexivity; [destruct j; reflexivity|]. apply IH. Qed.
Lemma nth_first (l : list bool) : forall k j, (j < k)%nat -> nth j (firstn k l) false = nth j l false.
Proof. induction l as [|b l IH]; intros [|k] [|j] H; cbn; try reflexivity; try lia. apply IH. lia. Qed.
Lemma result_shape U V t flips : length flips = (length U * length V)%nat ->
  exists rows, mf_example_data U V t flips = Ok rows /\ length rows = length U /\
  forall i j, In j (nth i rows []) <-> (i < length U)%nat /\ (j < length V)%nat /\ nth (i * length V + j) flips false = true.
Proof.
  intros Hl. exists (reshape (probabilities U V t) flips). split; [apply mf_ok|].
  destruct (reshape_rows (probabilities U V t) (length V) flips (probability_rows U V t)) as [H1 H2].
  assert (length (probabilities U V t) = length U) as HU.
  { unfold probabilities, all_scores. rewrite !map_length. reflexivity. }
  rewrite H1, HU in *. split; [reflexivity|]. intros i j. destruct (Nat.lt_ge_cases i (length U)) as [Hi|Hi].
  - rewrite H2 by assumption. rewrite ones_range, firstn_length, skipn_length. split.
    + intros [Hj Hn]. split; [exact Hi|]. assert (j < length V)%nat as Hj' by lia. split; [exact Hj'|].
      rewrite nth_first, nth_skip in Hn by assumption. exact Hn.
    + intros [_ [Hj Hn]]. split.
      * rewrite Hl. nia.
      * rewrite nth_first, nth_skip by assumption. exact Hn.
  - rewrite nth_overflow by lia. cbn. split; [tauto|lia].
Qed.

(** ** Reaching the target *)
Lemma exp20 : 1048576 <= exp 20.
Proof.
  assert (forall n, (2 ^ n) <= exp (INR n)) as H.
  { induction n as [|n IH]; [cbn [pow INR]; rewrite exp_0; lra|].
    cbn [pow]. rewrite S_INR, exp_plus, Rmult_comm. apply Rmult_le_compat; try lra.
    - apply pow_le. lra.
    - pose proof (exp_ineq1 1). lra. }
  specialize (H 20%nat). replace (INR 20) with 20 in H by (cbn; ring).
  replace (2 ^ 20) with 1048576 in H by ring. exact H.
Qed.
Lemma expit_low x : x <= -20 -> expit x <= / 1000000.
Proof.
  intros H. unfold expit. apply Rinv_le_contravar; [lra|].
  pose proof exp20. destruct (Rle_lt_or_eq_dec 20 (- x) ltac:(lra)) as [H1|H1].
  - apply exp_increasing in H1. lra.
  - rewrite <- H1. lra.
Qed.
Lemma expit_sym x : expit x = 1 - expit (- x).
Proof.
  unfold expit. rewrite Ropp_involutive, exp_Ropp. pose proof (exp_pos x). field. lra.
Qed.
Lemma expit_high x : 20 <= x -> 1 - / 1000000 <= expit x.
Proof. intros H. rewrite expit_sym. pose proof (expit_low (- x) ltac:(lra)). lra. Qed.
Lemma Rsum_le (l : list R) (f : R -> R) lo hi : (forall x, In x l -> lo <= f x <= hi) ->
  INR (length l) * lo <= Rsum (map f l) <= INR (length l) * hi.
Proof.
  unfold Rsum. induction l as [|x l IH]; intros H; [cbn; lra|].
  cbn [length map fold_right]. rewrite S_INR. pose proof (H x (or_introl eq_refl)).
  specialize (IH (fun y Hy => H y (or_intror Hy))). lra.
Qed.
Lemma dens_bounds l b lo hi : l <> [] -> (forall x, In x l -> lo <= expit (x + b) <= hi) -> lo <= dens l b <= hi.
Proof.
  intros Hl H. apply (Rsum_le l (fun x => expit (x + b))) in H. unfold dens.
  assert (0 < INR (length l)) as Hn. { apply lt_0_INR. destruct l; [congruence|cbn; lia]. }
  set (n := INR (length l)) in *. set (A := Rsum _) in *.
  split; (apply Rmult_le_reg_r with n; [exact Hn|]; unfold Rdiv; rewrite Rmult_assoc, Rinv_l by lra; lra).
Qed.
Lemma in_scores U V x : In x (concat (all_scores U V)) <-> exists u v, In u U /\ In v V /\ x = vdot u v.
Proof.
  unfold all_scores. rewrite in_concat. split.
  - intros [r [Hr Hx]]. apply in_map_iff in Hr. destruct Hr as [u [<- Hu]].
    apply in_map_iff in Hx. destruct Hx as [v [<- Hv]]. exists u, v. auto.
  - intros [u [v [Hu [Hv ->]]]]. exists (map (vdot u) V). split; apply in_map_iff; eauto.
Qed.
Lemma expected_reached U V t : U <> [] -> V <> [] ->
  (forall u v, In u U -> In v V -> -80 <= vdot u v <= 80) ->
  / 1000000 <= t <= 1 - / 1000000 ->
  Rabs (expectation (concat (probabilities U V t)) (fun flips =>
          density (length U) (length V) (value_or [] (mf_example_data U V t flips))) - t) <= / 400000.
Proof.
  intros HU HV Hs Ht. pose proof (expected_near U V t HU HV) as H.
  replace (clamp _ _ _) with t in H; [exact H|].
  pose proof (scores_nonempty U V HU HV) as Hne. rewrite <- !densE. unfold clamp.
  destruct (dens_bounds (concat (all_scores U V)) (-100) 0 (/ 1000000) Hne) as [_ H1].
  { intros x Hx. apply in_scores in Hx. destruct Hx as [u [v [Hu [Hv ->]]]]. specialize (Hs u v Hu Hv).
    pose proof (expit_bounds (vdot u v + -100)). split; [lra|]. apply expit_low. lra. }
  destruct (dens_bounds (concat (all_scores U V)) 100 (1 - / 1000000) 1 Hne) as [H2 _].
  { intros x Hx. apply in_scores in Hx. destruct Hx as [u [v [Hu [Hv ->]]]]. specialize (Hs u v Hu Hv).
    pose proof (expit_bounds (vdot u v + 100)). split; [|lra]. apply expit_high. lra. }
  rewrite Rmin_right by lra. rewrite Rmax_right by lra. reflexivity.
Qed.

(** ** Single entries *)
Definition coin (k : nat) (flips : list bool) : R := if nth k flips false then 1 else 0.
Lemma expectation_const ps c : expectation ps (fun _ => c) = c.
Proof. induction ps as [|p ps IH]; cbn [expectation]; [reflexivity|]. rewrite IH. ring. Qed.
Lemma expectation_coin ps : forall k, expectation ps (coin k) = nth k ps 0.
Proof.
  induction ps as [|p ps IH]; intros [|k]; cbn [expectation nth]; try reflexivity.
  - change (fun l => coin 0 (true :: l)) with (fun _ : list bool => 1). change (fun l => coin 0 (false :: l)) with (fun _ : list bool => 0).
    rewrite !expectation_const. ring.
  - change (fun l => coin (S k) (true :: l)) with (coin k). change (fun l => coin (S k) (false :: l)) with (coin k).
    rewrite IH. ring.
Qed.
Lemma nth_concat (A : Type) (d : A) w (l : list (list A)) : (forall r, In r l -> length r = w) ->
  forall i j, (i < length l)%nat -> (j < w)%nat -> nth (i * w + j) (concat l) d = nth j (nth i l []) d.
Proof.
  induction l as [|r l IH]; intros H i j Hi Hj; [cbn in Hi; lia|]. cbn [concat].
  pose proof (H r (or_introl eq_refl)) as Hr. destruct i as [|i].
  - cbn. apply app_nth1. lia.
  - rewrite app_nth2 by (cbn; lia). cbn [nth]. rewrite <- (IH (fun r' Hr' => H r' (or_intror Hr')) i j); [|cbn in Hi; lia|exact Hj]. f_equal. cbn. lia.
Qed.
Lemma nth_probabilities U V t i j : (i < length U)%nat -> (j < length V)%nat ->
  nth (i * length V + j) (concat (probabilities U V t)) 0
  = expit (vdot (nth i U []) (nth j V []) + bias_of (all_scores U V) t).
Proof.
  intros Hi Hj.
  assert (length (probabilities U V t) = length U) as HU. { unfold probabilities, all_scores. rewrite !map_length. reflexivity. }
  rewrite (nth_concat R 0 (length V)); [|apply probability_rows|lia|exact Hj].
  unfold probabilities. set (b := bias_of _ _). unfold all_scores.
  rewrite (nth_indep _ [] (map (fun x => expit (x + b)) (map (vdot []) V))) by (rewrite !map_length; exact Hi).
  rewrite (map_nth (map (fun x => expit (x + b)))). rewrite (map_nth (fun u => map (vdot u) V)).
  rewrite (nth_indep _ 0 (expit (vdot (nth i U []) [] + b))) by (rewrite !map_length; exact Hj).
  rewrite (map_nth (fun x => expit (x + b))). rewrite map_nth. reflexivity.
Qed.
Lemma probabilities_total U V t : length (concat (probabilities U V t)) = (length U * length V)%nat.
Proof. unfold probabilities. rewrite concat_map_map, map_length. apply scores_length. Qed.
Lemma entry_probability U V t i j : (i < length U)%nat -> (j < length V)%nat ->
  expectation (concat (probabilities U V t))
    (fun flips => if existsb (Nat.eqb j) (nth i (value_or [] (mf_example_data U V t flips)) []) then 1 else 0)
  = expit (vdot (nth i U []) (nth j V []) + bias_of (all_scores U V) t).
Proof.
  intros Hi Hj. rewrite <- nth_probabilities by assumption. rewrite <- expectation_coin. apply expectation_ext.
  intros l Hl. rewrite probabilities_total in Hl. destruct (result_shape U V t l Hl) as [rows [E [_ H]]].
  rewrite E. cbn [value_or]. unfold coin. specialize (H i j).
  destruct (existsb _ _) eqn:Ex.
  - apply existsb_exists in Ex. destruct Ex as [j' [Hj' Hb]]. apply Nat.eqb_eq in Hb. subst j'.
    apply H in Hj'. destruct Hj' as [_ [_ ->]]. reflexivity.
  - destruct (nth _ l false) eqn:En; [|reflexivity]. exfalso. apply not_true_iff_false in Ex. apply Ex.
    apply existsb_exists. exists j. split; [apply H; auto|apply Nat.eqb_refl].
Qed.
Lemma search_range s t fuel : forall mx mn, -100 <= mn -> mn <= mx -> mx <= 100 ->
  -100 <= search fuel s t mx mn ((mx + mn) / 2) <= 100.
Proof.
  induction fuel as [|fuel IH]; intros mx mn H1 H2 H3; cbn [search]; [lra|].
  destruct (nan_gt _ _); destruct (Rlt_dec _ _); try lra; apply IH; lra.
Qed.
Lemma chance_of U V t : exists b, -100 <= b <= 100 /\
  forall i j, (i < length U)%nat -> (j < length V)%nat ->
  expectation (concat (probabilities U V t))
    (fun flips => if existsb (Nat.eqb j) (nth i (value_or [] (mf_example_data U V t flips)) []) then 1 else 0)
  = / (1 + exp (- (vdot (nth i U []) (nth j V []) + b))).
Proof.
  exists (bias_of (all_scores U V) t). split.
  - unfold bias_of. replace 0 with ((100 + -100) / 2) by lra. apply search_range; lra.
  - apply entry_probability.
Qed.
Lemma mean_density_le_1 U V t : U <> [] -> V <> [] ->
  expectation (concat (probabilities U V t)) (fun flips =>
    density (length U) (length V) (value_or [] (mf_example_data U V t flips))) <= 1.
Proof.
  intros HU HV. rewrite expected_result by assumption. rewrite <- densE.
  destruct (dens_bounds (concat (all_scores U V)) (bias_of (all_scores U V) t) 0 1) as [_ H]; [|intros x _|exact H].
  - apply scores_nonempty; assumption.
  - pose proof (expit_bounds (x + bias_of (all_scores U V) t)). lra.
Qed.
