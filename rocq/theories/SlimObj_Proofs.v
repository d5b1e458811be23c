(** The elastic-net objective under the SLIM coordinate updates. *)
From Verif Require Import Base Sched_Model Sched_Proofs Knn_Model Knn_Spec KnnSim_Proofs KnnP3_Proofs Sparse_Proofs Slim_Model Slim_Spec Slim_Proofs.
From Coq Require Import QArith Qabs Qfield Lqa.
Local Open Scope Q_scope.

(** * Sums over 0..n-1 *)
Notation qs n h := (Qsum (map h (seq 0 n))).

Lemma qs_ext n h k : (forall i, (i < n)%nat -> h i == k i) -> qs n h == qs n k.
Proof. intros H. apply Qsum_map_ext. intros i Hi. apply in_seq in Hi. apply H. lia. Qed.
Lemma qs_plus n h k : qs n (fun i => h i + k i) == qs n h + qs n k.
Proof. apply Qsum_map_plus. Qed.
Lemma qs_scal n c h : qs n (fun i => c * h i) == c * qs n h.
Proof. apply Qsum_map_scal. Qed.
Lemma qs_le n h k : (forall i, (i < n)%nat -> h i <= k i) -> qs n h <= qs n k.
Proof. intros H. apply Qsum_le_map. intros i Hi. apply in_seq in Hi. apply H. lia. Qed.
Lemma qs_nonneg n h : (forall i, (i < n)%nat -> 0 <= h i) -> 0 <= qs n h.
Proof. intros H. apply Qsum_nonneg. apply Forall_forall. intros x Hx. apply in_map_iff in Hx. destruct Hx as (i & <- & Hi). apply in_seq in Hi. apply H. lia. Qed.
Lemma qs_zero n : qs n (fun _ => 0) == 0.
Proof. generalize (seq 0 n). induction l as [|x l IH]; cbn; [reflexivity|]. fold (Qsum (map (fun _ : nat => 0) l)). rewrite IH. ring. Qed.
Lemma list_swap {A B} (h : A -> B -> Q) la lb :
  Qsum (map (fun i => Qsum (map (fun j => h i j) lb)) la) == Qsum (map (fun j => Qsum (map (fun i => h i j) la)) lb).
Proof.
  induction la as [|a la IH]; cbn [map].
  - change (Qsum []) with 0. induction lb as [|b lb IH]; cbn; [reflexivity|]. change (fold_right Qplus 0 (map (fun _ => 0) lb)) with (Qsum (map (fun _ : B => 0) lb)). rewrite <- IH. ring.
  - change (Qsum (?a :: ?l)) with (a + Qsum l). rewrite IH, <- Qsum_map_plus. reflexivity.
Qed.
Lemma qs_swap n m h : qs n (fun i => qs m (fun j => h i j)) == qs m (fun j => qs n (fun i => h i j)).
Proof. apply list_swap. Qed.
Lemma qs_change n h (f : nat) d : (f < n)%nat -> qs n (fun i => h i + (if (i =? f)%nat then d else 0)) == qs n h + d.
Proof. intros H. rewrite qs_plus. rewrite (Qsum_pick (fun _ => d)) by exact H. reflexivity. Qed.

(** * Columns *)
Definition cval (c : srow Q) (r : nat) : Q := Qsum (map snd (filter (fun e => (fst e =? r)%nat) c)).

Lemma cval_absent c r : ~ In r (map fst c) -> cval c r == 0.
Proof.
  intros H. unfold cval. replace (filter _ c) with (@nil (nat * Q)); [reflexivity|].
  symmetry. induction c as [|e c IH]; [reflexivity|]. cbn in *. destruct (Nat.eqb_spec (fst e) r); [tauto|]. apply IH. tauto.
Qed.
Lemma cval_in c e : NoDup (map fst c) -> In e c -> cval c (fst e) == snd e.
Proof.
  induction c as [|a c IH]; intros N H; [destruct H|]. cbn [map] in N. apply NoDup_cons_iff in N. destruct N as [N1 N2].
  unfold cval. cbn [filter]. destruct H as [->|H].
  - rewrite Nat.eqb_refl. cbn [map]. change (Qsum (?a :: ?l)) with (a + Qsum l). fold (cval c (fst e)). rewrite cval_absent by exact N1. ring.
  - destruct (Nat.eqb_spec (fst a) (fst e)) as [E|E].
    + exfalso. apply N1. rewrite E. now apply in_map.
    + now apply IH.
Qed.

Lemma column_sum n c h : good_row n c ->
  Qsum (map (fun e => snd e * h (fst e)) c) == qs n (fun r => cval c r * h r).
Proof.
  intros [_ B]. induction c as [|e c IH]; [cbn [map]; change (Qsum []) with 0; rewrite <- (qs_zero n); apply qs_ext; intros; unfold cval; cbn; ring|].
  cbn [map]. change (Qsum (?a :: ?l)) with (a + Qsum l). rewrite IH by (intros; apply B; now right).
  assert (Hlt : (fst e < n)%nat) by (apply B; now left).
  rewrite (Qplus_comm (snd e * h (fst e))). rewrite <- (qs_change n (fun r => cval c r * h r) (fst e) (snd e * h (fst e)) Hlt).
  apply qs_ext. intros r _. unfold cval at 2. cbn [filter]. rewrite (Nat.eqb_sym r). destruct (Nat.eqb_spec (fst e) r) as [<-|].
  - cbn [map]. change (Qsum (?a :: ?l)) with (a + Qsum l). fold (cval c (fst e)). ring.
  - fold (cval c r). ring.
Qed.
Lemma column_sum2 n c : good_row n c -> Qsum (map (fun e => snd e * snd e) c) == qs n (fun r => cval c r * cval c r).
Proof.
  intros G. rewrite <- (column_sum n c (cval c) G). apply Qsum_map_ext. intros e He. rewrite (cval_in c e) by (try apply G; exact He). reflexivity.
Qed.

Lemma fold_terms {A} (h : A -> Q) l : forall a, fold_left (fun acc e => acc + h e) l a == a + Qsum (map h l).
Proof. induction l as [|x l IH]; intros a; cbn [fold_left map]; [cbn; ring|]. rewrite IH. change (Qsum (?a :: ?l)) with (a + Qsum l). ring. Qed.

(** Scattered updates. *)
Lemma nth_upd l k x (i : nat) (d : Q) : nth i (update_nth l k x) d = if ((i =? k) && (i <? length l))%nat%bool then x else nth i l d.
Proof. exact (nth_update l k x i d). Qed.

Lemma scatter_length (g : list Q -> nat * Q -> Q) (c : srow Q) : forall rem,
  length (fold_left (fun rem e => update_nth rem (fst e) (g rem e)) c rem) = length rem.
Proof. induction c as [|e c IH]; intros rem; cbn [fold_left]; auto. rewrite IH. apply update_nth_length. Qed.

Lemma scatter_add d (c : srow Q) r : forall rem, good_row (length rem) c ->
  nth r (fold_left (fun rem e => update_nth rem (fst e) (nth (fst e) rem 0 + snd e * d)) c rem) 0 == nth r rem 0 + cval c r * d.
Proof.
  induction c as [|e c IH]; intros rem G; cbn [fold_left].
  - unfold cval. cbn. ring.
  - destruct G as [N B]. cbn [map] in N. apply NoDup_cons_iff in N. destruct N as [N1 N2].
    assert (Hlt : (fst e < length rem)%nat) by (apply B; now left).
    rewrite IH by (split; [exact N2|]; intros x Hx; rewrite update_nth_length; apply B; now right).
    rewrite nth_upd. unfold cval at 2. cbn [filter]. rewrite (Nat.eqb_sym r). destruct (Nat.eqb_spec (fst e) r) as [<-|].
    + rewrite (proj2 (Nat.ltb_lt _ _) Hlt). cbn [andb map]. change (Qsum (?a :: ?l)) with (a + Qsum l). fold (cval c (fst e)).
      rewrite cval_absent by exact N1. ring.
    + cbn [andb]. reflexivity.
Qed.
Lemma scatter_neg (c : srow Q) r : forall rem, good_row (length rem) c ->
  nth r (fold_left (fun rem e => update_nth rem (fst e) (- snd e)) c rem) 0 == if existsb (Nat.eqb r) (map fst c) then - cval c r else nth r rem 0.
Proof.
  induction c as [|e c IH]; intros rem G; cbn [fold_left map existsb]; [reflexivity|].
  destruct G as [N B]. cbn [map] in N. apply NoDup_cons_iff in N. destruct N as [N1 N2].
  assert (Hlt : (fst e < length rem)%nat) by (apply B; now left).
  rewrite IH by (split; [exact N2|]; intros x Hx; rewrite update_nth_length; apply B; now right).
  rewrite nth_upd. unfold cval at 2. cbn [filter]. rewrite (Nat.eqb_sym (fst e) r). destruct (Nat.eqb_spec r (fst e)) as [->|]; cbn [orb].
  - rewrite (proj2 (Nat.ltb_lt _ _) Hlt). cbn [andb map]. change (Qsum (?a :: ?l)) with (a + Qsum l). 
    pose proof (cval_absent c (fst e) N1) as Z. unfold cval in Z. rewrite Z. replace (existsb (Nat.eqb (fst e)) (map fst c)) with false; [ring|]. symmetry. apply not_true_iff_false. intros E. apply existsb_exists in E.
    destruct E as (x & Hx & E). apply Nat.eqb_eq in E. subst x. contradiction.
  - cbn [andb]. reflexivity.
Qed.

(** * Optimality *)
Section Problem.
Variable positive_only : bool.
Variable n : nat.
Variable X : list (srow Q).
Variables l2 l1 : Q.
Hypothesis GX : good_columns n X.
Hypothesis l2_0 : 0 <= l2.
Hypothesis l1_0 : 0 <= l1.
Notation F := (length X).
Notation x r f := (xval X r f).

Lemma good_nth f : good_row n (nth f X []).
Proof.
  destruct (Nat.lt_ge_cases f F) as [H|H]; [apply GX, nth_In; exact H|]. rewrite nth_overflow by exact H.
  split; [constructor|intros ? []].
Qed.

(** Gradient of the quadratic part in coordinate [f]. *)
Definition grad j w f : Q := qs n (fun r => x r f * residual X j w r).

Lemma residual_diff j w w' r :
  residual X j w' r == residual X j w r + qs F (fun f => x r f * (nth f w' 0 - nth f w 0)).
Proof.
  unfold residual.
  rewrite (qs_ext F (fun f => x r f * (nth f w' 0 - nth f w 0)) (fun f => x r f * nth f w' 0 + (-1) * (x r f * nth f w 0))) by (intros; ring).
  rewrite qs_plus, qs_scal. ring.
Qed.

Lemma residual_ext j w w' r : (forall f, (f < F)%nat -> nth f w' 0 == nth f w 0) -> residual X j w' r == residual X j w r.
Proof. intros H. unfold residual. rewrite (qs_ext F (fun f => x r f * nth f w' 0) (fun f => x r f * nth f w 0)); [reflexivity|]. intros f Hf. rewrite H by exact Hf. reflexivity. Qed.

Lemma grad_ext j w w' f : (forall g, (g < F)%nat -> nth g w' 0 == nth g w 0) -> grad j w' f == grad j w f.
Proof. intros H. apply qs_ext. intros r _. rewrite (residual_ext j w w' r H). reflexivity. Qed.

Lemma objective_ext j w w' : (forall f, (f < F)%nat -> nth f w' 0 == nth f w 0) -> objective n X l2 l1 j w' == objective n X l2 l1 j w.
Proof.
  intros H. unfold objective.
  rewrite (qs_ext n (fun r => residual X j w' r * residual X j w' r) (fun r => residual X j w r * residual X j w r)) by (intros; now rewrite (residual_ext j w w' i H)).
  rewrite (qs_ext F (fun f => nth f w' 0 * nth f w' 0) (fun f => nth f w 0 * nth f w 0)) by (intros; now rewrite H).
  rewrite (qs_ext F (fun f => Qabs (nth f w' 0)) (fun f => Qabs (nth f w 0))) by (intros; now rewrite H).
  reflexivity.
Qed.

(** Optimality conditions of one coordinate. *)
Definition kkt j w f : Prop :=
  (0 < nth f w 0 -> grad j w f + l2 * nth f w 0 + l1 == 0) /\
  (nth f w 0 < 0 -> grad j w f + l2 * nth f w 0 - l1 == 0) /\
  (nth f w 0 == 0 -> - grad j w f - l1 <= 0 /\ (positive_only = false -> 0 <= - grad j w f + l1)).

Lemma kkt_ext j w w' f : (f < F)%nat -> (forall g, (g < F)%nat -> nth g w' 0 == nth g w 0) -> kkt j w f -> kkt j w' f.
Proof.
  intros Hf H (A & B & C). unfold kkt. rewrite (grad_ext j w w' f H), (H f Hf). auto.
Qed.

Lemma kkt_term j w f t : kkt j w f -> (positive_only = true -> 0 <= t) ->
  0 <= grad j w f * (t - nth f w 0) + l2 * (1 # 2) * (t * t - nth f w 0 * nth f w 0) + l1 * (Qabs t - Qabs (nth f w 0)).
Proof.
  intros (A & B & C) P. set (g := grad j w f) in *. set (u := nth f w 0) in *.
  assert (S2 : 0 <= l2 * (1 # 2) * ((t - u) * (t - u))).
  { apply Qmult_le_0_compat; [apply Qmult_le_0_compat; [exact l2_0|discriminate]|]. destruct (Qlt_le_dec (t - u) 0); [|now apply Qmult_le_0_compat].
    setoid_replace ((t - u) * (t - u)) with ((u - t) * (u - t)) by ring. apply Qmult_le_0_compat; lra. }
  assert (E : l2 * (1 # 2) * (t * t - u * u) == l2 * (1 # 2) * ((t - u) * (t - u)) + l2 * u * (t - u)) by field.
  assert (At : - Qabs t <= t /\ t <= Qabs t).
  { split; [|apply Qle_Qabs]. pose proof (Qle_Qabs (- t)). rewrite Qabs_opp in H. lra. }
  assert (M1 : 0 <= l1 * (Qabs t - t)) by (apply Qmult_le_0_compat; lra).
  assert (M2 : 0 <= l1 * (Qabs t + t)) by (apply Qmult_le_0_compat; lra).
  destruct (Qlt_le_dec 0 u) as [U|U].
  - specialize (A U). rewrite (Qabs_pos u) by lra.
    assert (G : g == - (l2 * u) - l1) by lra. rewrite G, E.
    setoid_replace ((- (l2 * u) - l1) * (t - u) + (l2 * (1 # 2) * ((t - u) * (t - u)) + l2 * u * (t - u)) + l1 * (Qabs t - u))
      with (l2 * (1 # 2) * ((t - u) * (t - u)) + l1 * (Qabs t - t)) by ring. lra.
  - destruct (Qlt_le_dec u 0) as [U'|U'].
    + specialize (B U'). rewrite (Qabs_neg u) by lra.
      assert (G : g == - (l2 * u) + l1) by lra. rewrite G, E.
      setoid_replace ((- (l2 * u) + l1) * (t - u) + (l2 * (1 # 2) * ((t - u) * (t - u)) + l2 * u * (t - u)) + l1 * (Qabs t - - u))
        with (l2 * (1 # 2) * ((t - u) * (t - u)) + l1 * (Qabs t + t)) by ring. lra.
    + assert (U0 : u == 0) by lra. destruct (C U0) as [C1 C2].
      assert (S2' : 0 <= l2 * (1 # 2) * (t * t)) by (setoid_replace (l2 * (1 # 2) * (t * t)) with (l2 * (1 # 2) * ((t - u) * (t - u))) by (rewrite U0; ring); exact S2).
      rewrite U0. rewrite (Qabs_pos 0) by lra.
      setoid_replace (g * (t - 0) + l2 * (1 # 2) * (t * t - 0 * 0) + l1 * (Qabs t - 0)) with (l2 * (1 # 2) * (t * t) + (g * t + l1 * Qabs t)) by ring.
      destruct (Qlt_le_dec t 0) as [T|T].
      * assert (NP : positive_only = false) by (destruct positive_only; auto; specialize (P eq_refl); lra).
        specialize (C2 NP). rewrite (Qabs_neg t) by lra.
        assert (0 <= (- g + l1) * (- t)) by (apply Qmult_le_0_compat; lra).
        setoid_replace (g * t + l1 * - t) with ((- g + l1) * (- t)) by ring. lra.
      * rewrite (Qabs_pos t) by lra. assert (0 <= (g + l1) * t) by (apply Qmult_le_0_compat; lra).
        setoid_replace (g * t + l1 * t) with ((g + l1) * t) by ring. lra.
Qed.

Lemma square_nonneg a : 0 <= a * a.
Proof. destruct (Qlt_le_dec a 0); [|now apply Qmult_le_0_compat]. setoid_replace (a * a) with (- a * - a) by ring. apply Qmult_le_0_compat; lra. Qed.

Lemma kkt_minimal j w w' :
  (forall f, (f < F)%nat -> nth f w' 0 == nth f w 0 \/ kkt j w f) ->
  (positive_only = true -> forall f, (f < F)%nat -> 0 <= nth f w' 0) ->
  objective n X l2 l1 j w <= objective n X l2 l1 j w'.
Proof.
  intros K P. unfold objective.
  set (d := fun f => nth f w' 0 - nth f w 0).
  assert (Q1 : qs n (fun r => residual X j w r * residual X j w r) + 2 * qs F (fun f => grad j w f * d f)
               <= qs n (fun r => residual X j w' r * residual X j w' r)).
  { assert (E : qs F (fun f => grad j w f * d f) == qs n (fun r => residual X j w r * qs F (fun f => x r f * d f))).
    { rewrite (qs_ext F (fun f => grad j w f * d f) (fun f => qs n (fun r => residual X j w r * (x r f * d f)))).
      - rewrite qs_swap. apply qs_ext. intros r _. apply qs_scal.
      - intros f _. rewrite Qmult_comm. unfold grad. rewrite <- qs_scal. apply qs_ext. intros r _. ring. }
    rewrite E, <- qs_scal, <- qs_plus. apply qs_le. intros r _. rewrite (residual_diff j w w' r). fold (d 0%nat). 
    change (fun f => x r f * (nth f w' 0 - nth f w 0)) with (fun f => x r f * d f).
    set (a := residual X j w r). set (b := qs F (fun f => x r f * d f)).
    pose proof (square_nonneg b). setoid_replace ((a + b) * (a + b)) with (a * a + 2 * (a * b) + b * b) by ring. lra. }
  assert (T : 0 <= qs F (fun f => grad j w f * d f + l2 * (1 # 2) * (nth f w' 0 * nth f w' 0 - nth f w 0 * nth f w 0) + l1 * (Qabs (nth f w' 0) - Qabs (nth f w 0)))).
  { apply qs_nonneg. intros f Hf. destruct (K f Hf) as [E|E].
    - unfold d. rewrite E. setoid_replace (grad j w f * (nth f w 0 - nth f w 0) + l2 * (1 # 2) * (nth f w 0 * nth f w 0 - nth f w 0 * nth f w 0) + l1 * (Qabs (nth f w 0) - Qabs (nth f w 0))) with 0 by ring. lra.
    - apply kkt_term; [exact E|]. intros Hp. now apply P. }
  assert (T2 : qs F (fun f => grad j w f * d f + l2 * (1 # 2) * (nth f w' 0 * nth f w' 0 - nth f w 0 * nth f w 0) + l1 * (Qabs (nth f w' 0) - Qabs (nth f w 0)))
    == qs F (fun f => grad j w f * d f) + l2 * (1 # 2) * (qs F (fun f => nth f w' 0 * nth f w' 0) - qs F (fun f => nth f w 0 * nth f w 0)) + l1 * (qs F (fun f => Qabs (nth f w' 0)) - qs F (fun f => Qabs (nth f w 0)))).
  { rewrite (qs_ext F _ (fun f => (grad j w f * d f + (l2 * (1 # 2)) * (nth f w' 0 * nth f w' 0)) + ((- (l2 * (1 # 2))) * (nth f w 0 * nth f w 0) + (l1 * Qabs (nth f w' 0) + (- l1) * Qabs (nth f w 0))))) by (intros; ring).
    rewrite !qs_plus, !qs_scal. ring. }
  rewrite T2 in T. lra.
Qed.

(** * The update *)
Definition lane_inv (l : lane Q) : Prop :=
  length (ln_rem l) = n /\ length (ln_coef l) = F /\
  forall r, (r < n)%nat -> nth r (ln_rem l) 0 == residual X (ln_item l) (ln_coef l) r.

Notation new_coef := (new_coef 0 Qplus Qminus Qmult Qdiv Qopp qltb positive_only X l2 l1).
Notation sq f := (qs n (fun r => x r f * x r f)).

Lemma x2_sum_eq f : x2_sum 0 Qplus Qmult X f == sq f.
Proof.
  unfold x2_sum, column. rewrite (fold_terms (fun e : nat * Q => snd e * snd e)). rewrite (column_sum2 n _ (good_nth f)). apply Qplus_0_l.
Qed.
Lemma linear_eq f l : lane_inv l -> Slim_Model.linear 0 Qplus Qminus Qmult X f l == grad (ln_item l) (ln_coef l) f - sq f * nth f (ln_coef l) 0.
Proof.
  intros (_ & _ & R). unfold Slim_Model.linear, column.
  rewrite (fold_terms (fun e : nat * Q => snd e * nth (fst e) (ln_rem l) 0)). rewrite x2_sum_eq.
  rewrite (column_sum n _ (fun r => nth r (ln_rem l) 0) (good_nth f)). unfold grad.
  rewrite (qs_ext n (fun r => cval (nth f X []) r * nth r (ln_rem l) 0) (fun r => x r f * residual X (ln_item l) (ln_coef l) r)); [ring|].
  intros r Hr. rewrite R by exact Hr. reflexivity.
Qed.

Definition updated f (l : lane Q) : list Q := update_nth (ln_coef l) f (new_coef f l).
Lemma updated_nth f l g : length (ln_coef l) = F -> (f < F)%nat -> nth g (updated f l) 0 = if (g =? f)%nat then new_coef f l else nth g (ln_coef l) 0.
Proof.
  intros L Hf. unfold updated. rewrite nth_upd. destruct (Nat.eqb_spec g f) as [->|]; [|reflexivity].
  rewrite L, (proj2 (Nat.ltb_lt _ _) Hf). reflexivity.
Qed.
Lemma residual_updated j f l r : length (ln_coef l) = F -> (f < F)%nat ->
  residual X j (updated f l) r == residual X j (ln_coef l) r + x r f * (new_coef f l - nth f (ln_coef l) 0).
Proof.
  intros L Hf. rewrite (residual_diff j (ln_coef l)).
  rewrite (qs_ext F _ (fun g => if (g =? f)%nat then x r f * (new_coef f l - nth f (ln_coef l) 0) else 0)).
  - rewrite (Qsum_pick (fun _ => x r f * (new_coef f l - nth f (ln_coef l) 0))) by exact Hf. reflexivity.
  - intros g _. rewrite updated_nth by assumption. destruct (Nat.eqb_spec g f) as [->|]; ring.
Qed.
Lemma grad_updated j f l : length (ln_coef l) = F -> (f < F)%nat ->
  grad j (updated f l) f == grad j (ln_coef l) f + sq f * (new_coef f l - nth f (ln_coef l) 0).
Proof.
  intros L Hf. unfold grad. rewrite (qs_ext n _ (fun r => x r f * residual X j (ln_coef l) r + (new_coef f l - nth f (ln_coef l) 0) * (x r f * x r f))).
  - rewrite qs_plus, qs_scal. ring.
  - intros r _. rewrite residual_updated by assumption. ring.
Qed.

Lemma sq_nonneg f : 0 <= sq f.
Proof. apply qs_nonneg. intros r _. apply square_nonneg. Qed.
Lemma qs_zero_terms m h : (forall i, (i < m)%nat -> 0 <= h i) -> qs m h == 0 -> forall i, (i < m)%nat -> h i == 0.
Proof.
  intros P. generalize (Qle_refl 0). assert (G : forall l, (forall i, In i l -> 0 <= h i) -> Qsum (map h l) == 0 -> forall i, In i l -> h i == 0).
  { induction l as [|a l IH]; intros Hp E i Hi; [destruct Hi|]. cbn [map] in E. change (Qsum (?a :: ?l)) with (a + Qsum l) in E.
    pose proof (Hp a (or_introl eq_refl)).
    assert (0 <= Qsum (map h l)). { apply Qsum_nonneg, Forall_forall. intros y Hy. apply in_map_iff in Hy. destruct Hy as (z & <- & Hz). apply Hp. now right. }
    destruct Hi as [<-|Hi]; [lra|]. apply IH; [intros; apply Hp; now right|lra|exact Hi]. }
  intros _ E i Hi. apply (G (seq 0 m)); [intros k Hk; apply in_seq in Hk; apply P; lia|exact E|apply in_seq; lia].
Qed.

Lemma sq_zero_grad j w f : sq f == 0 -> grad j w f == 0.
Proof.
  intros E. unfold grad. rewrite (qs_ext n _ (fun _ => 0)); [apply qs_zero|]. intros r Hr.
  pose proof (qs_zero_terms n _ (fun i _ => square_nonneg (x i f)) E r Hr) as Z. cbn beta in Z.
  assert (x r f == 0). { destruct (Qmult_integral _ _ Z); assumption. } rewrite H. ring.
Qed.

Lemma qltb_true a b : qltb a b = true -> a < b.
Proof. unfold qltb. intros H. apply negb_true_iff in H. apply Qnot_le_lt. intros L. apply Qle_bool_iff in L. congruence. Qed.
Lemma qltb_false a b : qltb a b = false -> b <= a.
Proof. unfold qltb. intros H. apply negb_false_iff in H. now apply Qle_bool_iff. Qed.

Lemma div_sign a q : 0 < q -> (0 < a / q -> 0 < a) /\ (a / q < 0 -> a < 0) /\ (a / q <= 0 -> a <= 0) /\ (0 <= a / q -> 0 <= a).
Proof.
  intros Hq. assert (E : a == a / q * q) by (field; lra).
  assert (A : 0 < a / q -> 0 < a) by (intros H; rewrite E; apply Qmult_lt_0_compat; assumption).
  assert (B : a / q < 0 -> a < 0).
  { intros H. assert (0 < - (a / q)) as H' by lra. pose proof (Qmult_lt_0_compat _ _ H' Hq) as M. setoid_replace (- (a / q) * q) with (- (a / q * q)) in M by ring. lra. }
  assert (D : 0 <= a / q -> 0 <= a) by (intros H; rewrite E; apply Qmult_le_0_compat; lra).
  split; [exact A|]. split; [exact B|]. split; [|exact D].
  intros H. assert (0 <= - (a / q)) as H' by lra. pose proof (Qmult_le_0_compat _ _ H' (Qlt_le_weak _ _ Hq)) as M.
  setoid_replace (- (a / q) * q) with (- (a / q * q)) in M by ring. lra.
Qed.

Lemma new_coef_kkt f l : lane_inv l -> (f < F)%nat -> ln_item l <> f -> kkt (ln_item l) (updated f l) f.
Proof.
  intros I Hf Ne. destruct I as (Lr & Lc & R). set (j := ln_item l) in *.
  set (t := new_coef f l).
  assert (G : grad j (updated f l) f == Slim_Model.linear 0 Qplus Qminus Qmult X f l + sq f * t).
  { rewrite grad_updated by assumption. rewrite linear_eq by (repeat split; assumption). fold j t. ring. }
  assert (N : nth f (updated f l) 0 = t) by (rewrite updated_nth by assumption; now rewrite Nat.eqb_refl).
  unfold kkt. rewrite N, G. clear G N.
  assert (Sx : x2_sum 0 Qplus Qmult X f == sq f) by apply x2_sum_eq.
  pose proof (sq_nonneg f) as S0.
  assert (Z0 : sq f + l2 == 0 -> Slim_Model.linear 0 Qplus Qminus Qmult X f l == 0).
  { intros E. assert (sq f == 0) as E0 by lra. rewrite linear_eq by (repeat split; assumption). rewrite (sq_zero_grad _ _ f E0), E0. ring. }
  revert Z0. subst t. unfold Slim_Model.new_coef.
  set (s := x2_sum 0 Qplus Qmult X f) in *. set (lin := Slim_Model.linear 0 Qplus Qminus Qmult X f l). intros Z0.
  destruct (Nat.eqb_spec (ln_item l) f) as [E|_]; [contradiction|].
  set (q := s + l2). set (lp := (- lin - l1) / q). set (lm := (- lin + l1) / q).
  assert (Hq : q == sq f + l2) by (unfold q; rewrite Sx; reflexivity).
  assert (QE : ~ q == 0 -> q * lp == - lin - l1 /\ q * lm == - lin + l1) by (intros H; split; unfold lp, lm; field; exact H).
  destruct (Qeq_dec q 0) as [Qz|Qz].
  - assert (Lz : lin == 0) by (apply Z0; lra).
    assert (Zp : forall a, a / q == 0) by (intros a; unfold Qdiv; rewrite Qz; change (/ 0) with 0; ring).
    assert (sq f == 0) as E0 by lra.
    assert (Hlp : lp == 0) by apply Zp. assert (Hlm : lm == 0) by apply Zp.
    assert (K : forall t, t == 0 -> (0 < t -> lin + sq f * t + l2 * t + l1 == 0) /\ (t < 0 -> lin + sq f * t + l2 * t - l1 == 0) /\
       (t == 0 -> - (lin + sq f * t) - l1 <= 0 /\ (positive_only = false -> 0 <= - (lin + sq f * t) + l1))).
    { intros t Ht. split; [lra|]. split; [lra|]. intros _. assert (sq f * t == 0) by (rewrite Ht; ring). split; [lra|intros; lra]. }
    destruct positive_only; [destruct (qltb 0 lp)|destruct (qltb 0 lp); [|destruct (qltb lm 0)]]; apply K; try assumption; reflexivity.
  - destruct (QE Qz) as [E1 E2]. assert (Qp : 0 < q) by lra.
    destruct (div_sign (- lin - l1) q Qp) as (P1 & P2 & P3 & P4). destruct (div_sign (- lin + l1) q Qp) as (M1 & M2 & M3 & M4).
    fold lp in P1, P2, P3, P4. fold lm in M1, M2, M3, M4.
    assert (E1' : sq f * lp + l2 * lp == - lin - l1) by (rewrite <- E1, Hq; ring).
    assert (E2' : sq f * lm + l2 * lm == - lin + l1) by (rewrite <- E2, Hq; ring).
    destruct (qltb 0 lp) eqn:B1.
    + apply qltb_true in B1.
      assert (A : (0 < lp -> lin + sq f * lp + l2 * lp + l1 == 0) /\ (lp < 0 -> lin + sq f * lp + l2 * lp - l1 == 0) /\
       (lp == 0 -> - (lin + sq f * lp) - l1 <= 0 /\ (positive_only = false -> 0 <= - (lin + sq f * lp) + l1))).
      { split; [intros; lra|]. split; [intros; lra|intros; lra]. }
      destruct positive_only; exact A.
    + apply qltb_false in B1. specialize (P3 B1).
      destruct positive_only.
      * split; [intros; lra|]. split; [intros; lra|]. intros _. split; [lra|discriminate].
      * destruct (qltb lm 0) eqn:B2.
        -- apply qltb_true in B2. split; [intros; lra|]. split; [intros; lra|intros; lra].
        -- apply qltb_false in B2. specialize (M4 B2). split; [intros; lra|]. split; [intros; lra|]. intros _. split; [lra|intros; lra].
Qed.

(** * Steps *)
Variable is_zero : list Q -> bool.
Hypothesis exz : exact_test is_zero.
Notation cd_step := (cd_step 0 Qplus Qminus Qmult Qdiv Qopp Qabs qltb is_zero positive_only X l2 l1).
Notation lane_ok := (lane_ok 0 qltb positive_only X).
Notation diff f l := (new_coef f l - nth f (ln_coef l) 0).

Lemma update_rem_length f d rem : length (update_rem 0 Qplus Qmult X f d rem) = length rem.
Proof. apply (scatter_length (fun rem e => nth (fst e) rem 0 + snd e * d)). Qed.

Lemma lane_inv_moved f l : lane_inv l -> (f < F)%nat ->
  lane_inv (mkLane (ln_item l) (update_rem 0 Qplus Qmult X f (diff f l) (ln_rem l)) (updated f l)).
Proof.
  intros (Lr & Lc & R) Hf. split; [cbn; rewrite update_rem_length; exact Lr|]. split; [cbn; unfold updated; now rewrite update_nth_length|].
  intros r Hr. cbn [ln_rem ln_item ln_coef]. rewrite residual_updated by assumption. unfold update_rem, column.
  rewrite (scatter_add (diff f l) (nth f X []) r (ln_rem l)) by (rewrite Lr; apply good_nth).
  rewrite R by exact Hr. reflexivity.
Qed.
Lemma lane_inv_still f l : lane_inv l -> (f < F)%nat -> diff f l == 0 -> lane_inv (mkLane (ln_item l) (ln_rem l) (updated f l)).
Proof.
  intros (Lr & Lc & R) Hf E. split; [exact Lr|]. split; [cbn; unfold updated; now rewrite update_nth_length|].
  intros r Hr. cbn [ln_rem ln_item ln_coef]. rewrite residual_updated by assumption. rewrite R by exact Hr. rewrite E. ring.
Qed.

(** What a step makes of each lane. *)
Definition next (f : nat) (l l' : lane Q) : Prop :=
  ln_item l' = ln_item l /\ ln_coef l' = updated f l /\ (lane_inv l -> lane_inv l').

Lemma cd_step_next f lanes delta : (f < F)%nat -> Forall2 (next f) lanes (fst (cd_step (lanes, delta) f)).
Proof.
  intros Hf. unfold Slim_Model.cd_step. destruct (is_zero _) eqn:Z; cbn [fst].
  - pose proof (proj1 (exz _) Z) as Zf.
    assert (D : forall l, In l lanes -> diff f l == 0) by (intros l Hl; apply Zf, in_map_iff; exists l; auto). clear Z Zf.
    induction lanes as [|l lanes IH]; cbn [map]; constructor.
    + split; [reflexivity|]. split; [reflexivity|]. intros I. apply lane_inv_still; auto. apply D. now left.
    + apply IH. intros; apply D; now right.
  - clear Z. induction lanes as [|l lanes IH]; cbn [map combine]; constructor; [|exact IH].
    split; [reflexivity|]. split; [reflexivity|]. cbn [fst snd]. intros I. now apply lane_inv_moved.
Qed.

Definition good_lane l := lane_inv l /\ lane_ok l.

Lemma good_step f lanes delta : (f < F)%nat -> Forall good_lane lanes -> Forall good_lane (fst (cd_step (lanes, delta) f)).
Proof.
  intros Hf G.
  assert (A : Forall lane_ok (fst (cd_step (lanes, delta) f))).
  { apply (cd_step_lanes 0 Qplus Qminus Qmult Qdiv Qopp Qabs qltb is_zero positive_only X l2 l1 (lanes, delta) f). eapply Forall_impl; [|exact G]. now intros l []. }
  pose proof (cd_step_next f lanes delta Hf) as N. revert A G. induction N as [|l l' ls ls' (E1 & E2 & E3) N IH]; intros A G; [constructor|].
  inversion A; inversion G as [|? ? [I O] G']; subst. constructor; [split; auto|]. auto.
Qed.

Lemma good_feasible l : good_lane l -> feasible positive_only X (ln_item l) (ln_coef l).
Proof.
  intros [_ (_ & Z & P)]. split; [rewrite Z; reflexivity|]. intros Hp f _. destruct (P Hp f) as [E|E]; [rewrite E; lra|].
  apply qltb_true in E. lra.
Qed.

Lemma next_best f l l' : (f < F)%nat -> good_lane l -> next f l l' ->
  best_coordinate positive_only n X l2 l1 (ln_item l') f (ln_coef l').
Proof.
  intros Hf [I O] (E1 & E2 & E3) w' Fw' Agree. rewrite E1, E2 in *. apply kkt_minimal.
  - intros g Hg. destruct (Nat.eq_dec g f) as [->|Hne]; [|left; now apply Agree].
    destruct (Nat.eq_dec (ln_item l) f) as [Ej|Ej]; [left|right; now apply new_coef_kkt].
    destruct O as (Lc & Zj & _). rewrite updated_nth, Nat.eqb_refl by assumption. unfold Slim_Model.new_coef. rewrite Ej, Nat.eqb_refl.
    destruct Fw' as [Z _]. rewrite Ej in Z. exact Z.
  - intros Hp g Hg. destruct Fw' as [_ P]. now apply P.
Qed.

Lemma next_le f l l' : (f < F)%nat -> good_lane l -> next f l l' ->
  objective n X l2 l1 (ln_item l') (ln_coef l') <= objective n X l2 l1 (ln_item l) (ln_coef l).
Proof.
  intros Hf G N. pose proof (next_best f l l' Hf G N (ln_coef l)) as B. pose proof (good_feasible l G) as Fe.
  destruct N as (E1 & E2 & _), G as [(_ & Lc & _) _]. rewrite E1 in B at 1. specialize (B Fe).
  rewrite <- E1. apply B. intros g _ Hg. rewrite E2, updated_nth by assumption.
  destruct (Nat.eqb_spec g f); [contradiction|reflexivity].
Qed.

(** Several steps. *)
Definition follows (l l' : lane Q) : Prop :=
  ln_item l' = ln_item l /\ objective n X l2 l1 (ln_item l') (ln_coef l') <= objective n X l2 l1 (ln_item l) (ln_coef l).

Lemma steps_follow inds : (forall f, In f inds -> (f < F)%nat) -> forall lanes delta, Forall good_lane lanes ->
  Forall good_lane (fst (fold_left cd_step inds (lanes, delta))) /\ Forall2 follows lanes (fst (fold_left cd_step inds (lanes, delta))).
Proof.
  induction inds as [|f inds IH]; intros H lanes delta G; cbn [fold_left].
  - split; [exact G|]. cbn [fst]. clear. induction lanes; constructor; auto. split; [reflexivity|apply Qle_refl].
  - pose proof (good_step f lanes delta (H f (or_introl eq_refl)) G) as G1. pose proof (cd_step_next f lanes delta (H f (or_introl eq_refl))) as N.
    destruct (cd_step (lanes, delta) f) as [lanes1 delta1]. cbn [fst] in *.
    destruct (IH (fun g Hg => H g (or_intror Hg)) lanes1 delta1 G1) as [G2 F2]. split; [exact G2|].
    revert F2. generalize (fst (fold_left cd_step inds (lanes1, delta1))). clear -N G H GX l2_0 l1_0 exz.
    induction N as [|l l' ls ls' Nl N IH]; intros ms F2; inversion F2 as [|? m ? ms' Fm F2']; subst; constructor.
    + inversion G; subst. destruct Fm as [A B]. pose proof (next_le f l l' (H f (or_introl eq_refl)) H2 Nl). destruct Nl as (E & _).
      split; [congruence|]. lra.
    + apply IH; auto. now inversion G.
Qed.

(** * A sweep that changes nothing *)
Lemma vmax_le a b c : vmax qltb a b <= c -> a <= c /\ b <= c.
Proof. unfold vmax. destruct (qltb a b) eqn:E; [apply qltb_true in E|apply qltb_false in E]; intros; split; lra. Qed.
Lemma max_abs_le d : forall m c, fold_left (fun m x => vmax qltb m (Qabs x)) d m <= c -> m <= c /\ forall x, In x d -> Qabs x <= c.
Proof.
  induction d as [|y d IH]; intros m c H; cbn [fold_left] in H; [split; [exact H|intros ? []]|].
  apply IH in H. destruct H as [H1 H2]. apply vmax_le in H1. destruct H1 as [A B]. split; [exact A|]. intros z [<-|Hz]; auto.
Qed.
Lemma step_delta f lanes delta : snd (cd_step (lanes, delta) f) <= 0 -> delta <= 0 /\ forall l, In l lanes -> diff f l == 0.
Proof.
  unfold Slim_Model.cd_step. destruct (is_zero _) eqn:Z; cbn [snd].
  - intros H. split; [exact H|]. intros l Hl. apply (proj1 (exz _) Z), in_map_iff. exists l; auto.
  - intros H. apply vmax_le in H. destruct H as [A B]. split; [exact A|]. intros l Hl.
    apply max_abs_le in B. destruct B as [_ B]. specialize (B (diff f l)). 
    assert (Qabs (diff f l) <= 0) by (apply B, in_map_iff; exists l; auto).
    pose proof (Qle_Qabs (diff f l)). pose proof (Qle_Qabs (- diff f l)) as O. rewrite Qabs_opp in O. lra.
Qed.
Lemma sweep_delta inds : forall st, snd (fold_left cd_step inds st) <= 0 -> snd st <= 0.
Proof.
  induction inds as [|f inds IH]; intros [lanes delta] H; cbn [fold_left] in H; [exact H|].
  apply IH in H. now apply step_delta in H.
Qed.

Definition same_coefs (l l' : lane Q) : Prop := ln_item l' = ln_item l /\ forall f, (f < F)%nat -> nth f (ln_coef l') 0 == nth f (ln_coef l) 0.

Lemma Forall2_in_r {A B} (R : A -> B -> Prop) la lb : Forall2 R la lb -> forall b, In b lb -> exists a, In a la /\ R a b.
Proof.
  induction 1 as [|a b la lb Hab H IH]; intros y Hy; [destruct Hy|]. destruct Hy as [<-|Hy]; [exists a; split; [now left|exact Hab]|].
  destruct (IH y Hy) as (a' & Ha & HR). exists a'. split; [now right|exact HR].
Qed.

Lemma quiet_sweep inds : (forall f, In f inds -> (f < F)%nat) -> forall lanes delta, Forall good_lane lanes ->
  snd (fold_left cd_step inds (lanes, delta)) <= 0 ->
  Forall2 same_coefs lanes (fst (fold_left cd_step inds (lanes, delta))) /\
  forall l', In l' (fst (fold_left cd_step inds (lanes, delta))) -> forall f, In f inds -> ln_item l' <> f -> kkt (ln_item l') (ln_coef l') f.
Proof.
  induction inds as [|f inds IH]; intros H lanes delta G E; cbn [fold_left] in *.
  - cbn [fst]. split; [|intros l' _ f []]. clear. induction lanes; constructor; auto. split; [reflexivity|]. intros; reflexivity.
  - assert (Hf : (f < F)%nat) by (apply H; now left).
    pose proof (good_step f lanes delta Hf G) as G1. pose proof (cd_step_next f lanes delta Hf) as N.
    pose proof (sweep_delta _ _ E) as E1. apply step_delta in E1. destruct E1 as [_ D].
    destruct (cd_step (lanes, delta) f) as [lanes1 delta1]. cbn [fst] in *.
    destruct (IH (fun g Hg => H g (or_intror Hg)) lanes1 delta1 G1 E) as [S K].
    assert (S1 : Forall2 same_coefs lanes lanes1).
    { clear -N G D Hf. induction N as [|l l' ls ls' (A & B & C) N IH]; constructor.
      - split; [exact A|]. intros g Hg. inversion G as [|? ? [(_ & Lc & _) _] G']; subst. rewrite B, updated_nth by assumption.
        destruct (Nat.eqb_spec g f) as [->|]; [|reflexivity]. specialize (D l (or_introl eq_refl)). lra.
      - apply IH; [now inversion G|]. intros; apply D; now right. }
    split.
    + clear -S S1. revert S. generalize (fst (fold_left cd_step inds (lanes1, delta1))). induction S1 as [|l l' ls ls' [A B] S1 IH]; intros ms S; inversion S as [|? m ? ms' [A' B'] S']; subst; constructor; auto.
      split; [congruence|]. intros g Hg. rewrite B' by exact Hg. now apply B.
    + intros l' Hl' g [<-|Hg] Hne; [|now apply K].
      destruct (Forall2_in_r _ _ _ S l' Hl') as (l1' & Hl1 & [A B]).
      destruct (Forall2_in_r _ _ _ N l1' Hl1) as (l0 & Hl0 & (A0 & B0 & _)).
      apply (kkt_ext _ (ln_coef l1')); [exact Hf|exact B|]. rewrite A, A0, B0.
      apply new_coef_kkt; [apply (proj1 (Forall_forall _ _) G l0 Hl0)|exact Hf|congruence].
Qed.

Lemma quiet_optimal inds lanes : Permutation inds (seq 0 F) -> Forall good_lane lanes ->
  snd (fold_left cd_step inds (lanes, 0)) <= 0 ->
  forall l', In l' (fst (fold_left cd_step inds (lanes, 0))) -> optimal positive_only n X l2 l1 (ln_item l') (ln_coef l').
Proof.
  intros P G E l' Hl'.
  assert (Hi : forall f, In f inds <-> (f < F)%nat).
  { intros f. split; intros H; [apply (Permutation_in _ P) in H; apply in_seq in H; lia|apply (Permutation_in _ (Permutation_sym P)), in_seq; lia]. }
  destruct (quiet_sweep inds (fun f => proj1 (Hi f)) lanes 0 G E) as [_ K].
  destruct (steps_follow inds (fun f => proj1 (Hi f)) lanes 0 G) as [G2 _].
  pose proof (proj1 (Forall_forall _ _) G2 l' Hl') as Gl. split; [now apply good_feasible|].
  intros w' [Z Pw]. apply kkt_minimal; [|exact Pw]. intros f Hf.
  destruct (Nat.eq_dec (ln_item l') f) as [Ej|Ej]; [left|right; apply (K l' Hl' f); [now apply Hi|exact Ej]].
  rewrite Ej in Z. rewrite Z. destruct Gl as [_ (_ & Zl & _)]. rewrite Ej in Zl. rewrite Zl. reflexivity.
Qed.

(** * The start *)
Lemma init_good item : good_lane (init_lane 0 Qopp n X item).
Proof.
  split; [|apply init_ok]. unfold init_lane, column. split; [cbn; rewrite (scatter_length (fun _ e => - snd e)); apply repeat_length|].
  split; [cbn; apply repeat_length|]. intros r Hr. cbn [ln_rem ln_item ln_coef].
  rewrite (scatter_neg (nth item X []) r) by (rewrite repeat_length; apply good_nth).
  unfold residual. rewrite (qs_ext F _ (fun _ => 0)) by (intros f _; rewrite nth_repeat; ring). rewrite qs_zero.
  fold (cval (nth item X []) r). change (xval X r item) with (cval (nth item X []) r).
  destruct (existsb _ _) eqn:E; [ring|]. rewrite nth_repeat. rewrite cval_absent; [ring|].
  intros Hin. apply not_true_iff_false in E. apply E. apply existsb_exists. exists r. split; [exact Hin|apply Nat.eqb_refl].
Qed.

(** * The descent *)
Context {G : Type}.
Variable shuffle : G -> list nat -> list nat * G.
Variable tol : Q.
Hypothesis shuf : shuffle_ok shuffle.
Notation descent := (descent 0 Qplus Qminus Qmult Qdiv Qopp Qabs qltb is_zero shuffle positive_only X l2 l1 tol).

Lemma descent_follow k : forall g inds lanes g' inds' lanes', Permutation inds (seq 0 F) -> Forall good_lane lanes ->
  descent k g inds lanes = (g', inds', lanes') -> Forall good_lane lanes' /\ Forall2 follows lanes lanes'.
Proof.
  induction k as [|k IH]; intros g inds lanes g' inds' lanes' P Gl E; cbn [Slim_Model.descent] in E.
  - injection E as <- <- <-. split; [exact Gl|]. clear. induction lanes; constructor; auto. split; [reflexivity|apply Qle_refl].
  - pose proof (shuf g inds) as SP. destruct (shuffle g inds) as [i1 g1]. cbn [fst] in SP.
    assert (P1 : Permutation i1 (seq 0 F)) by now rewrite SP.
    assert (Hi : forall f, In f i1 -> (f < F)%nat) by (intros f H; apply (Permutation_in _ P1) in H; apply in_seq in H; lia).
    destruct (steps_follow i1 Hi lanes 0 Gl) as [A B].
    destruct (fold_left cd_step i1 (lanes, 0)) as [lanes1 delta]. cbn [fst] in A, B.
    destruct (qltb delta tol).
    + injection E as <- <- <-. auto.
    + destruct (IH _ _ _ _ _ _ P1 A E) as [A2 B2]. split; [exact A2|].
      clear -B B2. revert lanes' B2. induction B as [|l l' ls ls' [X1 X2] B IH]; intros ms B2; inversion B2 as [|? m ? ms' [Y1 Y2] B2']; subst; constructor; auto.
      split; [congruence|lra].
Qed.
End Problem.
