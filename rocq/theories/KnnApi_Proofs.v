(** Constructors, diagonal removal, transition probabilities, cosine. *)
From Verif Require Import Base Knn_Model Knn_Spec Knn_Proofs KnnSel_Proofs KnnSim_Proofs Rec_Proofs SplitDf_Proofs Sort_Proofs.
From Coq Require Import QArith Lqa Qfield Reals Lra.
Local Open Scope nat_scope.

(** ** Matrices *)
Section Mat.
Context {V : Type}.
Variable v0 : V.

Lemma stored_out (X : smat V) i j : length (m_rows X) <= i -> stored X i j = [].
Proof. intros H. unfold stored. rewrite nth_overflow by assumption. reflexivity. Qed.

Lemma remove_diagonal_stored (X D : smat V) : remove_diagonal v0 X = Ok D ->
  m_cols D = m_cols X /\ length (m_rows D) = length (m_rows X) /\
  (forall i j, i <> j -> stored D i j = stored X i j) /\
  (forall i, stored D i i = map (fun _ => v0) (stored X i i)) /\
  (forall i, map fst (nth i (m_rows D) []) = map fst (nth i (m_rows X) [])).
Proof.
  unfold remove_diagonal, check_arg. destruct (length (m_rows X) =? m_cols X); [|discriminate].
  intros [= <-]. cbn [m_cols m_rows]. split; [reflexivity|]. split.
  { rewrite map_length, combine_length, seq_length. lia. }
  set (g := fun i (r : srow V) => map (fun e => if fst e =? i then (fst e, v0) else e) r).
  assert (Hrow : forall i, nth i (map (fun ir => g (fst ir) (snd ir)) (combine (seq 0 (length (m_rows X))) (m_rows X))) []
                = g i (nth i (m_rows X) [])).
  { intros i. rewrite (combine_seq_map g (m_rows X) [] 0). cbn [Nat.add].
    destruct (Nat.lt_ge_cases i (length (m_rows X))).
    - apply (nth_map_seq (fun i => g i (nth i (m_rows X) []))). assumption.
    - rewrite !nth_overflow; [reflexivity|assumption|]. rewrite map_length, seq_length. assumption. }
  fold (g 0). unfold stored. cbn [m_rows].
  change (map (fun ir : nat * srow V => map (fun e : nat * V => if fst e =? fst ir then (fst e, v0) else e) (snd ir)))
    with (map (fun ir : nat * srow V => g (fst ir) (snd ir))).
  repeat split; intros i; [intros j Hij| |]; rewrite Hrow; unfold g;
    induction (nth i (m_rows X) []) as [|e r IH]; cbn [map filter]; try reflexivity.
  - destruct (Nat.eqb_spec (fst e) i) as [E|E]; cbn [fst].
    + destruct (Nat.eqb_spec (fst e) j); [congruence|]. exact IH.
    + destruct (fst e =? j); cbn [map]; [f_equal|]; exact IH.
  - destruct (Nat.eqb_spec (fst e) i) as [E|E]; cbn [fst].
    + apply Nat.eqb_eq in E. rewrite E. cbn [map snd]. f_equal. exact IH.
    + apply Nat.eqb_neq in E. rewrite E. exact IH.
  - destruct (fst e =? i); cbn [fst]; f_equal; exact IH.
Qed.

Lemma remove_diagonal_ok (X : smat V) : length (m_rows X) = m_cols X ->
  exists D, remove_diagonal v0 X = Ok D.
Proof.
  intros H. unfold remove_diagonal, check_arg. rewrite (proj2 (Nat.eqb_eq _ _) H). eexists. reflexivity.
Qed.

Lemma at_col_flat (l : list (nat * srow V)) i j : NoDup (map fst l) ->
  at_col i (flat_map (fun ir => map (fun v => (fst ir, v)) (at_col j (snd ir))) l)
  = match find (fun ir => fst ir =? i) l with Some ir => at_col j (snd ir) | None => [] end.
Proof.
  intros Hnd. induction l as [|[i' r] l IH]; [reflexivity|]. cbn [map fst] in Hnd.
  inversion_clear Hnd as [|? ? Hni Hnd']. cbn [flat_map find fst snd]. unfold at_col at 1.
  rewrite filter_app, map_app. fold (at_col i (flat_map (fun ir => map (fun v => (fst ir, v)) (at_col j (snd ir))) l)).
  rewrite IH by assumption. destruct (Nat.eqb_spec i' i) as [->|Hne].
  - rewrite filter_id; [|apply Forall_forall; intros e He; apply in_map_iff in He; destruct He as [v [<- _]]; apply Nat.eqb_refl].
    rewrite map_map. cbn [snd]. rewrite map_id.
    destruct (find _ l) as [ir|] eqn:E; [|apply app_nil_r].
    apply find_some in E. destruct E as [E1 E2]. apply Nat.eqb_eq in E2. exfalso. apply Hni.
    rewrite <- E2. apply in_map. assumption.
  - rewrite filter_none; [reflexivity|]. apply Forall_forall. intros e He. apply in_map_iff in He.
    destruct He as [v [<- _]]. apply Nat.eqb_neq. assumption.
Qed.

Lemma find_combine_seq (l : list (srow V)) i : i < length l -> forall s,
  find (fun ir => fst ir =? s + i) (combine (seq s (length l)) l) = Some (s + i, nth i l []).
Proof.
  revert i. induction l as [|x l IH]; intros i Hi s; cbn [length] in *; [lia|].
  cbn [seq combine find fst]. destruct i as [|i].
  - rewrite Nat.add_0_r, Nat.eqb_refl. reflexivity.
  - destruct (Nat.eqb_spec s (s + S i)); [lia|]. replace (s + S i) with (S s + i) by lia.
    rewrite IH by lia. reflexivity.
Qed.

Lemma combine_seq_fst {Y} (l : list Y) s : map fst (combine (seq s (length l)) l) = seq s (length l).
Proof. revert s; induction l as [|x l IH]; intros s; cbn; [reflexivity|]. f_equal. apply IH. Qed.

Lemma transpose_stored (X : smat V) i j : j < m_cols X -> stored (transpose X) j i = stored X i j.
Proof.
  intros Hj. unfold stored at 1, transpose. cbn [m_rows].
  rewrite (nth_map_seq (fun c => flat_map (fun ir => map (fun v => (fst ir, v)) (at_col c (snd ir))) (combine (seq 0 (length (m_rows X))) (m_rows X)))) by assumption.
  fold (at_col i (flat_map (fun ir => map (fun v => (fst ir, v)) (at_col j (snd ir))) (combine (seq 0 (length (m_rows X))) (m_rows X)))).
  rewrite at_col_flat by (rewrite combine_seq_fst; apply seq_NoDup).
  destruct (Nat.lt_ge_cases i (length (m_rows X))) as [Hi|Hi].
  - rewrite (find_combine_seq (m_rows X) i Hi 0 : find (fun ir => fst ir =? i) _ = _). reflexivity.
  - rewrite stored_out by assumption.
    destruct (find _ _) as [ir|] eqn:E; [|reflexivity]. exfalso.
    apply find_some in E. destruct E as [E1 E2]. apply Nat.eqb_eq in E2.
    apply (in_map fst) in E1. rewrite combine_seq_fst in E1. apply in_seq in E1. lia.
Qed.

Lemma transpose_dims (X : smat V) :
  m_cols (transpose X) = length (m_rows X) /\ length (m_rows (transpose X)) = m_cols X.
Proof. split; [reflexivity|]. cbn. rewrite map_length, seq_length. reflexivity. Qed.

Lemma in_row_lt (X : smat V) i e : In e (nth i (m_rows X) []) -> i < length (m_rows X).
Proof.
  intros H. destruct (Nat.lt_ge_cases i (length (m_rows X))); [assumption|].
  rewrite nth_overflow in H by assumption. destruct H.
Qed.

Lemma transpose_in (X : smat V) i j v : j < m_cols X ->
  In (i, v) (nth j (m_rows (transpose X)) []) <-> In (j, v) (nth i (m_rows X) []).
Proof.
  intros Hj. rewrite <- !at_col_in.
  change (at_col i (nth j (m_rows (transpose X)) [])) with (stored (transpose X) j i).
  rewrite transpose_stored by assumption. reflexivity.
Qed.

Lemma transpose_good (X : smat V) : good_mat X -> good_mat (transpose X).
Proof.
  intros HX r Hr. cbn [transpose m_cols m_rows] in *. apply in_map_iff in Hr. destruct Hr as [c [<- Hc]].
  split.
  - rewrite flat_map_concat_map, concat_map, map_map.
    rewrite <- flat_map_concat_map.
    apply nodup_flat_map.
    + apply (NoDup_map_inv fst). rewrite combine_seq_fst. apply seq_NoDup.
    + intros [i r] Hir. rewrite map_map. cbn [fst snd]. 
      assert (HN : NoDup (map fst r)). { apply (HX r). apply in_combine_r in Hir. assumption. }
      destruct (at_col c r) as [|v l] eqn:E; [constructor|].
      assert (Hv : In (c, v) r) by (apply at_col_in; rewrite E; left; reflexivity).
      rewrite (at_col_unique c v r HN Hv) in E. injection E as <-. repeat constructor. intros [].
    + intros [i r] [i' r'] y H1 H2 Hy1 Hy2. rewrite map_map in Hy1, Hy2. cbn [fst snd] in *.
      apply in_map_iff in Hy1, Hy2. destruct Hy1 as [w [<- _]], Hy2 as [w' [E _]]. subst i'.
      f_equal. clear - H1 H2.
      assert (Hg : forall s (l : list (srow V)) a b b', In (a, b) (combine (seq s (length l)) l) ->
                In (a, b') (combine (seq s (length l)) l) -> b = b').
      { intros s l. revert s. induction l as [|x l IH]; intros s a b b' Ha Hb; cbn in Ha, Hb; [destruct Ha|].
        destruct Ha as [Ha|Ha], Hb as [Hb|Hb].
        - congruence.
        - injection Ha as <- <-. apply in_combine_l in Hb. apply in_seq in Hb. lia.
        - injection Hb as <- <-. apply in_combine_l in Ha. apply in_seq in Ha. lia.
        - eapply IH; eassumption. }
      eapply Hg; eassumption.
  - intros i Hi. apply in_map_iff in Hi. destruct Hi as [[i' v] [E Hi]]. cbn in E. subst i'.
    apply in_flat_map in Hi. destruct Hi as [[i' r] [Hir Hi]]. apply in_map_iff in Hi.
    destruct Hi as [w [E _]]. cbn in E. injection E as -> _.
    apply in_combine_l in Hir. apply in_seq in Hir. lia.
Qed.
End Mat.

(** ** Constructors *)
Section Ctors.
Variable layout : srow Q -> srow Q.
Hypothesis lay : layout_ok layout.

Lemma base_ctor_ok {A} s n c (k : outcome A) (a : A) : base_ctor s n c k = Ok a ->
  (0 <= s)%Q /\ 1 <= n /\ 1 <= c /\ k = Ok a.
Proof.
  unfold base_ctor, check_arg. destruct (Qle_bool 0 s) eqn:E; [|discriminate].
  destruct (Nat.leb_spec 1 n); [|discriminate]. destruct (Nat.leb_spec 1 c); [|discriminate].
  intros H1. apply Qle_bool_iff in E. tauto.
Qed.

Lemma jaccard_local X s n c k : jaccard_ctor layout X s n c = Ok k ->
  row_local k (jaccard_row layout s (m_rows X)) /\ cp_features k = m_cols X /\
  cp_N k = length (m_rows X) /\ (0 <= s)%Q.
Proof.
  intros H. apply base_ctor_ok in H. destruct H as (Hs & Hn & Hc & H). injection H as <-.
  unfold row_local. cbn. repeat split; try assumption; try (apply jaccard_row_good; assumption).
Qed.

Lemma tversky_local X s a b n c k : tversky_ctor layout X s a b n c = Ok k ->
  row_local k (tversky_row layout s a b (m_rows X)) /\ cp_features k = m_cols X /\
  cp_N k = length (m_rows X) /\ (0 <= s)%Q /\ (0 <= a)%Q /\ (0 <= b)%Q.
Proof.
  intros H. apply base_ctor_ok in H. destruct H as (Hs & Hn & Hc & H). revert H. unfold check_arg.
  destruct (Qle_bool 0 a) eqn:Ea; [|discriminate]. destruct (Qle_bool 0 b) eqn:Eb; [|discriminate].
  apply Qle_bool_iff in Ea, Eb. intros [= <-].
  unfold row_local. cbn. repeat split; try assumption; try (apply tversky_row_good; assumption).
Qed.

Variable pow : Q -> Q -> Q.

Lemma p3_local X a n c k : p3_ctor layout pow X a n c = Ok k ->
  row_local k (prod_row 0%Q Qplus Qmult layout (map (p3_norm_row pow a) (m_rows X))) /\
  cp_features k = m_cols X /\ cp_N k = length (m_rows X) /\ (0 <= a)%Q.
Proof.
  intros H. apply base_ctor_ok in H. destruct H as (Hs & Hn & Hc & H). revert H. unfold check_arg.
  destruct (Qle_bool 0 a) eqn:Ea; [|discriminate]. apply Qle_bool_iff in Ea. intros [= <-].
  unfold row_local. cbn.
  pose proof (prod_row_good 0%Q Qplus Qmult layout lay (map (p3_norm_row pow a) (m_rows X))) as Hg.
  rewrite map_length in Hg. repeat split; try assumption; try (apply Hg).
Qed.
End Ctors.

Section CtorsR.
Variable layout : srow R -> srow R.
Hypothesis lay : layout_ok layout.

Lemma base_ctor_R_ok {A} s n c (k : outcome A) (a : A) : base_ctor_R s n c k = Ok a ->
  (0 <= s)%R /\ 1 <= n /\ 1 <= c /\ k = Ok a.
Proof.
  unfold base_ctor_R, check_arg. destruct (Rlt_dec s 0) as [E|E]; [discriminate|].
  destruct (Nat.leb_spec 1 n); [|discriminate]. destruct (Nat.leb_spec 1 c); [|discriminate].
  intros H1. apply Rnot_lt_le in E. tauto.
Qed.

Lemma cosine_row_good nz s xs t : good_row (length xs) (cosine_row layout nz s xs t).
Proof.
  unfold cosine_row. pose proof (prod_row_good 0%R Rplus Rmult layout lay xs t) as H.
  destruct nz; [|exact H]. unfold good_row in *. rewrite map_map. exact H.
Qed.

Lemma asym_row_good s a xs t : good_row (length xs) (asym_cosine_row layout s a xs t).
Proof.
  unfold asym_cosine_row. pose proof (prod_row_good 0%R Rplus Rmult layout lay xs t) as H.
  unfold good_row in *. rewrite map_map. exact H.
Qed.

Lemma cosine_local X s nz n c k : cosine_ctor layout X s nz n c = Ok k ->
  row_local k (cosine_row layout nz s (m_rows X)) /\ cp_features k = m_cols X /\
  cp_N k = length (m_rows X) /\ (0 <= s)%R.
Proof.
  intros H. apply base_ctor_R_ok in H. destruct H as (Hs & Hn & Hc & H). injection H as <-.
  unfold row_local. cbn. repeat split; try assumption; try (apply cosine_row_good; assumption).
Qed.

Lemma asym_local X s a n c k : asym_cosine_ctor layout X s a n c = Ok k ->
  row_local k (asym_cosine_row layout s a (m_rows X)) /\ cp_features k = m_cols X /\
  cp_N k = length (m_rows X) /\ (0 <= s)%R /\ (0 <= a <= 1)%R.
Proof.
  intros H. apply base_ctor_R_ok in H. destruct H as (Hs & Hn & Hc & H). revert H. unfold check_arg.
  destruct (Rlt_dec a 0) as [Ea|Ea]; [discriminate|]. destruct (Rlt_dec 1 a) as [Eb|Eb]; [discriminate|].
  apply Rnot_lt_le in Ea, Eb. intros [= <-].
  unfold row_local. cbn. repeat split; try assumption; try (apply asym_row_good; assumption).
Qed.
End CtorsR.

(** ** Cauchy-Schwarz for sparse rows *)
Section Cauchy.
Local Open Scope R_scope.

Lemma fold_left_Rsum (l : list R) a : fold_left Rplus l a = a + Rsum l.
Proof.
  revert a; induction l as [|x l IH]; intros a; cbn [fold_left Rsum fold_right]; [ring|].
  rewrite IH. unfold Rsum. ring.
Qed.

Lemma vsum1_Rsum (l : list R) : vsum1 0 Rplus l = Rsum l.
Proof. destruct l as [|x l]; [reflexivity|]. cbn [vsum1]. apply fold_left_Rsum. Qed.

Lemma Rsum_app a b : Rsum (a ++ b) = Rsum a + Rsum b.
Proof. unfold Rsum. induction a as [|x a IH]; cbn; [ring|]. rewrite IH. ring. Qed.

Definition den (c : nat) (r : srow R) : R := Rsum (at_col c r).

Lemma den_cons c e r : den c (e :: r) = (if (fst e =? c)%nat then snd e else 0) + den c r.
Proof.
  unfold den, at_col. cbn [filter]. destruct (fst e =? c)%nat; cbn [map Rsum fold_right]; [reflexivity|].
  unfold Rsum; ring.
Qed.

Lemma Rsum_map_plus {X} (f g : X -> R) l :
  Rsum (map (fun x => f x + g x) l) = Rsum (map f l) + Rsum (map g l).
Proof. unfold Rsum. induction l as [|x l IH]; cbn; [ring|]. rewrite IH. ring. Qed.

Lemma Rsum_map_scal {X} k (f : X -> R) l : Rsum (map (fun x => k * f x) l) = k * Rsum (map f l).
Proof. unfold Rsum. induction l as [|x l IH]; cbn; [ring|]. rewrite IH. ring. Qed.

Lemma Rsum_delta (g : nat -> R) c0 v l : NoDup l ->
  Rsum (map (fun c => (if (c0 =? c)%nat then v else 0) * g c) l)
  = if in_dec Nat.eq_dec c0 l then v * g c0 else 0.
Proof.
  induction l as [|c l IH]; intros Hnd; [reflexivity|]. inversion_clear Hnd as [|? ? Hni Hnd'].
  cbn [map Rsum fold_right]. fold (Rsum (map (fun c => (if (c0 =? c)%nat then v else 0) * g c) l)).
  rewrite IH by assumption.
  destruct (Nat.eqb_spec c0 c) as [->|Hne].
  - destruct (in_dec Nat.eq_dec c l) as [H|_]; [contradiction|].
    destruct (in_dec Nat.eq_dec c (c :: l)) as [_|H]; [ring|exfalso; apply H; left; reflexivity].
  - destruct (in_dec Nat.eq_dec c0 l) as [H|H], (in_dec Nat.eq_dec c0 (c :: l)) as [H'|H'];
      try ring; exfalso.
    + apply H'. right. assumption.
    + destruct H' as [H'|H']; [congruence|contradiction].
Qed.

Lemma sparse_dense (g : nat -> R) n r : (forall c, In c (map fst r) -> (c < n)%nat) ->
  Rsum (map (fun e => snd e * g (fst e)) r) = Rsum (map (fun c => den c r * g c) (seq 0 n)).
Proof.
  induction r as [|e r IH]; intros Hlt.
  - cbn [map Rsum fold_right]. symmetry. transitivity (0 * Rsum (map g (seq 0 n))); [|ring].
    exact (Rsum_map_scal 0 g (seq 0 n)).
  - cbn [map Rsum fold_right]. fold (Rsum (map (fun e => snd e * g (fst e)) r)).
    rewrite IH by (intros c Hc; apply Hlt; right; assumption).
    rewrite (map_ext (fun c => den c (e :: r) * g c)
               (fun c => (if (fst e =? c)%nat then snd e else 0) * g c + den c r * g c))
      by (intros c; rewrite den_cons; ring).
    rewrite Rsum_map_plus, Rsum_delta by apply seq_NoDup.
    destruct (in_dec Nat.eq_dec (fst e) (seq 0 n)) as [_|H]; [reflexivity|].
    exfalso. apply H. apply in_seq. assert (fst e < n)%nat by (apply Hlt; left; reflexivity). lia.
Qed.

Lemma prod_terms_sum t x : Rsum (prod_terms Rmult t x) = Rsum (map (fun e => snd e * den (fst e) x) t).
Proof.
  unfold prod_terms. induction t as [|e t IH]; [reflexivity|]. cbn [flat_map map]. rewrite Rsum_app, IH.
  cbn [Rsum fold_right]. f_equal. rewrite Rsum_map_scal, map_id. reflexivity.
Qed.

Lemma sq_norm_dense n r : good_row n r ->
  sq_norm r = Rsum (map (fun c => den c r * den c r) (seq 0 n)).
Proof.
  intros [Hnd Hlt]. unfold sq_norm. rewrite fold_left_Rsum, Rplus_0_l.
  rewrite <- (sparse_dense (fun c => den c r) n r Hlt). f_equal. apply map_ext_in. intros [c v] He.
  cbn [fst snd]. unfold den. rewrite (at_col_unique c v r Hnd He). cbn. ring.
Qed.

Lemma dot_dense n t x : good_row n t ->
  Rsum (prod_terms Rmult t x) = Rsum (map (fun c => den c t * den c x) (seq 0 n)).
Proof.
  intros [Hnd Hlt]. rewrite prod_terms_sum. apply (sparse_dense (fun c => den c x) n t Hlt).
Qed.

Lemma Rsum_sq_nonneg {X} (f : X -> R) l : 0 <= Rsum (map (fun x => f x * f x) l).
Proof.
  unfold Rsum. induction l as [|x l IH]; cbn; [lra|].
  pose proof (Rle_0_sqr (f x)) as H. unfold Rsqr in H. lra.
Qed.

Lemma cauchy {X} (f g : X -> R) l :
  Rsum (map (fun x => f x * g x) l) * Rsum (map (fun x => f x * g x) l)
  <= Rsum (map (fun x => f x * f x) l) * Rsum (map (fun x => g x * g x) l).
Proof.
  set (A := Rsum (map (fun x => f x * f x) l)). set (B := Rsum (map (fun x => g x * g x) l)).
  set (C := Rsum (map (fun x => f x * g x) l)).
  assert (HA : 0 <= A) by apply Rsum_sq_nonneg. assert (HB : 0 <= B) by apply Rsum_sq_nonneg.
  assert (Q : forall s u, 0 <= s * s * A - 2 * (s * u) * C + u * u * B).
  { intros s u. replace (_ - _ + _) with (Rsum (map (fun x => (s * f x - u * g x) * (s * f x - u * g x)) l)).
    - apply (Rsum_sq_nonneg (fun x => s * f x - u * g x)).
    - unfold A, B, C. rewrite <- !Rsum_map_scal.
      rewrite (map_ext (fun x => (s * f x - u * g x) * (s * f x - u * g x))
        (fun x => (s * s * (f x * f x) + (- (2 * (s * u))) * (f x * g x)) + u * u * (g x * g x)))
        by (intros; ring).
      rewrite Rsum_map_plus, Rsum_map_plus, !Rsum_map_scal. ring. }
  destruct (Req_dec B 0) as [E|E].
  - rewrite E, Rmult_0_r. destruct (Req_dec C 0) as [EC|EC]; [rewrite EC; lra|]. exfalso.
    pose proof (Q 1 ((A + 1) / C)) as H. rewrite E in H.
    replace (1 * 1 * A - 2 * (1 * ((A + 1) / C)) * C + (A + 1) / C * ((A + 1) / C) * 0)
      with (A - 2 * (A + 1)) in H by (field; assumption). lra.
  - pose proof (Q B C) as H. nra.
Qed.

Lemma norm_nonneg r : 0 <= norm r. Proof. apply sqrt_pos. Qed.

Lemma dot_bound n t x : good_row n t -> good_row n x ->
  Rabs (Rsum (prod_terms Rmult t x)) <= norm x * norm t.
Proof.
  intros Ht Hx. unfold norm. rewrite (sq_norm_dense n t Ht), (sq_norm_dense n x Hx), (dot_dense n t x Ht).
  rewrite <- sqrt_mult by apply Rsum_sq_nonneg.
  rewrite <- sqrt_Rsqr_abs. apply sqrt_le_1.
  - apply Rle_0_sqr.
  - apply Rmult_le_pos; apply Rsum_sq_nonneg.
  - unfold Rsqr. rewrite (Rmult_comm (Rsum (map (fun c => den c x * den c x) _))). apply cauchy.
Qed.

Section Rows.
Variable layout : srow R -> srow R.
Hypothesis lay : layout_ok layout.

Lemma cosine_in s (xs : list (srow R)) t j v : In (j, v) (cosine_row layout true s xs t) ->
  (j < length xs)%nat /\ prod_terms Rmult t (nth j xs []) <> [] /\
  v = Rsum (prod_terms Rmult t (nth j xs [])) / (norm (nth j xs []) * norm t + s + eps_R).
Proof.
  intros H. unfold cosine_row in H. apply in_map_iff in H. destruct H as [[j' w] [E H]].
  cbn [fst snd] in E. injection E as -> <-. apply prod_row_in in H; [|assumption].
  destruct H as (Hj & Hne & ->). split; [assumption|]. split; [assumption|].
  rewrite vsum1_Rsum. rewrite (nth_map_lt norm xs j [] 0 Hj). reflexivity.
Qed.

Lemma asym_in s a (xs : list (srow R)) t j v : In (j, v) (asym_cosine_row layout s a xs t) ->
  (j < length xs)%nat /\ prod_terms Rmult t (nth j xs []) <> [] /\
  v = Rsum (prod_terms Rmult t (nth j xs []))
      / (pow_R (sq_norm (nth j xs [])) (1 - a) * pow_R (sq_norm t) a + s + eps_R).
Proof.
  intros H. unfold asym_cosine_row in H. apply in_map_iff in H. destruct H as [[j' w] [E H]].
  cbn [fst snd] in E. injection E as -> <-. apply prod_row_in in H; [|assumption].
  destruct H as (Hj & Hne & ->). split; [assumption|]. split; [assumption|].
  rewrite vsum1_Rsum.
  rewrite (nth_map_lt (fun x => pow_R (sq_norm x) (1 - a)) xs j [] 0 Hj). reflexivity.
Qed.
End Rows.

Lemma eps_R_pos : 0 < eps_R.
Proof. unfold eps_R. apply Rinv_0_lt_compat. lra. Qed.

Lemma sq_norm_nonneg r : 0 <= sq_norm r.
Proof. unfold sq_norm. rewrite fold_left_Rsum, Rplus_0_l. apply (Rsum_sq_nonneg (fun e => snd e)). Qed.

Lemma pow_R_half x : 0 <= x -> pow_R x (1 / 2) = sqrt x.
Proof.
  intros Hx. unfold pow_R. destruct (Req_EM_T x 0) as [->|Hn].
  - destruct (Req_EM_T (1 / 2) 0); [exfalso; lra|]. rewrite sqrt_0. reflexivity.
  - replace (1 / 2) with (/ 2) by lra. apply Rpower_sqrt. lra.
Qed.

Lemma pow_R_nonneg x y : 0 <= pow_R x y.
Proof.
  unfold pow_R. destruct (Req_EM_T x 0); [destruct (Req_EM_T y 0); lra|].
  unfold Rpower. left. apply exp_pos.
Qed.
End Cauchy.
