From Verif Require Import Base Vae_Model Vae_Spec.
From Coq Require Import QArith Qminmax Lqa.
Local Open Scope Z_scope.

(** ** Slices *)
Section Chunks.
Context {A : Type}.
Lemma firstn_plus (l : list A) a b : firstn (a + b) l = firstn a l ++ firstn b (skipn a l).
Proof. revert l; induction a as [|a IH]; destruct l; simpl; auto; [now rewrite firstn_nil | now rewrite IH]. Qed.
Lemma chunks_concat (l : list A) mb m :
  concat (map (fun k => firstn mb (skipn (k * mb) l)) (seq 0 m)) = firstn (m * mb) l.
Proof.
  induction m as [|m IH]; [reflexivity|].
  rewrite seq_S, map_app, concat_app, IH. cbn [map concat]. rewrite app_nil_r.
  rewrite Nat.add_0_l. rewrite <- firstn_plus. f_equal. lia.
Qed.
Lemma slice_chunk (l : list A) mb k : (0 < mb)%nat ->
  py_slice l (Z.of_nat k * Z.of_nat mb) (Z.min (Z.of_nat (length l)) (Z.of_nat k * Z.of_nat mb + Z.of_nat mb))
  = firstn mb (skipn (k * mb) l).
Proof.
  intros M. unfold py_slice. rewrite <- Nat2Z.inj_mul, Nat2Z.id.
  destruct (Z.le_gt_cases (Z.of_nat (k * mb) + Z.of_nat mb) (Z.of_nat (length l))) as [L|L].
  - rewrite Z.min_r by lia. f_equal. lia.
  - rewrite Z.min_l by lia. rewrite !firstn_all2; auto; rewrite skipn_length; lia.
Qed.
Lemma n_chunks n mb : 0 <= n -> 0 < mb ->
  let m := (n + mb - 1) / mb in 0 <= m /\ n <= m * mb /\ (m - 1) * mb < n \/ (n = 0 /\ m = 0).
Proof.
  intros N M m. assert (E : n + mb - 1 = mb * m + (n + mb - 1) mod mb) by (unfold m; apply Z.div_mod; lia).
  pose proof (Z.mod_pos_bound (n + mb - 1) mb M) as B.
  assert (m >= 0) by (unfold m; apply Z.le_ge, Z.div_pos; lia).
  left. repeat split; nia.
Qed.
Lemma range_cover n mb : 0 <= n -> 0 < mb ->
  exists m : nat, py_range n mb = Ok (map (fun k => Z.of_nat k * mb) (seq 0 m)) /\
    Z.of_nat m = (n + mb - 1) / mb /\ n <= Z.of_nat m * mb /\ (Z.of_nat m - 1) * mb < n.
Proof.
  intros N M. exists (Z.to_nat ((n + mb - 1) / mb)). unfold py_range.
  destruct (mb =? 0) eqn:E; [lia|]. destruct (mb <? 0) eqn:E2; [lia|].
  split; [reflexivity|].
  assert (E3 : n + mb - 1 = mb * ((n + mb - 1) / mb) + (n + mb - 1) mod mb) by (apply Z.div_mod; lia).
  pose proof (Z.mod_pos_bound (n + mb - 1) mb M) as B.
  assert ((n + mb - 1) / mb >= 0) by (apply Z.le_ge, Z.div_pos; lia).
  set (q := (n + mb - 1) / mb) in *. rewrite Z2Nat.id by lia. repeat split; nia.
Qed.
Definition chunks (l : list A) mb m := map (fun k => firstn mb (skipn (k * mb) l)) (seq 0 m).
Lemma slices_chunks (l : list A) mb m : (0 < mb)%nat ->
  map (fun s => py_slice l s (Z.min (Z.of_nat (length l)) (s + Z.of_nat mb)))
      (map (fun k => Z.of_nat k * Z.of_nat mb) (seq 0 m)) = chunks l mb m.
Proof. intros M. rewrite map_map. apply map_ext. intros k. now apply slice_chunk. Qed.
Lemma chunks_whole (l : list A) mb m : (length l <= m * mb)%nat -> concat (chunks l mb m) = l.
Proof. intros L. unfold chunks. rewrite chunks_concat. now apply firstn_all2. Qed.
Lemma chunk_nth (l : list A) mb m i : (i < m)%nat -> nth i (chunks l mb m) [] = firstn mb (skipn (i * mb) l).
Proof.
  intros H. unfold chunks.
  rewrite (nth_indep _ [] ((fun k => firstn mb (skipn (k * mb) l)) 0%nat)) by (rewrite map_length, seq_length; auto).
  rewrite (map_nth (fun k => firstn mb (skipn (k * mb) l))). now rewrite seq_nth.
Qed.
Lemma chunks_sizes (l : list A) mb m : (0 < mb)%nat ->
  Z.of_nat (length l) <= Z.of_nat m * Z.of_nat mb -> (Z.of_nat m - 1) * Z.of_nat mb < Z.of_nat (length l) ->
  forall i, (i < length (chunks l mb m))%nat ->
    (1 <= length (nth i (chunks l mb m) []) <= mb)%nat /\
    ((S i < length (chunks l mb m))%nat -> length (nth i (chunks l mb m) []) = mb).
Proof.
  intros M H1 H2 i H. assert (L : length (chunks l mb m) = m) by (unfold chunks; now rewrite map_length, seq_length).
  rewrite L in *. rewrite chunk_nth by auto. rewrite firstn_length, skipn_length.
  assert (i * mb + mb <= m * mb)%nat by nia.
  assert (Q : (i * mb < length l)%nat) by nia.
  split; [lia|]. intros HS. assert (i * mb + mb < length l)%nat by nia. lia.
Qed.
End Chunks.

Lemma unique_chunk (bs : list (list nat)) : NoDup (concat bs) -> forall u, In u (concat bs) ->
  exists! i, (i < length bs)%nat /\ In u (nth i bs []).
Proof.
  induction bs as [|b bs IH]; intros N u I; [destruct I|].
  cbn [concat] in *. 
  assert (NB : NoDup b /\ NoDup (concat bs) /\ forall x, In x b -> In x (concat bs) -> False).
  { clear - N. induction b as [|x b IHb]; cbn in *.
    - split; [constructor|]. split; auto.
    - inversion N as [|? ? N1 N2]; subst. destruct (IHb N2) as (P1 & P2 & P3).
      split; [constructor; auto; intros H; apply N1, in_or_app; auto|]. split; [auto|].
      intros y [<-|Hy] Hc; [apply N1, in_or_app; auto | eauto]. }
  destruct NB as (N1 & N2 & D). apply in_app_or in I as [I|I].
  - exists 0%nat. split; [split; [cbn; lia | exact I]|].
    intros [|j] [Lj Ij]; [reflexivity|]. exfalso. apply (D u I). cbn in Ij.
    apply in_concat. exists (nth j bs []). split; [apply nth_In; cbn in Lj; lia | exact Ij].
  - destruct (IH N2 u I) as (i & [Li Ii] & U). exists (S i). split; [split; [cbn; lia | exact Ii]|].
    intros [|j] [Lj Ij].
    + exfalso. cbn in Ij. eauto.
    + f_equal. apply U. split; [cbn in Lj; lia | exact Ij].
Qed.
Lemma partition_from n bs : Permutation (concat bs) (seq 0 n) -> partition_of_users n bs.
Proof.
  intros P. split; [exact P|]. intros u L. apply unique_chunk.
  - eapply Permutation_NoDup; [apply Permutation_sym, P | apply seq_NoDup].
  - eapply Permutation_in; [apply Permutation_sym, P | apply in_seq; lia].
Qed.

(** ** Epochs *)
Section Trainer.
Variables r64 r32 : Q -> Q.
Notation weight := (weight r64 r32).
Definition counted (t : trainer) (k : Z) : trainer :=
  mkTrainer (t_users t) (t_batch t) (t_goal t) (t_total t) (t_count t + k).

Lemma kl_coeff_eq t : Qeq_bool (t_total t) 0 = false ->
  kl_coeff r64 r32 t = Ok (weight (t_goal t) (t_total t) (t_count t)).
Proof. intros H. unfold kl_coeff. now rewrite H. Qed.

Fixpoint weights (g tot : Q) (j : Z) (bs : list (list nat)) : list update :=
  match bs with
  | [] => []
  | b :: bs' => (b, weight g tot j) :: weights g tot (j + 1) bs'
  end.
Lemma batches_eq u : forall starts t log, Qeq_bool (t_total t) 0 = false ->
  batches r64 r32 starts u t log =
  Ok (counted t (Z.of_nat (length starts)),
      log ++ weights (t_goal t) (t_total t) (t_count t) (map (fun s => py_slice u s (Z.min (t_users t) (s + t_batch t))) starts)).
Proof.
  induction starts as [|s starts IH]; intros t log T; cbn [batches].
  - cbn. rewrite app_nil_r. unfold counted. rewrite Z.add_0_r. now destruct t.
  - rewrite kl_coeff_eq by auto. cbn [obind]. rewrite IH by auto. cbn [t_users t_batch t_goal t_total t_count].
    rewrite <- app_assoc. f_equal. f_equal.
    { unfold counted. cbn. f_equal. lia. }
Qed.
Lemma weights_fst g tot : forall bs j, map fst (weights g tot j bs) = bs.
Proof. induction bs; intros j; cbn; [|rewrite IHbs]; auto. Qed.
Lemma weights_nth g tot : forall bs j i, (i < length bs)%nat ->
  nth_error (map snd (weights g tot j bs)) i = Some (weight g tot (j + Z.of_nat i)).
Proof.
  induction bs as [|b bs IH]; intros j i L; [cbn in L; lia|].
  destruct i as [|i]; cbn [weights map snd nth_error].
  - now rewrite Z.add_0_r.
  - rewrite IH by (cbn in L; lia). do 2 f_equal. lia.
Qed.
Lemma weights_length g tot bs j : length (weights g tot j bs) = length bs.
Proof. rewrite <- (weights_fst g tot bs j) at 2. now rewrite map_length. Qed.

Definition trained (t : trainer) : Prop := 0 <= t_users t /\ 0 < t_batch t /\ Qeq_bool (t_total t) 0 = false.
Definition n_batches (t : trainer) : Z := (t_users t + t_batch t - 1) / t_batch t.

Lemma run_epoch_eq t u : trained t -> length u = Z.to_nat (t_users t) ->
  exists m, Z.of_nat m = n_batches t /\
    run_epoch r64 r32 u t =
      Ok (counted t (Z.of_nat m), weights (t_goal t) (t_total t) (t_count t) (chunks u (Z.to_nat (t_batch t)) m)) /\
    Z.of_nat (length u) <= Z.of_nat m * t_batch t /\ (Z.of_nat m - 1) * t_batch t < Z.of_nat (length u).
Proof.
  intros (N & B & T) L. destruct (range_cover (t_users t) (t_batch t) N B) as (m & R & M & C1 & C2).
  exists m. split; [exact M|]. split; [|lia].
  unfold run_epoch. rewrite R. cbn [obind]. rewrite batches_eq by auto. rewrite map_length, seq_length.
  cbn [app]. do 3 f_equal.
  rewrite <- (slices_chunks u (Z.to_nat (t_batch t)) m) by lia. rewrite Z2Nat.id by lia.
  apply map_ext. intros s. do 2 f_equal. lia.
Qed.

Theorem epoch_partition t u : trained t -> Permutation u (seq 0 (Z.to_nat (t_users t))) ->
  exists t' log, run_epoch r64 r32 u t = Ok (t', log) /\
    partition_of_users (Z.to_nat (t_users t)) (map fst log) /\
    batch_sizes (Z.to_nat (t_batch t)) (map fst log) /\
    concat (map fst log) = u /\
    Z.of_nat (length log) = n_batches t /\
    t' = counted t (Z.of_nat (length log)) /\
    (forall i, (i < length log)%nat ->
       nth_error (map snd log) i = Some (weight (t_goal t) (t_total t) (t_count t + Z.of_nat i))).
Proof.
  intros T P. assert (L : length u = Z.to_nat (t_users t)) by (rewrite (Permutation_length P); apply seq_length).
  destruct (run_epoch_eq t u T L) as (m & M & E & C1 & C2).
  eexists. eexists. split; [exact E|].
  assert (B : 0 < t_batch t) by apply T.
  assert (Ln : length (chunks u (Z.to_nat (t_batch t)) m) = m) by (unfold chunks; now rewrite map_length, seq_length).
  rewrite weights_fst, weights_length.
  assert (W : concat (chunks u (Z.to_nat (t_batch t)) m) = u) by (apply chunks_whole; nia).
  rewrite Ln. split; [|split; [|split; [|split; [|split]]]]; auto.
  - apply partition_from. now rewrite W.
  - intros i Li. apply chunks_sizes; auto; lia.
  - intros i Li. apply weights_nth. now rewrite Ln.
Qed.

Lemma trained_counted t k : trained t -> trained (counted t k).
Proof. intros H. exact H. Qed.
Lemma run_epochs_eq : forall shuffles t, trained t ->
  Forall (fun u => Permutation u (seq 0 (Z.to_nat (t_users t)))) shuffles ->
  exists logs, run_epochs r64 r32 shuffles t = Ok (counted t (Z.of_nat (length shuffles) * n_batches t), logs) /\
    length logs = length shuffles /\
    forall e, (e < length shuffles)%nat ->
      let log := nth e logs [] in
      partition_of_users (Z.to_nat (t_users t)) (map fst log) /\
      batch_sizes (Z.to_nat (t_batch t)) (map fst log) /\
      concat (map fst log) = nth e shuffles [] /\
      Z.of_nat (length log) = n_batches t /\
      (forall i, (i < length log)%nat ->
         nth_error (map snd log) i =
         Some (weight (t_goal t) (t_total t) (t_count t + Z.of_nat e * n_batches t + Z.of_nat i))).
Proof.
  induction shuffles as [|u us IH]; intros t T F.
  - exists []. cbn. unfold counted. rewrite Z.add_0_r. destruct t. split; auto. split; auto. intros e L; lia.
  - inversion F as [|? ? F1 F2]; subst.
    destruct (epoch_partition t u T F1) as (t' & log & E & P1 & P2 & P3 & P4 & P5 & P6).
    subst t'. destruct (IH (counted t (Z.of_nat (length log))) (trained_counted t _ T) F2) as (logs & E2 & L2 & Q).
    exists (log :: logs). cbn [run_epochs]. rewrite E. cbn [obind]. rewrite E2. cbn [omap obind].
    split; [|split; [cbn; congruence|]].
    + do 2 f_equal. change (n_batches (counted t (Z.of_nat (length log)))) with (n_batches t).
      unfold counted. cbn [t_users t_batch t_goal t_total t_count length]. f_equal. rewrite P4. lia.
    + intros [|e] L; cbn [nth].
      * split; [exact P1|]. split; [exact P2|]. split; [exact P3|]. split; [exact P4|].
        intros i Li. rewrite P6 by auto. do 2 f_equal. lia.
      * cbn [length] in L. destruct (Q e ltac:(lia)) as (Q1 & Q2 & Q3 & Q4 & Q5).
        split; [exact Q1|]. split; [exact Q2|]. split; [exact Q3|]. split; [exact Q4|].
        intros i Li. rewrite Q5 by auto. cbn [t_goal t_total t_count counted].
        change (n_batches (counted t (Z.of_nat (length log)))) with (n_batches t). rewrite P4. do 2 f_equal. lia.
Qed.

(** ** The weight *)
Section Weight.
Hypothesis mono64 : monotone r64.
Hypothesis mono32 : monotone r32.

Lemma mono_eq (r : Q -> Q) x y : monotone r -> (x == y)%Q -> (r x == r y)%Q.
Proof. intros M E. apply Qle_antisym; apply M; rewrite E; apply Qle_refl. Qed.
Lemma weight_cap goal total j : (0 <= goal)%Q -> (weight goal total j <= r32 (r64 goal))%Q.
Proof.
  intros G. apply mono32, mono64. rewrite <- (Qmult_1_r goal) at 2.
  rewrite !(Qmult_comm goal). apply Qmult_le_compat_r; [apply Q.le_min_l | exact G].
Qed.
Lemma weight_mono goal total j k : (0 <= goal)%Q -> (0 < total)%Q -> j <= k ->
  (weight goal total j <= weight goal total k)%Q.
Proof.
  intros G T L. apply mono32, mono64. rewrite !(Qmult_comm goal). apply Qmult_le_compat_r; [|exact G].
  apply Q.min_le_compat_l, mono64. unfold Qdiv. apply Qmult_le_compat_r.
  - rewrite <- Zle_Qle. exact L.
  - apply Qlt_le_weak, Qinv_lt_0_compat, T.
Qed.
Lemma weight_full goal total j : (0 < total)%Q -> (total <= inject_Z j)%Q -> (r64 1 == 1)%Q ->
  (weight goal total j == r32 (r64 goal))%Q.
Proof.
  intros T L One. apply mono_eq; [exact mono32|]. apply mono_eq; [exact mono64|].
  rewrite Q.min_l; [ring|]. rewrite <- One. apply mono64.
  apply Qle_shift_div_l; [exact T|]. rewrite Qmult_1_l. exact L.
Qed.
Lemma weight_nonneg goal total j : (0 <= goal)%Q -> (0 < total)%Q -> 0 <= j ->
  (r64 0 == 0)%Q -> (r32 0 == 0)%Q -> (0 <= weight goal total j)%Q.
Proof.
  intros G T J Z64 Z32. rewrite <- Z32. apply mono32. rewrite <- Z64. apply mono64.
  apply Qmult_le_0_compat; [exact G|]. apply Q.min_glb; [discriminate|].
  rewrite <- Z64. apply mono64. unfold Qdiv. apply Qmult_le_0_compat.
  - change 0%Q with (inject_Z 0). rewrite <- Zle_Qle. exact J.
  - apply Qlt_le_weak, Qinv_lt_0_compat, T.
Qed.

(** The count reached after [e >= anneal_end_epoch] epochs. *)
Lemma anneal_reached n mb a e i : 0 <= n -> 0 < mb -> 0 <= a <= e -> 0 <= i ->
  let j := e * ((n + mb - 1) / mb) + i in
  (r64 (inject_Z j) == inject_Z j)%Q ->
  (r64 (inject_Z (a * n) / inject_Z mb) <= inject_Z j)%Q.
Proof.
  intros N B A I j Ex. rewrite <- Ex. apply mono64.
  apply Qle_shift_div_r; [change 0%Q with (inject_Z 0); rewrite <- Zlt_Qlt; exact B|].
  rewrite <- inject_Z_mult, <- Zle_Qle. unfold j.
  assert (E : n + mb - 1 = mb * ((n + mb - 1) / mb) + (n + mb - 1) mod mb) by (apply Z.div_mod; lia).
  pose proof (Z.mod_pos_bound (n + mb - 1) mb B) as R.
  assert (n <= (n + mb - 1) / mb * mb) by lia. set (q := (n + mb - 1) / mb) in *.
  assert (0 <= q) by nia. nia.
Qed.
End Weight.
End Trainer.

(** ** Scores *)
Lemma scores_eq {row srow} (f : row -> srow) score_batch X mb :
  (forall b, score_batch b = map f b) -> 0 < mb -> X <> [] ->
  get_score_cold_user score_batch mb X = Ok (map f X).
Proof.
  intros S B N. unfold get_score_cold_user.
  destruct (range_cover (Z.of_nat (length X)) mb ltac:(lia) B) as (m & -> & M & C1 & C2). cbn [obind].
  rewrite (map_ext _ (fun s => map f (py_slice X s (Z.min (Z.of_nat (length X)) (s + Z.of_nat (Z.to_nat mb)))))).
  2:{ intros s. rewrite S. do 4 f_equal. lia. }
  rewrite <- (map_map (fun s => py_slice X s (Z.min (Z.of_nat (length X)) (s + Z.of_nat (Z.to_nat mb)))) (map f)).
  replace (map (fun k => Z.of_nat k * mb) (seq 0 m)) with (map (fun k => Z.of_nat k * Z.of_nat (Z.to_nat mb)) (seq 0 m))
    by (rewrite Z2Nat.id by lia; reflexivity).
  rewrite slices_chunks by lia.
  assert (W : concat (chunks X (Z.to_nat mb) m) = X) by (apply chunks_whole; nia).
  destruct (map (map f) (chunks X (Z.to_nat mb) m)) as [|b bs] eqn:E.
  - exfalso. apply map_eq_nil in E. rewrite E in W. now apply N.
  - rewrite <- E, <- concat_map, W. reflexivity.
Qed.
