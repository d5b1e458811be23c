(** Row-wise split and data frame conversion. *)
From Coq Require Import Lqa.
From Verif Require Import Base Sort_Proofs Rec_Model Rec_Proofs Split_Spec.
Local Open Scope nat_scope.

(** ** Sums *)
Lemma qsum_app (l l' : list Q) : (fold_right Qplus 0 (l ++ l') == fold_right Qplus 0 l + fold_right Qplus 0 l')%Q.
Proof. induction l as [|a l IH]; cbn; [ring|]. rewrite IH. ring. Qed.
Lemma qsum_perm (l l' : list Q) : Permutation l l' -> (fold_right Qplus 0 l == fold_right Qplus 0 l')%Q.
Proof. induction 1; cbn; try reflexivity; [now rewrite IHPermutation|ring|etransitivity; eauto]. Qed.

(** ** One row *)
Section Rowwise.
Variable rnd : Q -> Q.
Lemma get_n_test_le B s n : faithful rnd B -> n <= B -> rule_ok s = true -> get_n_test rnd s n <= n.
Proof.
  intros [HM HF] Hn. destruct s as [r [|]|k]; cbn; intros H; [| |lia].
  - apply andb_true_iff in H as [H1 H2]. apply Qle_bool_iff in H1, H2.
    assert (Hr : (rnd (inject_Z (Z.of_nat n) * r) <= inject_Z (Z.of_nat n))%Q).
    { eapply Qle_trans; [|apply Qle_lteq; right; exact (HF n Hn)]. apply HM. assert (0 <= inject_Z (Z.of_nat n))%Q by (change 0%Q with (inject_Z 0); rewrite <- Zle_Qle; lia). nra. }
    apply Qceiling_resp_le in Hr. rewrite Qceiling_Z in Hr. lia.
  - apply andb_true_iff in H as [H1 H2]. apply Qle_bool_iff in H1, H2.
    assert (Hr : (rnd (inject_Z (Z.of_nat n) * r) <= inject_Z (Z.of_nat n))%Q).
    { eapply Qle_trans; [|apply Qle_lteq; right; exact (HF n Hn)]. apply HM. assert (0 <= inject_Z (Z.of_nat n))%Q by (change 0%Q with (inject_Z 0); rewrite <- Zle_Qle; lia). nra. }
    apply Qfloor_resp_le in Hr. rewrite Qfloor_Z in Hr. lia.
Qed.
Definition conv (r : nat) (e : nat * Q) : nat * nat * Q := (r, fst e, inject_Z (trunc (snd e))).
Lemma to_int64_ok q : int64_range q -> to_int64 q = Ok (trunc q).
Proof.
  unfold int64_range, to_int64, trunc. intros [H1 H2].
  destruct (Z.leb_spec (- 2 ^ 63) (Z.quot (Qnum q) (Zpos (Qden q)))), (Z.ltb_spec (Z.quot (Qnum q) (Zpos (Qden q))) (2 ^ 63)); try lia. reflexivity.
Qed.
Lemma pick_ok row index r is d : Permutation index (seq 0 (length row)) -> Forall (fun e => int64_range (snd e)) row ->
  Forall (fun i => i < length row) is -> pick row index r is = Ok (map (fun i => conv r (nth (nth i index 0) row d)) is).
Proof.
  intros HP HR HI. unfold pick. apply oall_map_ok. intros i Hi. rewrite Forall_forall in HI, HR.
  assert (Li : i < length index) by (rewrite (Permutation_length HP), seq_length; auto).
  rewrite (nth_error_nth' index 0 Li). cbn.
  assert (Lj : nth i index 0 < length row).
  { assert (H : In (nth i index 0) (seq 0 (length row))) by (eapply Permutation_in; [exact HP|]; now apply nth_In). apply in_seq in H. lia. }
  rewrite (nth_error_nth' row d Lj). cbn. rewrite to_int64_ok by (apply HR; now apply nth_In). reflexivity.
Qed.
Lemma map_nth_seq {X} (l : list X) (d : X) a n : map (fun i => nth i l d) (seq a n) = firstn n (skipn a l) ++ repeat d (n - (length l - a)).
Proof.
  revert a l. induction n as [|n IH]; intros a l; [reflexivity|]. cbn [seq map]. rewrite IH.
  destruct (Nat.lt_ge_cases a (length l)) as [H|H].
  - assert (E : skipn a l = nth a l d :: skipn (S a) l).
    { clear -H. revert a H. induction l as [|x l IH]; intros [|a] H; cbn in *; try lia; auto. apply IH. lia. }
    rewrite E. cbn [firstn app]. replace (S n - (length l - a)) with (n - (length l - S a)) by lia. reflexivity.
  - rewrite !skipn_all2 by lia. rewrite !firstn_nil. cbn [app]. rewrite nth_overflow by auto.
    replace (S n - (length l - a)) with (S (n - (length l - S a))) by lia. reflexivity.
Qed.
Lemma split_row_ok s row index r : Permutation index (seq 0 (length row)) -> Forall (fun e => int64_range (snd e)) row ->
  get_n_test rnd s (length row) <= length row ->
  exists test train, split_row rnd s row index r = Ok (test, train) /\ length test = get_n_test rnd s (length row) /\
    Permutation (test ++ train) (map (conv r) row).
Proof.
  intros HP HR Hk. set (k := get_n_test rnd s (length row)) in *. set (d := (0, 0%Q)).
  unfold split_row. fold k.
  rewrite (pick_ok row index r (seq 0 k) d HP HR) by (apply Forall_forall; intros i Hi; apply in_seq in Hi; lia). cbn [obind].
  rewrite (pick_ok row index r (seq k (length row - k)) d HP HR) by (apply Forall_forall; intros i Hi; apply in_seq in Hi; lia). cbn [omap obind].
  do 2 eexists. split; [reflexivity|]. split; [now rewrite map_length, seq_length|].
  rewrite <- map_app, <- seq_app. replace (k + (length row - k)) with (length row) by lia.
  assert (E : map (fun i => conv r (nth (nth i index 0) row d)) (seq 0 (length row)) = map (fun j => conv r (nth j row d)) (map (fun i => nth i index 0) (seq 0 (length row)))) by now rewrite map_map.
  rewrite E, map_nth_seq. cbn [skipn].
  assert (Li : length index = length row) by (rewrite (Permutation_length HP); apply seq_length).
  rewrite <- Li, firstn_all, Nat.sub_0_r, Nat.sub_diag. cbn. rewrite app_nil_r.
  rewrite HP. rewrite <- (map_map (fun j => nth j row d) (conv r)). apply Permutation_map.
  rewrite map_nth_seq. cbn. rewrite firstn_all, Nat.sub_0_r, Nat.sub_diag. cbn. now rewrite app_nil_r.
Qed.

(** ** The whole matrix *)
Definition row_parts (parts : list (list (nat * nat * Q) * list (nat * nat * Q))) := parts.
Lemma rowwise_ok B s sh n_cols rows : faithful rnd B -> rule_ok s = true -> row_shuffles sh ->
  Forall (fun row => length row <= B) rows -> Forall (Forall (fun e => int64_range (snd e))) rows ->
  exists parts, rowwise_split rnd s sh n_cols rows = Ok (mkCoo (length rows) n_cols (concat (map snd parts)), mkCoo (length rows) n_cols (concat (map fst parts))) /\
    length parts = length rows /\
    forall r, r < length rows -> let row := nth r rows [] in
      length (fst (nth r parts ([], []))) = get_n_test rnd s (length row) /\
      Permutation (fst (nth r parts ([], [])) ++ snd (nth r parts ([], []))) (map (conv r) row).
Proof.
  intros HF Hs Hsh HB HR. unfold rowwise_split, check_arg. rewrite Hs.
  set (g := fun r => split_row rnd s (nth r rows []) (sh r (length (nth r rows []))) r).
  set (h := fun r => match g r with Ok p => p | _ => ([], []) end).
  assert (G : forall r, r < length rows -> exists p, g r = Ok p /\ length (fst p) = get_n_test rnd s (length (nth r rows [])) /\ Permutation (fst p ++ snd p) (map (conv r) (nth r rows []))).
  { intros r Hr. assert (Hin : In (nth r rows []) rows) by now apply nth_In. rewrite Forall_forall in HB, HR.
    destruct (split_row_ok s (nth r rows []) (sh r (length (nth r rows []))) r) as (a & b & E & H1 & H2); auto.
    - eapply get_n_test_le; eauto.
    - exists (a, b). auto. }
  exists (map h (seq 0 (length rows))).
  rewrite (oall_map_ok _ h).
  2:{ intros r Hr. apply in_seq in Hr. fold (g r). destruct (G r ltac:(lia)) as (p & E & _). unfold h. now rewrite E. }
  cbn [omap obind]. split; [reflexivity|]. split; [now rewrite map_length, seq_length|].
  intros r Hr. rewrite (nth_indep _ ([], []) (h 0)) by (now rewrite map_length, seq_length). rewrite (map_nth h), seq_nth by auto. cbn [Nat.add].
  destruct (G r Hr) as (p & E & H). unfold h. now rewrite E.
Qed.
End Rowwise.

(** Triplets of a concatenation of rows that belong to one row. *)
Definition of_row (r : nat) (e : nat * nat * Q) : bool := fst (fst e) =? r.
Lemma filter_concat_rows (parts : list (list (nat * nat * Q))) : (forall k, k < length parts -> Forall (fun e => fst (fst e) = k) (nth k parts [])) ->
  forall r, filter (of_row r) (concat parts) = nth r parts [].
Proof.
  assert (G : forall (ps : list (list (nat * nat * Q))) s, (forall k, k < length ps -> Forall (fun e => fst (fst e) = s + k) (nth k ps [])) ->
     forall r, filter (of_row r) (concat ps) = if r <? s then [] else nth (r - s) ps []).
  { induction ps as [|p ps IH]; intros s H r; cbn [concat].
    - destruct (r <? s); [reflexivity|]. now destruct (r - s).
    - rewrite filter_app, (IH (S s)).
      2:{ intros k Hk. specialize (H (S k) ltac:(cbn; lia)). cbn in H. eapply Forall_impl; [|exact H]. cbn. intros; lia. }
      specialize (H 0 ltac:(cbn; lia)). cbn in H. destruct (Nat.ltb_spec r s) as [Hr|Hr].
      + destruct (Nat.ltb_spec r (S s)); [|lia]. rewrite app_nil_r. apply filter_none. eapply Forall_impl; [|exact H]. intros e He; cbv beta in He; unfold of_row. apply Nat.eqb_neq. lia.
      + destruct (Nat.eq_dec r s) as [->|Hn].
        * destruct (Nat.ltb_spec s (S s)); [|lia]. rewrite app_nil_r, Nat.sub_diag. cbn. apply filter_id. eapply Forall_impl; [|exact H]. intros e He; cbv beta in He; unfold of_row. apply Nat.eqb_eq. lia.
        * destruct (Nat.ltb_spec r (S s)); [lia|]. replace (r - s) with (S (r - S s)) by lia. cbn [nth].
          rewrite filter_none; [reflexivity|]. eapply Forall_impl; [|exact H]. intros e He; cbv beta in He; unfold of_row. apply Nat.eqb_neq. lia. }
  intros H r. rewrite (G parts 0 H). cbn. now rewrite Nat.sub_0_r.
Qed.
Lemma filter_and {X} (p q : X -> bool) l : filter (fun x => p x && q x) l = filter q (filter p l).
Proof. induction l as [|x l IH]; cbn; auto. destruct (p x); cbn; [|auto]. destruct (q x); now rewrite IH. Qed.
Lemma map_nth_default {X Y} (f : X -> Y) l r d d' : f d = d' -> nth r (map f l) d' = f (nth r l d).
Proof. intros <-. apply map_nth. Qed.
Lemma conv_rows r row p q : Permutation (p ++ q) (map (conv r) row) -> Forall (fun e => fst (fst e) = r) p /\ Forall (fun e => fst (fst e) = r) q.
Proof.
  intros H. assert (HF : Forall (fun e : nat * nat * Q => fst (fst e) = r) (p ++ q)).
  { apply Forall_forall. intros e He. apply (Permutation_in _ H) in He. apply in_map_iff in He as (x & <- & _). reflexivity. }
  now apply Forall_app in HF.
Qed.

(** Facts used by the property theorems: rows of the results. *)
Lemma rowwise_rows rnd B s sh n_cols rows : faithful rnd B -> rule_ok s = true -> row_shuffles sh ->
  Forall (fun row => length row <= B) rows -> Forall (Forall (fun e => int64_range (snd e))) rows ->
  exists train test, rowwise_split rnd s sh n_cols rows = Ok (train, test) /\
    c_rows train = length rows /\ c_cols train = n_cols /\ c_rows test = length rows /\ c_cols test = n_cols /\
    (forall r, length (filter (of_row r) (c_ent test)) = if r <? length rows then get_n_test rnd s (length (nth r rows [])) else 0) /\
    (forall r, Permutation (filter (of_row r) (c_ent test) ++ filter (of_row r) (c_ent train)) (map (conv r) (nth r rows []))).
Proof.
  intros HF Hs Hsh HB HR. destruct (rowwise_ok rnd B s sh n_cols rows HF Hs Hsh HB HR) as (parts & E & HL & HP).
  do 2 eexists. split; [exact E|]. cbn [c_rows c_cols c_ent]. do 4 (split; [reflexivity|]).
  assert (E1 : forall r, filter (of_row r) (concat (map fst parts)) = fst (nth r parts ([], []))).
  { intros r. rewrite filter_concat_rows; [apply map_nth_default; reflexivity|]. intros k Hk. rewrite map_length in Hk.
    rewrite (map_nth_default fst parts k ([], []) []) by reflexivity. destruct (HP k ltac:(lia)) as [_ H]. now apply conv_rows in H. }
  assert (E2 : forall r, filter (of_row r) (concat (map snd parts)) = snd (nth r parts ([], []))).
  { intros r. rewrite filter_concat_rows; [apply map_nth_default; reflexivity|]. intros k Hk. rewrite map_length in Hk.
    rewrite (map_nth_default snd parts k ([], []) []) by reflexivity. destruct (HP k ltac:(lia)) as [_ H]. now apply conv_rows in H. }
  split; intros r; rewrite ?E1, ?E2.
  - destruct (Nat.ltb_spec r (length rows)) as [Hr|Hr]; [apply HP; auto|]. rewrite (nth_overflow parts) by lia. reflexivity.
  - destruct (Nat.lt_ge_cases r (length rows)) as [Hr|Hr]; [apply HP; auto|]. rewrite (nth_overflow parts), (nth_overflow rows) by lia. reflexivity.
Qed.
Lemma entry_row m r c : entry m r c = fold_right Qplus 0%Q (map snd (filter (fun e => snd (fst e) =? c) (filter (of_row r) (c_ent m)))).
Proof. unfold entry. f_equal. f_equal. apply (filter_and (of_row r) (fun e => snd (fst e) =? c)). Qed.
Lemma filter_map_conv r row c : map snd (filter (fun e : nat * nat * Q => snd (fst e) =? c) (map (conv r) row)) = map (fun e => inject_Z (trunc (snd e))) (filter (fun e : nat * Q => fst e =? c) row).
Proof. induction row as [|e row IH]; cbn [map filter]; auto. unfold conv at 1. cbn [fst snd]. destruct (fst e =? c); cbn; now rewrite IH. Qed.

(** C17: sums of integer parts. *)
Lemma rowwise_sums rnd B s sh n_cols rows : faithful rnd B -> rule_ok s = true -> row_shuffles sh ->
  Forall (fun row => length row <= B) rows -> Forall (Forall (fun e => int64_range (snd e))) rows ->
  exists train test, rowwise_split rnd s sh n_cols rows = Ok (train, test) /\
    c_rows train = length rows /\ c_cols train = n_cols /\ c_rows test = length rows /\ c_cols test = n_cols /\
    forall r c, (entry train r c + entry test r c == row_entry (map (map (fun e => (fst e, inject_Z (trunc (snd e))))) rows) r c)%Q.
Proof.
  intros HF Hs Hsh HB HR. destruct (rowwise_rows rnd B s sh n_cols rows HF Hs Hsh HB HR) as (tr & te & E & H1 & H2 & H3 & H4 & _ & HP).
  exists tr, te. do 5 (split; auto). intros r c. rewrite !entry_row. rewrite Qplus_comm, <- qsum_app, <- map_app, <- filter_app.
  rewrite (qsum_perm _ _ (Permutation_map snd (filter_perm _ _ _ (HP r)))). rewrite filter_map_conv. unfold row_entry.
  rewrite (map_nth_default _ rows r [] []) by reflexivity.
  assert (Ef : forall row, map (fun e : nat * Q => inject_Z (trunc (snd e))) (filter (fun e => fst e =? c) row) = map snd (filter (fun e : nat * Q => fst e =? c) (map (fun e => (fst e, inject_Z (trunc (snd e)))) row))).
  { induction row as [|e row IH]; cbn [map filter]; auto. cbn [fst]. destruct (fst e =? c); cbn; now rewrite IH. }
  rewrite Ef. reflexivity.
Qed.
Lemma trunc_int q z : (q == inject_Z z)%Q -> trunc q = z.
Proof.
  intros H. unfold trunc. unfold Qeq in H. cbn in H. rewrite Z.mul_1_r in H. rewrite H. apply Z.quot_mul. discriminate.
Qed.
Lemma row_entry_trunc rows r c : Forall (Forall (fun e => exists z, (snd e == inject_Z z)%Q)) rows ->
  (row_entry (map (map (fun e => (fst e, inject_Z (trunc (snd e))))) rows) r c == row_entry rows r c)%Q.
Proof.
  intros H. unfold row_entry. rewrite (map_nth_default _ rows r [] []) by reflexivity.
  assert (Hr : Forall (fun e => exists z, (snd e == inject_Z z)%Q) (nth r rows [])).
  { destruct (Nat.lt_ge_cases r (length rows)); [|rewrite nth_overflow by auto; constructor]. rewrite Forall_forall in H. apply H. now apply nth_In. }
  induction Hr as [|e row (z & Hz) Hr IH]; cbn [map filter]; [reflexivity|]. cbn [fst]. destruct (fst e =? c); auto. cbn [map fold_right snd].
  rewrite IH, (trunc_int _ _ Hz), Hz. reflexivity.
Qed.
Lemma rowwise_sums_int rnd B s sh n_cols rows : faithful rnd B -> rule_ok s = true -> row_shuffles sh ->
  Forall (fun row => length row <= B) rows -> Forall (Forall (fun e => exists z, (- 2 ^ 63 <= z < 2 ^ 63)%Z /\ (snd e == inject_Z z)%Q)) rows ->
  exists train test, rowwise_split rnd s sh n_cols rows = Ok (train, test) /\
    c_rows train = length rows /\ c_cols train = n_cols /\ c_rows test = length rows /\ c_cols test = n_cols /\
    forall r c, (entry train r c + entry test r c == row_entry rows r c)%Q.
Proof.
  intros HF Hs Hsh HB HR.
  assert (HR' : Forall (Forall (fun e : nat * Q => int64_range (snd e))) rows).
  { eapply Forall_impl; [|exact HR]. intros row. apply Forall_impl. intros e (z & Hz & E). unfold int64_range. now rewrite (trunc_int _ _ E). }
  destruct (rowwise_sums rnd B s sh n_cols rows HF Hs Hsh HB HR') as (tr & te & E & H1 & H2 & H3 & H4 & H5).
  exists tr, te. do 5 (split; auto). intros r c. rewrite H5. apply row_entry_trunc.
  eapply Forall_impl; [|exact HR]. intros row. apply Forall_impl. intros e (z & _ & Ez). eauto.
Qed.
(** C17: positions. *)
Lemma rowwise_positions rnd B s sh n_cols rows train test : faithful rnd B -> row_shuffles sh ->
  Forall (fun row => length row <= B) rows -> Forall (Forall (fun e => int64_range (snd e))) rows ->
  rowwise_split rnd s sh n_cols rows = Ok (train, test) ->
  (forall r, Permutation (map (fun e => snd (fst e)) (filter (of_row r) (c_ent test)) ++ map (fun e => snd (fst e)) (filter (of_row r) (c_ent train))) (map fst (nth r rows []))) /\
  (Forall (fun row => NoDup (map fst row)) rows -> forall r c v w, In (r, c, v) (c_ent train) -> In (r, c, w) (c_ent test) -> False).
Proof.
  intros HF Hsh HB HR E.
  assert (Hs : rule_ok s = true). { unfold rowwise_split, check_arg in E. destruct (rule_ok s); auto. discriminate. }
  destruct (rowwise_rows rnd B s sh n_cols rows HF Hs Hsh HB HR) as (tr & te & E' & _ & _ & _ & _ & _ & HP). rewrite E in E'. injection E' as <- <-.
  assert (G : forall r, Permutation (map (fun e => snd (fst e)) (filter (of_row r) (c_ent test)) ++ map (fun e => snd (fst e)) (filter (of_row r) (c_ent train))) (map fst (nth r rows []))).
  { intros r. rewrite <- map_app. rewrite (Permutation_map (fun e => snd (fst e)) (HP r)). rewrite map_map. reflexivity. }
  split; auto. intros HN r c v w H1 H2.
  assert (HNr : NoDup (map fst (nth r rows []))).
  { destruct (Nat.lt_ge_cases r (length rows)); [|rewrite nth_overflow by auto; constructor]. rewrite Forall_forall in HN. apply HN. now apply nth_In. }
  eapply Permutation_NoDup in HNr; [|symmetry; apply G].
  assert (A : In c (map (fun e => snd (fst e)) (filter (of_row r) (c_ent test)))).
  { apply in_map_iff. exists (r, c, w). split; auto. apply filter_In. split; auto. apply Nat.eqb_refl. }
  assert (B' : In c (map (fun e => snd (fst e)) (filter (of_row r) (c_ent train)))).
  { apply in_map_iff. exists (r, c, v). split; auto. apply filter_In. split; auto. apply Nat.eqb_refl. }
  clear -HNr A B'. revert A. induction (map (fun e => snd (fst e)) (filter (of_row r) (c_ent test))) as [|x l IH]; [intros []|].
  cbn in HNr. inversion HNr as [|? ? Hx HN]; subst. intros [->|A]; [|auto]. apply Hx. apply in_or_app. now right.
Qed.
(** C18 *)
Lemma rowwise_counts rnd B s sh n_cols rows train test r : faithful rnd B -> row_shuffles sh ->
  Forall (fun row => length row <= B) rows -> Forall (Forall (fun e => int64_range (snd e))) rows ->
  rowwise_split rnd s sh n_cols rows = Ok (train, test) -> r < length rows ->
  let nnz := length (nth r rows []) in
  let held := length (filter (of_row r) (c_ent test)) in
  held <= nnz /\ length (filter (of_row r) (c_ent train)) = nnz - held /\
  match s with
  | ByRatio q true => Z.of_nat held = Qceiling (rnd (inject_Z (Z.of_nat nnz) * q)%Q)
  | ByRatio q false => Z.of_nat held = Qfloor (rnd (inject_Z (Z.of_nat nnz) * q)%Q)
  | FixedN n => held = min nnz n
  end.
Proof.
  intros HF Hsh HB HR E Hr nnz held.
  assert (Hs : rule_ok s = true). { unfold rowwise_split, check_arg in E. destruct (rule_ok s); auto. discriminate. }
  destruct (rowwise_rows rnd B s sh n_cols rows HF Hs Hsh HB HR) as (tr & te & E' & _ & _ & _ & _ & HC & HP). rewrite E in E'. injection E' as <- <-.
  specialize (HC r). specialize (HP r). destruct (Nat.ltb_spec r (length rows)); [|lia]. fold held nnz in HC.
  apply Permutation_length in HP. rewrite app_length, map_length in HP. fold held nnz in HP.
  assert (Hn : nnz <= B) by (rewrite Forall_forall in HB; apply HB; now apply nth_In).
  split; [lia|]. split; [lia|]. rewrite HC. destruct s as [q [|]|n]; cbn [get_n_test]; auto.
  - rewrite Z2Nat.id; auto. cbn in Hs. apply andb_true_iff in Hs as [_ Hs]. apply Qle_bool_iff in Hs.
    assert (H0 : (0 <= rnd (inject_Z (Z.of_nat nnz) * q))%Q).
    { destruct HF as [HM HE]. eapply Qle_trans; [apply Qle_lteq; right; symmetry; exact (HE 0 ltac:(lia))|]. apply HM. assert (0 <= inject_Z (Z.of_nat nnz))%Q by (change 0%Q with (inject_Z 0); rewrite <- Zle_Qle; lia).
      change (inject_Z (Z.of_nat 0)) with 0%Q. nra. }
    apply Qceiling_resp_le in H0. exact H0.
  - rewrite Z2Nat.id; auto. cbn in Hs. apply andb_true_iff in Hs as [_ Hs]. apply Qle_bool_iff in Hs.
    assert (H0 : (0 <= rnd (inject_Z (Z.of_nat nnz) * q))%Q).
    { destruct HF as [HM HE]. eapply Qle_trans; [apply Qle_lteq; right; symmetry; exact (HE 0 ltac:(lia))|]. apply HM. assert (0 <= inject_Z (Z.of_nat nnz))%Q by (change 0%Q with (inject_Z 0); rewrite <- Zle_Qle; lia).
      change (inject_Z (Z.of_nat 0)) with 0%Q. nra. }
    apply Qfloor_resp_le in H0. exact H0.
Qed.
Lemma rowwise_accepts rnd B s sh n_cols rows : faithful rnd B -> row_shuffles sh ->
  Forall (fun row => length row <= B) rows -> Forall (Forall (fun e => int64_range (snd e))) rows ->
  let good := match s with ByRatio q _ => (0 <= q <= 1)%Q | FixedN _ => True end in
  (good -> exists p, rowwise_split rnd s sh n_cols rows = Ok p) /\ (~ good -> rowwise_split rnd s sh n_cols rows = Fail InvalidArgument).
Proof.
  intros HF Hsh HB HR good.
  assert (Hg : rule_ok s = true <-> good).
  { unfold good. destruct s as [q c|n]; cbn; [|tauto]. rewrite andb_true_iff, !Qle_bool_iff. tauto. }
  split; intros H.
  - apply Hg in H. destruct (rowwise_rows rnd B s sh n_cols rows HF H Hsh HB HR) as (tr & te & E & _). eauto.
  - unfold rowwise_split, check_arg. destruct (rule_ok s) eqn:E; auto. exfalso. apply H. now apply Hg.
Qed.
