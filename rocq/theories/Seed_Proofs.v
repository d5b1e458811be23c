(** Proofs for C68. *)
From Verif Require Import Base Sort_Proofs Rec_Model Rec_Proofs Seed_Spec Split_Proofs SplitDf_Proofs SplitTop_Proofs.
Local Open Scope nat_scope.

(** ** Lists *)
Lemma reorder_map {X} (d : X) p l : Forall (fun i => i < length l) p -> reorder p l = map (fun i => nth i l d) p.
Proof.
  induction 1 as [|i p Hi _ IH]; [reflexivity|]. unfold reorder in *. cbn [flat_map map]. rewrite IH, (nth_error_nth' l d Hi). reflexivity.
Qed.
Lemma reorder_perm {X} p (l : list X) : Permutation p (seq 0 (length l)) -> Permutation (reorder p l) l.
Proof.
  intros H. unfold reorder. rewrite (Permutation_flat_map _ H). clear p H. destruct l as [|d l0]; [reflexivity|].
  set (l := d :: l0). fold (reorder (seq 0 (length l)) l). rewrite (reorder_map d).
  - rewrite map_nth_seq. cbn [skipn]. rewrite firstn_all, Nat.sub_0_r, Nat.sub_diag, app_nil_r. reflexivity.
  - apply Forall_forall. intros i Hi. apply in_seq in Hi. lia.
Qed.
Lemma draw_shuffles {S X} (draw : S -> nat -> list nat * S) s : permutes draw ->
  @shuffles X (fun l => reorder (fst (draw s (length l))) l).
Proof. intros H l. apply reorder_perm. apply H. Qed.

(** ** Row-wise split *)
Section Rowwise.
Variable rnd : Q -> Q.
Lemma rowwise_inv s sh n_cols rows tr te : rowwise_split rnd s sh n_cols rows = Ok (tr, te) ->
  rule_ok s = true /\ exists parts, length parts = length rows /\
    (forall r, r < length rows -> split_row rnd s (nth r rows []) (sh r (length (nth r rows []))) r = Ok (nth r parts ([], []))) /\
    tr = mkCoo (length rows) n_cols (concat (map snd parts)) /\ te = mkCoo (length rows) n_cols (concat (map fst parts)).
Proof.
  unfold rowwise_split, check_arg. destruct (rule_ok s); [|discriminate]. cbv zeta.
  destruct (oall _) as [parts| | |] eqn:E; try discriminate. cbn. intros [= <- <-]. split; [reflexivity|]. exists parts.
  apply oall_inv in E.
  assert (L : length parts = length rows). { clear -E. rewrite <- (seq_length (length rows) 0). revert E. generalize (seq 0 (length rows)). intros l E. induction E; cbn; congruence. }
  split; [exact L|]. split; [|auto]. intros r Hr.
  assert (G : forall a l ps, Forall2 (fun x y => split_row rnd s (nth x rows []) (sh x (length (nth x rows []))) x = Ok y) (seq a l) ps -> forall k, k < l ->
     split_row rnd s (nth (a + k) rows []) (sh (a + k) (length (nth (a + k) rows []))) (a + k) = Ok (nth k ps ([], []))).
  { clear. intros a l. revert a. induction l as [|l IH]; intros a ps H k Hk; [lia|]. cbn [seq] in H. inversion H as [|x y xs ys H1 H2]; subst.
    destruct k as [|k]; cbn [nth]; [now rewrite Nat.add_0_r|]. rewrite Nat.add_succ_r. change (S (a + k)) with (S a + k). apply IH; auto. lia. }
  exact (G 0 (length rows) parts E r Hr).
Qed.
Lemma rowwise_ext s sh sh' n_cols rows : (forall r, r < length rows -> sh r (length (nth r rows [])) = sh' r (length (nth r rows []))) ->
  rowwise_split rnd s sh n_cols rows = rowwise_split rnd s sh' n_cols rows.
Proof.
  intros H. unfold rowwise_split. f_equal. f_equal. f_equal. apply map_ext_in. intros r Hr. apply in_seq in Hr. cbv zeta. rewrite H by lia. reflexivity.
Qed.
Lemma split_row_inv s row index r te tr : split_row rnd s row index r = Ok (te, tr) ->
  let k := get_n_test rnd s (length row) in
  pick row index r (seq 0 k) = Ok te /\ pick row index r (seq k (length row - k)) = Ok tr.
Proof.
  unfold split_row. cbv zeta. destruct (pick row index r (seq 0 _)) as [a| | |]; cbn [obind]; try discriminate.
  destruct (pick row index r _) as [b| | |]; cbn [obind omap]; try discriminate. intros [= <- <-]. auto.
Qed.
Lemma pick_in row index r is l t : pick row index r is = Ok l -> In t l ->
  exists i, In i is /\ forall is' l', pick row index r is' = Ok l' -> In i is' -> In t l'.
Proof.
  unfold pick. intros H Ht. apply oall_inv in H.
  assert (G : exists i, In i is /\ obind (of_option (nth_error index i)) (fun j => obind (of_option (nth_error row j)) (fun e => omap (fun z => (r, fst e, inject_Z z)) (to_int64 (snd e)))) = Ok t).
  { induction H as [|x y xs ys Hxy _ IH]; [destruct Ht|]. destruct Ht as [->|Ht]; [exists x; split; [now left|exact Hxy]|].
    destruct (IH Ht) as (i & Hi & E). exists i. split; [now right|exact E]. }
  destruct G as (i & Hi & E). exists i. split; [exact Hi|]. intros is' l' H' Hi'. apply oall_inv in H'.
  induction H' as [|x y xs ys Hxy _ IH]; [destruct Hi'|]. destruct Hi' as [->|Hi']; [|right; now apply IH].
  left. rewrite E in Hxy. injection Hxy as <-. reflexivity.
Qed.
Lemma pick_rows row index r is l : pick row index r is = Ok l -> Forall (fun e => fst (fst e) = r) l.
Proof.
  unfold pick. intros H. apply oall_inv in H. induction H as [|x y xs ys Hxy _ IH]; constructor; [|exact IH].
  destruct (nth_error index x) as [j|]; cbn in Hxy; [|discriminate]. destruct (nth_error row j) as [e|]; cbn in Hxy; [|discriminate].
  destruct (to_int64 (snd e)); cbn in Hxy; try discriminate. injection Hxy as <-. reflexivity.
Qed.
Lemma parts_rows s rows sh parts : length parts = length rows ->
  (forall r, r < length rows -> split_row rnd s (nth r rows []) (sh r (length (nth r rows []))) r = Ok (nth r parts ([], []))) ->
  forall r, filter (fun t => fst (fst t) =? r) (concat (map fst parts)) = fst (nth r parts ([], [])) /\
            filter (fun t => fst (fst t) =? r) (concat (map snd parts)) = snd (nth r parts ([], [])).
Proof.
  intros L H r. change (fun t : nat * nat * Q => fst (fst t) =? r) with (of_row r). split.
  - rewrite (filter_concat_rows (map fst parts)); [apply map_nth_default; reflexivity|]. intros k Hk. rewrite map_length in Hk.
    rewrite (map_nth_default fst parts k ([], []) []) by reflexivity. specialize (H k ltac:(lia)). destruct (nth k parts ([], [])) as [a b].
    apply split_row_inv in H as [H _]. now apply pick_rows in H.
  - rewrite (filter_concat_rows (map snd parts)); [apply map_nth_default; reflexivity|]. intros k Hk. rewrite map_length in Hk.
    rewrite (map_nth_default snd parts k ([], []) []) by reflexivity. specialize (H k ltac:(lia)). destruct (nth k parts ([], [])) as [a b].
    apply split_row_inv in H as [_ H]. now apply pick_rows in H.
Qed.
Lemma in_parts {X} (f : list X * list X -> list X) parts t : f ([], []) = [] -> In t (concat (map f parts)) <-> exists r, r < length parts /\ In t (f (nth r parts ([], []))).
Proof.
  intros E. rewrite in_concat. split.
  - intros (l & Hl & Ht). apply in_map_iff in Hl as (p & <- & Hp). apply (In_nth _ _ ([], [])) in Hp as (r & Hr & <-). eauto.
  - intros (r & Hr & Ht). exists (f (nth r parts ([], []))). split; [|exact Ht]. apply in_map. now apply nth_In.
Qed.
Lemma get_n_test_mono B s s' n : faithful rnd B -> holds_no_more s s' -> get_n_test rnd s n <= get_n_test rnd s' n.
Proof.
  intros [HM _]. destruct s as [q c|k], s' as [q' c'|k']; cbn; try (now intros []); [|intros; lia].
  intros [Hq Hc].
  assert (Hr : (rnd (inject_Z (Z.of_nat n) * q) <= rnd (inject_Z (Z.of_nat n) * q'))%Q).
  { apply HM. rewrite !(Qmult_comm (inject_Z _)). apply Qmult_le_compat_r; auto. change 0%Q with (inject_Z 0). rewrite <- Zle_Qle. lia. }
  pose proof (Qceiling_resp_le _ _ Hr) as H1. pose proof (Qfloor_resp_le _ _ Hr) as H2. assert (H3 : (Qfloor (rnd (inject_Z (Z.of_nat n) * q')%Q) <= Qceiling (rnd (inject_Z (Z.of_nat n) * q')%Q))%Z) by (rewrite Zle_Qle; apply Qle_floor_ceiling).
  destruct c, c'; [lia|specialize (Hc eq_refl); discriminate|lia|lia].
Qed.
Lemma rowwise_nested B s s' sh n_cols rows tr te tr' te' : faithful rnd B -> holds_no_more s s' ->
  rowwise_split rnd s sh n_cols rows = Ok (tr, te) -> rowwise_split rnd s' sh n_cols rows = Ok (tr', te') ->
  (forall t, In t (c_ent te) -> In t (c_ent te')) /\ (forall t, In t (c_ent tr') -> In t (c_ent tr)).
Proof.
  intros HF Hs E E'. apply rowwise_inv in E as (_ & ps & L & H & -> & ->). apply rowwise_inv in E' as (_ & ps' & L' & H' & -> & ->). cbn [c_ent].
  assert (G : forall r, r < length rows -> (forall t, In t (fst (nth r ps ([], []))) -> In t (fst (nth r ps' ([], [])))) /\ (forall t, In t (snd (nth r ps' ([], []))) -> In t (snd (nth r ps ([], []))))).
  { intros r Hr. specialize (H r Hr). specialize (H' r Hr). destruct (nth r ps ([], [])) as [a b]. destruct (nth r ps' ([], [])) as [a' b'].
    apply split_row_inv in H as [H1 H2]. apply split_row_inv in H' as [H1' H2']. cbn [fst snd].
    pose proof (get_n_test_mono B s s' (length (nth r rows [])) HF Hs) as HM. split; intros t Ht.
    - destruct (pick_in _ _ _ _ _ _ H1 Ht) as (i & Hi & K). apply (K _ _ H1'). apply in_seq in Hi. apply in_seq. lia.
    - destruct (pick_in _ _ _ _ _ _ H2' Ht) as (i & Hi & K). apply (K _ _ H2). apply in_seq in Hi. apply in_seq. lia. }
  split; intros t Ht.
  - apply in_parts in Ht as (r & Hr & Ht); [|reflexivity]. apply in_parts; [reflexivity|]. exists r. split; [lia|]. apply (G r); auto. lia.
  - apply in_parts in Ht as (r & Hr & Ht); [|reflexivity]. apply in_parts; [reflexivity|]. exists r. split; [lia|]. apply (G r); auto. lia.
Qed.
Lemma rowwise_local s sh sh' n_cols rows rows' tr te tr' te' r :
  rowwise_split rnd s sh n_cols rows = Ok (tr, te) -> rowwise_split rnd s sh' n_cols rows' = Ok (tr', te') ->
  r < length rows -> r < length rows' -> nth r rows [] = nth r rows' [] -> sh r (length (nth r rows [])) = sh' r (length (nth r rows [])) ->
  in_row r tr = in_row r tr' /\ in_row r te = in_row r te'.
Proof.
  intros E E' Hr Hr' En Es. apply rowwise_inv in E as (_ & ps & L & H & -> & ->). apply rowwise_inv in E' as (_ & ps' & L' & H' & -> & ->).
  unfold in_row. cbn [c_ent]. destruct (parts_rows s rows sh ps L H r) as [-> ->]. destruct (parts_rows s rows' sh' ps' L' H' r) as [-> ->].
  specialize (H r Hr). specialize (H' r Hr'). rewrite <- En, <- Es, H in H'. injection H' as ->. auto.
Qed.
End Rowwise.

(** ** Seeds *)
Section Seed.
Context {G M : Type}.
Variable np_seed : Z -> G.
Variable np_entropy : G.
Variable np_permute : G -> nat -> list nat * G.
Variable np_randint : G -> Z * G.
Variable mt_seed : Z -> M.
Variable mt_permute : M -> nat -> list nat * M.
Variable rnd : Q -> Q.
Notation convert := (convert_randomstate np_seed np_entropy).
Notation rowwise := (rowwise_seeded np_seed np_entropy np_randint mt_seed mt_permute rnd).

Lemma row_perms_nth {X} (rows : list (list X)) : permutes mt_permute -> forall m r, r < length rows ->
  Permutation (nth r (row_perms mt_permute m rows) []) (seq 0 (length (nth r rows []))).
Proof.
  intros HP. induction rows as [|row rows IH]; intros m r Hr; cbn in Hr; [lia|]. cbn [row_perms].
  pose proof (HP m (length row)) as H. destruct (mt_permute m (length row)) as [p m']. cbn [fst] in H. destruct r as [|r]; cbn [nth]; [exact H|]. apply IH. lia.
Qed.
Lemma row_perms_app {X} (rows more : list (list X)) : forall m r, r < length rows ->
  nth r (row_perms mt_permute m (rows ++ more)) [] = nth r (row_perms mt_permute m rows) [].
Proof.
  induction rows as [|row rows IH]; intros m r Hr; cbn in Hr; [lia|]. cbn [row_perms app].
  destruct (mt_permute m (length row)) as [p m']. destruct r as [|r]; cbn [nth]; [reflexivity|]. apply IH. lia.
Qed.
(** The shuffles of the rows as an oracle of Split_Model. *)
Definition mt_shuffle (m : M) (rows : list (list (nat * Q))) (r n : nat) : list nat :=
  if (r <? length rows) && (n =? length (nth r rows [])) then nth r (row_perms mt_permute m rows) [] else seq 0 n.
Lemma mt_shuffle_ok m rows : permutes mt_permute -> row_shuffles (mt_shuffle m rows).
Proof.
  intros HP r n. unfold mt_shuffle. destruct (Nat.ltb_spec r (length rows)) as [Hr|Hr]; cbn [andb]; [|reflexivity].
  destruct (Nat.eqb_spec n (length (nth r rows []))) as [->|]; [|reflexivity]. now apply row_perms_nth.
Qed.
Lemma mt_shuffle_split m s n_cols rows : rowwise_split rnd s (fun r _ => nth r (row_perms mt_permute m rows) []) n_cols rows = rowwise_split rnd s (mt_shuffle m rows) n_cols rows.
Proof.
  apply rowwise_ext. intros r Hr. unfold mt_shuffle. destruct (Nat.ltb_spec r (length rows)); [|lia]. now rewrite Nat.eqb_refl.
Qed.
Lemma rowwise_seeded_inv s a n_cols rows p g' : rowwise s a n_cols rows = Ok (p, g') ->
  exists g, convert a = Ok g /\ g' = snd (np_randint g) /\
    rowwise_split rnd s (mt_shuffle (mt_seed (fst (np_randint g))) rows) n_cols rows = Ok p.
Proof.
  unfold rowwise_seeded. destruct (convert a) as [g| | |]; cbn [obind]; try discriminate. destruct (np_randint g) as [z g1] eqn:Eg. cbv zeta.
  rewrite mt_shuffle_split. destruct (rowwise_split _ _ _ _ _) as [q| | |] eqn:E; cbn [omap obind]; try discriminate. intros [= <- <-].
  exists g. rewrite Eg. auto.
Qed.

Lemma seeded_rowwise_is_split s a n_cols rows p g' : permutes mt_permute -> rowwise s a n_cols rows = Ok (p, g') ->
  exists sh, row_shuffles sh /\ rowwise_split rnd s sh n_cols rows = Ok p.
Proof. intros HP E. apply rowwise_seeded_inv in E as (g & _ & _ & E). eexists. split; [|exact E]. now apply mt_shuffle_ok. Qed.
Lemma seeded_nested B s s' a n_cols rows tr te tr' te' g g' : faithful rnd B -> holds_no_more s s' ->
  rowwise s a n_cols rows = Ok (tr, te, g) -> rowwise s' a n_cols rows = Ok (tr', te', g') ->
  (forall t, In t (c_ent te) -> In t (c_ent te')) /\ (forall t, In t (c_ent tr') -> In t (c_ent tr)).
Proof.
  intros HF Hs E E'. apply rowwise_seeded_inv in E as (g0 & E0 & _ & E). apply rowwise_seeded_inv in E' as (g0' & E0' & _ & E').
  rewrite E0 in E0'. injection E0' as <-. exact (rowwise_nested rnd B s s' _ n_cols rows tr te tr' te' HF Hs E E').
Qed.
Lemma seeded_prefix s a n_cols rows more tr te tr' te' g g' r :
  rowwise s a n_cols rows = Ok (tr, te, g) -> rowwise s a n_cols (rows ++ more) = Ok (tr', te', g') -> r < length rows ->
  in_row r tr = in_row r tr' /\ in_row r te = in_row r te'.
Proof.
  intros E E' Hr. apply rowwise_seeded_inv in E as (g0 & E0 & _ & E). apply rowwise_seeded_inv in E' as (g0' & E0' & _ & E').
  rewrite E0 in E0'. injection E0' as <-. assert (En : nth r rows [] = nth r (rows ++ more) []) by now rewrite app_nth1.
  assert (Hr' : r < length (rows ++ more)) by (rewrite app_length; lia).
  refine (rowwise_local rnd s _ _ n_cols rows (rows ++ more) tr te tr' te' r E E' Hr Hr' En _).
  unfold mt_shuffle. rewrite <- En. destruct (Nat.ltb_spec r (length rows)); [|lia]. destruct (Nat.ltb_spec r (length (rows ++ more))); [|lia].
  rewrite Nat.eqb_refl. cbn [andb]. symmetry. now apply row_perms_app.
Qed.
Lemma seeded_draws s s' a n_cols n_cols' rows rows' p p' g g' :
  rowwise s a n_cols rows = Ok (p, g) -> rowwise s' a n_cols' rows' = Ok (p', g') -> g = g'.
Proof.
  intros E E'. apply rowwise_seeded_inv in E as (g0 & E0 & -> & _). apply rowwise_seeded_inv in E' as (g0' & E0' & -> & _). congruence.
Qed.
Lemma seeded_argument s n_cols rows :
  (forall z, (0 <= z < 2 ^ 32)%Z -> rowwise s (RsInt z) n_cols rows = rowwise s (RsState (np_seed z)) n_cols rows) /\
  (forall z, ~ (0 <= z < 2 ^ 32)%Z -> rowwise s (RsInt z) n_cols rows = Fail ValueError) /\
  rowwise s RsOther n_cols rows = Fail ValueError.
Proof.
  unfold rowwise_seeded, convert_randomstate. split; [|split; [|reflexivity]]; intros z Hz.
  - destruct (Z.leb_spec 0 z), (Z.ltb_spec z (2 ^ 32)); try lia. reflexivity.
  - destruct (Z.leb_spec 0 z), (Z.ltb_spec z (2 ^ 32)); try lia; reflexivity.
Qed.
End Seed.
