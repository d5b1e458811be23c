(** Whole-dataset splits. *)
From Coq Require Import Lqa.
From Verif Require Import Base Sort_Proofs Rec_Model Rec_Proofs Split_Spec Split_Proofs SplitDf_Proofs.
Local Open Scope nat_scope.

Section Top.
Context {U I T : Type}.
Variable eq_u : forall a b : U, {a = b} + {a <> b}.
Variable eq_i : forall a b : I, {a = b} + {a <> b}.
Variable uniq_u : listing -> list U -> list U.
Variable uniq_i : listing -> list I -> list I.
Variable rnd : Q -> Q.
Variable B : nat.
Hypothesis Hrnd : faithful rnd B.
Variable le : T -> T -> Prop.
Variable sort_time : list (event U I T) -> list (event U I T).
Hypothesis Hor : oracles_ok uniq_u uniq_i le sort_time.
Let Huu := ok_uniq_u _ _ _ _ Hor.
Let Hui := ok_uniq_i _ _ _ _ Hor.
Let Hsort := ok_sort _ _ _ _ Hor.
Notation event := (event U I T).

(** ** Lists of users and rows *)
Lemma drop_dup_ok (df : list event) : forall seen,
  NoDup (map pair_of (drop_dup eq_u eq_i seen df)) /\
  (forall e, In e (drop_dup eq_u eq_i seen df) -> In e df /\ ~ In (pair_of e) seen) /\
  (forall e, In e df -> In (pair_of e) seen \/ In (pair_of e) (map pair_of (drop_dup eq_u eq_i seen df))).
Proof.
  induction df as [|e df IH]; intros seen; cbn [drop_dup].
  - split; [constructor|]. split; intros ? [].
  - set (b := existsb _ seen).
    assert (Hb : b = true <-> In (pair_of e) seen).
    { unfold b. rewrite existsb_exists. split.
      - intros ([x y] & Hin & E). cbn in E. destruct (eq_u x (ev_u e)), (eq_i y (ev_i e)); try discriminate. subst. exact Hin.
      - intros Hin. exists (pair_of e). split; auto. cbn. destruct (eq_u (ev_u e) (ev_u e)), (eq_i (ev_i e) (ev_i e)); auto. }
    destruct b.
    + destruct (IH seen) as (H1 & H2 & H3). split; [exact H1|]. split.
      * intros e' He'. destruct (H2 e' He'). split; auto. now right.
      * intros e' [->|He']; auto. left. now apply Hb.
    + assert (Hn : ~ In (pair_of e) seen) by (intros H; apply Hb in H; discriminate).
      destruct (IH ((ev_u e, ev_i e) :: seen)) as (H1 & H2 & H3). split; [|split].
      * cbn [map]. constructor; auto. intros Hin. apply in_map_iff in Hin as (e' & E & He'). destruct (H2 e' He') as [_ Hx]. apply Hx. rewrite E. now left.
      * intros e' [->|He']; [split; [now left|auto]|]. destruct (H2 e' He') as [Ha Hx]. split; [now right|]. intros Hin. apply Hx. now right.
      * intros e' [->|He']; [right; now left|]. destruct (H3 e' He') as [[E|Hin]|Hin]; auto; right; [left; exact E|now right].
Qed.
Lemma split_list_perm {X} (sh : list X -> list X) ids k : shuffles sh -> Permutation (fst (split_list sh ids k) ++ snd (split_list sh ids k)) ids.
Proof.
  intros H. unfold split_list, py_from, py_to. cbn [fst snd]. rewrite Permutation_app_comm, firstn_skipn. apply H.
Qed.
Lemma split_list_len {X} (sh : list X -> list X) ids k : shuffles sh -> (0 <= k <= Z.of_nat (length ids))%Z -> length (snd (split_list sh ids k)) = Z.to_nat k.
Proof.
  intros H Hk. unfold split_list, py_to, py_cut. cbn [snd]. destruct (Z.ltb_spec k 0); [lia|]. rewrite firstn_length, (Permutation_length (H ids)). lia.
Qed.
Lemma rows_of_app (df : list event) a b : (forall x, In x a -> ~ In x b) -> Permutation (rows_of eq_u df (a ++ b)) (rows_of eq_u df a ++ rows_of eq_u df b).
Proof.
  intros H. unfold rows_of. induction df as [|e df IH]; cbn [filter]; [constructor|].
  assert (E : id_mem eq_u (ev_u e) (a ++ b) = id_mem eq_u (ev_u e) a || id_mem eq_u (ev_u e) b) by (unfold id_mem; apply existsb_app).
  rewrite E. destruct (id_mem eq_u (ev_u e) a) eqn:Ea, (id_mem eq_u (ev_u e) b) eqn:Eb; cbn [orb].
  - apply id_mem_iff in Ea, Eb. exfalso. exact (H _ Ea Eb).
  - cbn [app]. now constructor.
  - rewrite <- Permutation_middle. now constructor.
  - exact IH.
Qed.
Lemma rows_of_all (df : list event) us : (forall e, In e df -> In (ev_u e) us) -> rows_of eq_u df us = df.
Proof. intros H. unfold rows_of. apply filter_id. apply Forall_forall. intros e He. apply id_mem_iff. auto. Qed.
Lemma rows_of_perm (df : list event) a b : Permutation a b -> rows_of eq_u df a = rows_of eq_u df b.
Proof.
  intros H. unfold rows_of. apply filter_ext. intros e. destruct (id_mem eq_u (ev_u e) a) eqn:Ea, (id_mem eq_u (ev_u e) b) eqn:Eb; auto.
  - apply id_mem_iff in Ea. apply (Permutation_in _ H) in Ea. apply (id_mem_iff eq_u) in Ea. congruence.
  - apply id_mem_iff in Eb. apply (Permutation_in _ (Permutation_sym H)) in Eb. apply (id_mem_iff eq_u) in Eb. congruence.
Qed.
Lemma rows_of_users (df : list event) us s : (forall x, In x us -> exists e, In e df /\ ev_u e = x) -> forall x, In x (uniq_u s (map ev_u (rows_of eq_u df us))) <-> In x us.
Proof.
  intros H x. rewrite (proj2 (Huu _ _)). split.
  - intros Hin. apply in_map_iff in Hin as (e & <- & He). apply filter_In in He as [_ He]. now apply id_mem_iff in He.
  - intros Hin. destruct (H x Hin) as (e & He & <-). apply in_map. apply filter_In. split; auto. now apply id_mem_iff.
Qed.

(** One of the two parts with held-out interactions. *)
Definition part_of (o : options) (d : list event) items held n_held sh :=
  if o_time o then userwise_time eq_u eq_i uniq_u uniq_i rnd sort_time d items n_held held (o_ceil o) (o_rated o)
  else userwise_random eq_u eq_i uniq_u uniq_i rnd d items n_held held (o_ceil o) (o_rated o) sh.
Definition out_value (o : options) (e : event) : Q := if o_rated o then inject_Z (trunc (ev_r e)) else 1%Q.
Lemma part_ok o (d : list event) items held n_held sh pd : NoDup items -> (forall e, In e d -> In (ev_i e) items) -> NoDup (map pair_of d) ->
  row_shuffles sh -> length items <= B -> (o_rated o = true -> Forall (fun e => int64_range (ev_r e)) d) ->
  part_of o d items held n_held sh = Ok pd ->
  pd_users pd = uniq_u (if o_time o then BySet else BySort) (map ev_u d) /\ Permutation (learn_labels items pd ++ held_labels items pd) (map (label_of (out_value o)) d).
Proof.
  intros Ni Hi HN Hsh HB HR. unfold part_of. destruct (o_time o).
  - intros E. destruct (userwise_time_ok eq_u eq_i uniq_u uniq_i Huu Hui rnd le sort_time Hsort _ _ _ _ _ _ _ Ni Hi E) as (Er & Hu & _ & _ & _ & _ & tr & te & Es & E1 & E2).
    split; auto. rewrite E1, E2, <- map_app. destruct (split_last_ok eq_u rnd le sort_time Hsort _ _ _ _ _ _ Es) as [HP _].
    rewrite (Permutation_map _ HP). unfold out_value. rewrite Er. reflexivity.
  - intros E. destruct (userwise_random_ok eq_u eq_i uniq_u uniq_i Huu Hui rnd B Hrnd _ _ _ _ _ _ _ _ Ni Hi HN Hsh HB HR E) as (Hu & _ & _ & _ & _ & HP).
    split; auto. rewrite Permutation_app_comm, HP. unfold value_of, out_value. destruct (o_rated o); reflexivity.
Qed.

(** Users chosen by partial_user_holdout: (n_val, n_test, ratio used by the gate). *)
Definition chosen_counts (df : list event) (o : options) : outcome (Z * Z * Q) :=
  let n_all := length (uniq_u ByAppearance (map ev_u df)) in
  obind (match o_n_val o with
         | None => omap fst (n_from_ratio rnd n_all (o_val_ratio o))
         | Some n => if (Z.of_nat n_all <? n)%Z then Fail ValueError else Ok n
         end) (fun n_val =>
  omap (fun nt => (n_val, fst nt, snd nt))
       (match o_n_test o with
        | None => n_from_ratio rnd n_all (o_test_ratio o)
        | Some n => if (Z.of_nat n_all <? n + n_val)%Z then Fail ValueError else Ok (n, o_test_ratio o)
        end)).
Lemma partial_inv df o ch ds : partial_user_holdout eq_u eq_i uniq_u uniq_i rnd sort_time df o ch = Ok ds ->
  exists n_val n_test ratio,
    let uids := uniq_u ByAppearance (map ev_u df) in
    let df' := drop_dup eq_u eq_i [] df in
    let items := uniq_i BySet (map ev_i df') in
    let vt := snd (split_list (ch_first ch) uids (n_val + n_test)) in
    let train_uids := fst (split_list (ch_first ch) uids (n_val + n_test)) in
    let gate := Qle_bool 1 (rnd (ratio * inject_Z (Z.of_nat (length uids)))%Q) in
    let val_uids := if gate then fst (split_list (ch_second ch) vt n_test) else vt in
    let test_uids := if gate then snd (split_list (ch_second ch) vt n_test) else [] in
    chosen_counts df o = Ok (n_val, n_test, ratio) /\
    (0 <= o_test_ratio o <= 1)%Q /\ (0 <= o_val_ratio o <= 1)%Q /\
    ds_items ds = items /\
    (exists tr, df_to_sparse eq_u eq_i uniq_u uniq_i (rows_of eq_u df' train_uids) (Some train_uids) (Some items) false = Ok tr /\
                make_pair train_uids (fst (fst tr)) None = Ok (ds_train ds)) /\
    part_of o (rows_of eq_u df' val_uids) items (o_held_val o) (o_n_held_val o) (ch_val ch) = Ok (ds_val ds) /\
    part_of o (rows_of eq_u df' test_uids) items (o_held_test o) (o_n_held_test o) (ch_test ch) = Ok (ds_test ds).
Proof.
  unfold partial_user_holdout, unit_interval.
  destruct (Qle_bool (o_test_ratio o) 1) eqn:R1, (Qle_bool 0 (o_test_ratio o)) eqn:R2, (Qle_bool (o_val_ratio o) 1) eqn:R3, (Qle_bool 0 (o_val_ratio o)) eqn:R4; cbn [andb negb]; try discriminate.
  apply Qle_bool_iff in R1, R2, R3, R4. unfold chosen_counts. set (n_all := length (uniq_u ByAppearance (map ev_u df))).
  set (c1 := match o_n_val o with None => _ | Some n => _ end). destruct c1 as [n_val| | |]; cbn [obind]; try discriminate.
  set (c2 := match o_n_test o with None => _ | Some n => _ end). destruct c2 as [[n_test ratio]| | |]; cbn [obind]; try discriminate.
  set (uids := uniq_u ByAppearance (map ev_u df)) in *. set (df' := drop_dup eq_u eq_i [] df). set (items := uniq_i BySet (map ev_i df')).
  destruct (split_list (ch_first ch) uids (n_val + n_test)) as [train_uids vt] eqn:E1.
  set (gate := Qle_bool 1 (rnd (ratio * inject_Z (Z.of_nat n_all))%Q)).
  intros H. exists n_val, n_test, ratio. cbv zeta. rewrite E1. cbn [fst snd]. fold gate n_all.
  assert (E2 : exists v t, (if gate then split_list (ch_second ch) vt n_test else (vt, [])) = (v, t) /\
     (if gate then fst (split_list (ch_second ch) vt n_test) else vt) = v /\ (if gate then snd (split_list (ch_second ch) vt n_test) else []) = t).
  { destruct gate; [|eauto]. destruct (split_list (ch_second ch) vt n_test) as [v t]. eauto. }
  destruct E2 as (v & t & E2 & -> & ->). rewrite E2 in H. clear E2.
  destruct (df_to_sparse eq_u eq_i uniq_u uniq_i (rows_of eq_u df' train_uids) (Some train_uids) (Some items) false) as [tr| | |] eqn:Et; cbn [obind] in H; try discriminate.
  destruct (make_pair train_uids (fst (fst tr)) None) as [train| | |] eqn:Em; cbn [obind] in H; try discriminate.
  fold (part_of o (rows_of eq_u df' v) items (o_held_val o) (o_n_held_val o) (ch_val ch)) in H.
  destruct (part_of o (rows_of eq_u df' v) items (o_held_val o) (o_n_held_val o) (ch_val ch)) as [val| | |] eqn:Ev; cbn [obind] in H; try discriminate.
  fold (part_of o (rows_of eq_u df' t) items (o_held_test o) (o_n_held_test o) (ch_test ch)) in H.
  destruct (part_of o (rows_of eq_u df' t) items (o_held_test o) (o_n_held_test o) (ch_test ch)) as [test| | |] eqn:Ex; cbn [obind omap] in H; try discriminate.
  injection H as H. rewrite <- H. cbn [ds_items ds_train ds_val ds_test]. do 4 (split; auto). split; [|split; auto]. exists tr. auto.
Qed.
Lemma train_pair_ok (d : list event) us items tr pd : NoDup us -> NoDup items -> (forall e, In e d -> In (ev_u e) us /\ In (ev_i e) items) ->
  df_to_sparse eq_u eq_i uniq_u uniq_i d (Some us) (Some items) false = Ok tr -> make_pair us (fst (fst tr)) None = Ok pd ->
  pd_users pd = us /\ learn_labels items pd = map (label_of (fun _ => 1%Q)) d /\ held_labels items pd = [].
Proof.
  intros Nu Ni H E. destruct (df_to_sparse_ok eq_u eq_i uniq_u uniq_i Huu Hui d (Some us) (Some items) false Nu Ni) as (ent & E' & _ & _ & F).
  rewrite E in E'. injection E' as ->. cbn [fst]. unfold make_pair. cbn [c_rows]. rewrite Nat.eqb_refl. cbn [negb]. intros [= <-].
  unfold learn_labels, held_labels. cbn [pd_users pd_train pd_test]. rewrite !labels_list. cbn [c_ent]. split; auto. split; auto.
  assert (Ek : kept_rows eq_u eq_i d (Some us) (Some items) = d).
  { unfold kept_rows. apply filter_id. apply Forall_forall. intros e He. destruct (H e He). apply andb_true_iff. split; now apply id_mem_iff. }
  rewrite Ek in F. exact (stands_labels _ _ _ _ _ F).
Qed.

(** The split in terms of events: everything C19 and C20 need. *)
Lemma partial_main df o ch ds : choices_ok ch -> length df <= B -> (o_rated o = true -> Forall (fun e => int64_range (ev_r e)) df) ->
  partial_user_holdout eq_u eq_i uniq_u uniq_i rnd sort_time df o ch = Ok ds ->
  exists n_val n_test ratio tu vu xu,
    let df' := drop_dup eq_u eq_i [] df in
    let uids := uniq_u ByAppearance (map ev_u df) in
    let gate := Qle_bool 1 (rnd (ratio * inject_Z (Z.of_nat (length uids)))%Q) in
    chosen_counts df o = Ok (n_val, n_test, ratio) /\
    Permutation (tu ++ vu ++ xu) uids /\
    length (vu ++ xu) = py_cut uids (n_val + n_test) - (py_cut uids (n_val + n_test) - length uids) /\
    (gate = true -> length xu = py_cut (vu ++ xu) n_test - (py_cut (vu ++ xu) n_test - length (vu ++ xu))) /\ (gate = false -> xu = []) /\
    pd_users (ds_train ds) = tu /\
    pd_users (ds_val ds) = uniq_u (if o_time o then BySet else BySort) (map ev_u (rows_of eq_u df' vu)) /\ (forall x, In x (pd_users (ds_val ds)) <-> In x vu) /\
    pd_users (ds_test ds) = uniq_u (if o_time o then BySet else BySort) (map ev_u (rows_of eq_u df' xu)) /\ (forall x, In x (pd_users (ds_test ds)) <-> In x xu) /\
    learn_labels (ds_items ds) (ds_train ds) = map (label_of (fun _ => 1%Q)) (rows_of eq_u df' tu) /\
    held_labels (ds_items ds) (ds_train ds) = [] /\
    Permutation (learn_labels (ds_items ds) (ds_val ds) ++ held_labels (ds_items ds) (ds_val ds)) (map (label_of (out_value o)) (rows_of eq_u df' vu)) /\
    Permutation (learn_labels (ds_items ds) (ds_test ds) ++ held_labels (ds_items ds) (ds_test ds)) (map (label_of (out_value o)) (rows_of eq_u df' xu)).
Proof.
  intros Hch HB HR E. apply partial_inv in E as (n_val & n_test & ratio & E). cbv zeta in E. destruct E as (Ec & _ & _ & Ei & (tr & Et & Em) & Ev & Ex).
  set (uids := uniq_u ByAppearance (map ev_u df)) in *. set (df' := drop_dup eq_u eq_i [] df) in *. set (items := uniq_i BySet (map ev_i df')) in *.
  set (gate := Qle_bool 1 _) in *.
  set (s1 := split_list (ch_first ch) uids (n_val + n_test)) in *. set (s2 := split_list (ch_second ch) (snd s1) n_test) in *.
  set (vu := if gate then fst s2 else snd s1) in *. set (xu := if gate then snd s2 else []) in *.
  pose proof (split_list_perm (ch_first ch) uids (n_val + n_test) (ok_first _ Hch)) as P1. fold s1 in P1.
  pose proof (split_list_perm (ch_second ch) (snd s1) n_test (ok_second _ Hch)) as P2. fold s2 in P2.
  assert (Pvx : Permutation (vu ++ xu) (snd s1)) by (unfold vu, xu; destruct gate; [exact P2|now rewrite app_nil_r]).
  assert (Pall : Permutation (fst s1 ++ vu ++ xu) uids) by (rewrite Pvx; exact P1).
  destruct (drop_dup_ok df []) as (D1 & D2 & D3). fold df' in D1, D2, D3.
  assert (Nui : NoDup uids) by apply Huu. assert (Ni : NoDup items) by apply Hui.
  assert (Hit : forall e, In e df' -> In (ev_i e) items) by (intros e He; apply Hui; now apply in_map).
  assert (Hlen : length items <= B).
  { transitivity (length df); auto. rewrite <- (map_length ev_i). apply NoDup_incl_length; auto. intros y Hy. apply (proj1 (proj2 (Hui _ _) _)) in Hy. apply in_map_iff in Hy as (e & <- & He). apply in_map. now apply D2. }
  assert (Hu' : forall x, In x uids -> exists e, In e df' /\ ev_u e = x).
  { intros x Hx. apply (proj1 (proj2 (Huu _ _) _)) in Hx. apply in_map_iff in Hx as (e & <- & He). destruct (D3 e He) as [[]|Hin]. apply in_map_iff in Hin as (e' & E' & He'). exists e'. split; auto. unfold pair_of in E'. congruence. }
  assert (Hsub : forall us e, In e (rows_of eq_u df' us) -> In e df') by (intros us e He; apply filter_In in He; tauto).
  assert (Nsub : forall us, NoDup (map pair_of (rows_of eq_u df' us))) by (intros us; unfold rows_of; (clear -D1; induction df' as [|e l IH]; cbn; [constructor|]; inversion D1; subst; destruct (id_mem eq_u (ev_u e) us); auto; cbn; constructor; auto; intros Hin; apply in_map_iff in Hin as (e' & Ee & He'); apply filter_In in He' as [He' _]; match goal with Hx : ~ In (pair_of e) _ |- _ => apply Hx end; rewrite <- Ee; now apply in_map)).
  assert (HRs : forall us, o_rated o = true -> Forall (fun e => int64_range (ev_r e)) (rows_of eq_u df' us)).
  { intros us Hr. specialize (HR Hr). rewrite Forall_forall in *. intros e He. apply HR. apply D2. now apply (Hsub us). }
  exists n_val, n_test, ratio, (fst s1), vu, xu. cbv zeta. fold df' uids gate.
  split; [exact Ec|]. split; [exact Pall|].
  split. { rewrite (Permutation_length Pvx). unfold s1, split_list, py_to. cbn [snd]. rewrite firstn_length, (Permutation_length (ok_first _ Hch uids)). unfold py_cut. rewrite (Permutation_length (ok_first _ Hch uids)). lia. }
  split. { intros Hg. unfold xu at 1. rewrite Hg. unfold s2, split_list, py_to. cbn [snd]. rewrite firstn_length, (Permutation_length (ok_second _ Hch _)). unfold py_cut. rewrite (Permutation_length (ok_second _ Hch _)), (Permutation_length Pvx). lia. }
  split. { intros Hg. unfold xu. now rewrite Hg. }
  assert (Ntu : NoDup (fst s1)). { eapply Permutation_NoDup in Nui; [|symmetry; exact Pall]. now apply nodup_app_iff in Nui. }
  assert (Ha : forall e, In e (rows_of eq_u df' (fst s1)) -> In (ev_u e) (fst s1) /\ In (ev_i e) items).
  { intros e He. split; [apply filter_In in He as [_ He]; now apply id_mem_iff in He|apply Hit; now apply Hsub in He]. }
  assert (Hb : forall us e, In e (rows_of eq_u df' us) -> In (ev_i e) items) by (intros us e He; apply Hit; now apply Hsub in He).
  destruct (train_pair_ok _ _ _ _ _ Ntu Ni Ha Et Em) as (T1 & T2 & T3).
  rewrite Ei.
  destruct (part_ok o _ items _ _ _ _ Ni (Hb vu) (Nsub vu) (ok_val _ Hch) Hlen (HRs vu) Ev) as (V1 & V2).
  destruct (part_ok o _ items _ _ _ _ Ni (Hb xu) (Nsub xu) (ok_test _ Hch) Hlen (HRs xu) Ex) as (X1 & X2).
  split; [exact T1|]. split; [exact V1|]. split.
  { intros x. rewrite V1. apply rows_of_users. intros y Hy. apply Hu'. eapply Permutation_in; [exact Pall|]. apply in_or_app. right. apply in_or_app. now left. }
  split; [exact X1|]. split.
  { intros x. rewrite X1. apply rows_of_users. intros y Hy. apply Hu'. eapply Permutation_in; [exact Pall|]. apply in_or_app. right. apply in_or_app. now right. }
  auto.
Qed.

(** C19 *)
Lemma partial_disjoint df o ch ds : choices_ok ch -> length df <= B -> (o_rated o = true -> Forall (fun e => int64_range (ev_r e)) df) ->
  partial_user_holdout eq_u eq_i uniq_u uniq_i rnd sort_time df o ch = Ok ds ->
  NoDup (all_users ds) /\ (forall x, In x (all_users ds) <-> exists e, In e df /\ ev_u e = x) /\
  NoDup (map fst (all_labels ds)) /\
  (forall x y, In (x, y) (map fst (all_labels ds)) <-> exists e, In e df /\ ev_u e = x /\ ev_i e = y) /\
  (o_rated o = false -> forall l, In l (all_labels ds) -> (snd l == 1)%Q) /\
  (forall l, In l (learn_labels (ds_items ds) (ds_train ds)) -> (snd l == 1)%Q) /\
  (o_rated o = true -> forall l, In l (learn_labels (ds_items ds) (ds_val ds) ++ held_labels (ds_items ds) (ds_val ds) ++ learn_labels (ds_items ds) (ds_test ds) ++ held_labels (ds_items ds) (ds_test ds)) ->
     exists e, In e df /\ fst l = (ev_u e, ev_i e) /\ (snd l == inject_Z (trunc (ev_r e)))%Q).
Proof.
  intros Hch HB HR E. destruct (partial_main df o ch ds Hch HB HR E) as (n_val & n_test & ratio & tu & vu & xu & M). cbv zeta in M.
  destruct M as (_ & P & _ & _ & _ & T1 & V1 & V2 & X1 & X2 & L1 & L2 & L3 & L4).
  set (df' := drop_dup eq_u eq_i [] df) in *. set (uids := uniq_u ByAppearance (map ev_u df)) in *.
  destruct (drop_dup_ok df []) as (D1 & D2 & D3). fold df' in D1, D2, D3.
  assert (Nall : NoDup (tu ++ vu ++ xu)) by (eapply Permutation_NoDup; [symmetry; exact P|apply Huu]).
  apply nodup_app_iff in Nall as (Nt & Nvx & Dt). pose proof Nvx as Nvx0. apply nodup_app_iff in Nvx as (Nv & Nx & Dv).
  assert (Hdf' : forall e, In e df' -> In (ev_u e) uids) by (intros e He; apply Huu; apply in_map; now apply D2).
  assert (Prows : Permutation (rows_of eq_u df' tu ++ rows_of eq_u df' vu ++ rows_of eq_u df' xu) df').
  { rewrite <- rows_of_app by auto. rewrite <- rows_of_app by auto. rewrite (rows_of_perm df' _ _ P). now rewrite (rows_of_all df' uids). }
  assert (Plab : Permutation (map fst (all_labels ds)) (map pair_of df')).
  { unfold all_labels. rewrite L2. cbn [app]. rewrite (app_assoc (learn_labels _ (ds_val ds))). rewrite !map_app. rewrite (map_app fst (learn_labels _ (ds_val ds))) || idtac.
    rewrite <- !map_app. rewrite L1, L3, L4. rewrite !map_app, !map_map. cbn [label_of fst]. rewrite <- !map_app. apply Permutation_map. exact Prows. }
  split; [|split; [|split; [|split; [|split; [|split]]]]].
  - unfold all_users. rewrite T1. apply nodup_app_iff. split; auto. split.
    + apply nodup_app_iff. rewrite V1 at 1. rewrite X1 at 1. split; [apply Huu|]. split; [apply Huu|]. intros x H1 H2. apply V2 in H1. apply X2 in H2. exact (Dv x H1 H2).
    + intros x H1 H2. apply (Dt x H1). apply in_app_or in H2 as [H2|H2]; apply in_or_app; [left; now apply V2|right; now apply X2].
  - intros x. assert (G : In x (all_users ds) <-> In x (tu ++ vu ++ xu)).
    { unfold all_users. rewrite !in_app_iff, T1, V2, X2. tauto. }
    rewrite G. split.
    + intros H. apply (Permutation_in _ P) in H. apply (proj1 (proj2 (Huu _ _) _)) in H. apply in_map_iff in H as (e & Ee & He). eauto.
    + intros (e & He & <-). apply (Permutation_in _ (Permutation_sym P)). apply Huu. now apply in_map.
  - eapply Permutation_NoDup; [symmetry; exact Plab|exact D1].
  - intros x y. split.
    + intros H. apply (Permutation_in _ Plab) in H. apply in_map_iff in H as (e & Ee & He). injection Ee as <- <-. exists e. split; auto. now apply D2.
    + intros (e & He & <- & <-). apply (Permutation_in _ (Permutation_sym Plab)). destruct (D3 e He) as [[]|H]. exact H.
  - intros Hr l Hl. unfold all_labels in Hl. rewrite L2 in Hl. cbn [app] in Hl. rewrite (app_assoc (learn_labels _ (ds_val ds))) in Hl.
    rewrite L1 in Hl. apply in_app_or in Hl as [Hl|Hl]; [|apply in_app_or in Hl as [Hl|Hl]; [apply (Permutation_in _ L3) in Hl|apply (Permutation_in _ L4) in Hl]];
      apply in_map_iff in Hl as (e & <- & _); cbn; unfold out_value; rewrite ?Hr; reflexivity.
  - intros l Hl. rewrite L1 in Hl. apply in_map_iff in Hl as (e & <- & _). reflexivity.
  - intros Hr l Hl. rewrite (app_assoc (learn_labels _ (ds_val ds))) in Hl. apply in_app_or in Hl as [Hl|Hl]; [apply (Permutation_in _ L3) in Hl|apply (Permutation_in _ L4) in Hl];
      apply in_map_iff in Hl as (e & <- & He); apply filter_In in He as [He _]; exists e; (split; [now apply D2|]); cbn; unfold out_value; rewrite Hr; split; reflexivity.
Qed.

(** C20 *)
Lemma partial_counts df o ch ds a b : choices_ok ch -> length df <= B -> (o_rated o = true -> Forall (fun e => int64_range (ev_r e)) df) ->
  o_n_val o = Some (Z.of_nat a) -> o_n_test o = Some (Z.of_nat b) ->
  let n_all := length (uniq_u ByAppearance (map ev_u df)) in
  (b = 0 \/ (1 <= rnd (o_test_ratio o * inject_Z (Z.of_nat n_all)))%Q) ->
  partial_user_holdout eq_u eq_i uniq_u uniq_i rnd sort_time df o ch = Ok ds ->
  a + b <= n_all /\ length (pd_users (ds_val ds)) = a /\ length (pd_users (ds_test ds)) = b /\ length (pd_users (ds_train ds)) = n_all - a - b.
Proof.
  intros Hch HB HR Ea Eb n_all Hg E. destruct (partial_main df o ch ds Hch HB HR E) as (n_val & n_test & ratio & tu & vu & xu & M). cbv zeta in M.
  destruct M as (Ec & P & Lvx & Lx & Lx' & T1 & V1 & V2 & X1 & X2 & _). unfold chosen_counts in Ec. fold n_all in Ec, Lvx, Lx, Lx'. rewrite Ea, Eb in Ec.
  destruct (Z.ltb_spec (Z.of_nat n_all) (Z.of_nat a)); cbn [obind] in Ec; [discriminate|].
  destruct (Z.ltb_spec (Z.of_nat n_all) (Z.of_nat b + Z.of_nat a)); cbn [omap obind] in Ec; [discriminate|]. injection Ec as <- <- <-. cbn [snd] in *.
  assert (Nall : NoDup (tu ++ vu ++ xu)) by (eapply Permutation_NoDup; [symmetry; exact P|apply Huu]).
  apply nodup_app_iff in Nall as (Nt & Nvx & _). apply nodup_app_iff in Nvx as (Nv & Nx & _).
  assert (Ev : length (pd_users (ds_val ds)) = length vu) by (apply same_set_length; auto; rewrite V1; apply Huu).
  assert (Ex : length (pd_users (ds_test ds)) = length xu) by (apply same_set_length; auto; rewrite X1; apply Huu).
  apply Permutation_length in P. rewrite !app_length in P. fold n_all in P. unfold py_cut in Lvx, Lx.
  destruct (Z.ltb_spec (Z.of_nat a + Z.of_nat b) 0); [lia|]. destruct (Z.ltb_spec (Z.of_nat b) 0); [lia|]. rewrite app_length in *.
  destruct (Qle_bool 1 (rnd (o_test_ratio o * inject_Z (Z.of_nat n_all))%Q)) eqn:Eg.
  - specialize (Lx eq_refl). rewrite T1, Ev, Ex. lia.
  - assert (b = 0) as ->. { destruct Hg as [->|Hg]; auto. apply Qle_bool_iff in Hg. congruence. }
    rewrite (Lx' eq_refl) in *. cbn [length] in *. rewrite T1, Ev, Ex. lia.
Qed.
(** C20: without explicit counts. *)
Lemma partial_counts_ratio df o ch ds : choices_ok ch -> length df <= B -> (o_rated o = true -> Forall (fun e => int64_range (ev_r e)) df) ->
  o_n_val o = None -> o_n_test o = None ->
  let n_all := length (uniq_u ByAppearance (map ev_u df)) in
  let a := Qfloor (rnd (inject_Z (Z.of_nat n_all) * o_val_ratio o)) in
  let b := Qfloor (rnd (inject_Z (Z.of_nat n_all) * o_test_ratio o)) in
  (a + b <= Z.of_nat n_all)%Z ->
  (b = 0%Z \/ (1 <= rnd (rnd (inject_Z b / inject_Z (Z.of_nat n_all)) * inject_Z (Z.of_nat n_all)))%Q) ->
  partial_user_holdout eq_u eq_i uniq_u uniq_i rnd sort_time df o ch = Ok ds ->
  Z.of_nat (length (pd_users (ds_val ds))) = a /\ Z.of_nat (length (pd_users (ds_test ds))) = b /\ Z.of_nat (length (pd_users (ds_train ds))) = (Z.of_nat n_all - a - b)%Z.
Proof.
  intros Hch HB HR Ea Eb n_all a b Hab Hg E. pose proof E as E0. apply partial_inv in E0 as (? & ? & ? & _ & Rt & Rv & _). 
  destruct (partial_main df o ch ds Hch HB HR E) as (n_val & n_test & ratio & tu & vu & xu & M). cbv zeta in M.
  destruct M as (Ec & P & Lvx & Lx & Lx' & T1 & V1 & V2 & X1 & X2 & _). unfold chosen_counts in Ec. fold n_all in Ec, Lvx, Lx, Lx'. rewrite Ea, Eb in Ec.
  unfold n_from_ratio in Ec. destruct (Nat.eqb_spec n_all 0) as [|Hn]; [discriminate|]. cbn [omap obind fst snd] in Ec.
  assert (Pi : forall q, (0 <= q)%Q -> py_int (rnd (inject_Z (Z.of_nat n_all) * q)%Q) = Qfloor (rnd (inject_Z (Z.of_nat n_all) * q)%Q) /\ (0 <= Qfloor (rnd (inject_Z (Z.of_nat n_all) * q)%Q))%Z).
  { intros q Hq. assert (H0 : (0 <= rnd (inject_Z (Z.of_nat n_all) * q))%Q).
    { destruct Hrnd as [HM HE]. eapply Qle_trans; [apply Qle_lteq; right; symmetry; exact (HE 0 ltac:(lia))|]. apply HM.
      assert (0 <= inject_Z (Z.of_nat n_all))%Q by (change 0%Q with (inject_Z 0); rewrite <- Zle_Qle; lia). change (inject_Z (Z.of_nat 0)) with 0%Q. nra. }
    split; [|apply Qfloor_resp_le in H0; exact H0].
    unfold py_int. destruct (rnd (inject_Z (Z.of_nat n_all) * q)%Q) as [qa qb]. unfold Qle in H0. cbn in H0 |- *. apply Z.quot_div_nonneg; lia. }
  destruct (Pi _ (proj1 Rv)) as [Ev0 Pa]. destruct (Pi _ (proj1 Rt)) as [Et0 Pb]. rewrite Ev0, Et0 in Ec. fold a b in Ec, Pa, Pb. injection Ec as <- <- <-.
  assert (Nall : NoDup (tu ++ vu ++ xu)) by (eapply Permutation_NoDup; [symmetry; exact P|apply Huu]).
  apply nodup_app_iff in Nall as (Nt & Nvx & _). apply nodup_app_iff in Nvx as (Nv & Nx & _).
  assert (Ev : length (pd_users (ds_val ds)) = length vu) by (apply same_set_length; auto; rewrite V1; apply Huu).
  assert (Ex : length (pd_users (ds_test ds)) = length xu) by (apply same_set_length; auto; rewrite X1; apply Huu).
  apply Permutation_length in P. rewrite !app_length in P. fold n_all in P. unfold py_cut in Lvx, Lx.
  destruct (Z.ltb_spec (a + b) 0); [lia|]. destruct (Z.ltb_spec b 0); [lia|]. rewrite app_length in *.
  destruct (Qle_bool 1 (rnd (rnd (inject_Z b / inject_Z (Z.of_nat n_all)) * inject_Z (Z.of_nat n_all))%Q)) eqn:Eg.
  - specialize (Lx eq_refl). rewrite T1, Ev, Ex. lia.
  - assert (Hb0 : b = 0%Z). { destruct Hg as [Hb|Hg]; auto. apply Qle_bool_iff in Hg. congruence. }
    rewrite (Lx' eq_refl) in *. cbn [length] in *. rewrite T1, Ev, Ex. lia.
Qed.

(** ** holdout_specific_interactions *)
Definition ev_of (us : list U) (l : list (event * bool)) := filter (fun p => id_mem eq_u (ev_u (fst p)) us) l.
Lemma to_coo_ok us items (d : list event) : (forall e, In e d -> In (ev_u e) us /\ In (ev_i e) items) ->
  exists ent, to_coo eq_u eq_i us items d = Ok (mkCoo (length us) (length items) ent) /\ lablist us items ent = map (label_of (fun _ => 1%Q)) d.
Proof.
  intros H. destruct (codes_ok eq_u eq_i us items (fun _ => 1%Q) d H) as (ent & E & F). exists ent. unfold to_coo. rewrite E. split; [reflexivity|]. eapply stands_labels; eauto.
Qed.
Lemma dataset_train_ok items (d : list (event * bool)) : (forall p, In p d -> In (ev_i (fst p)) items) ->
  exists pd, dataset_train eq_u eq_i uniq_u items d = Ok pd /\ pd_users pd = uniq_u BySort (map (fun p => ev_u (fst p)) d) /\
    learn_labels items pd = map (label_of (fun _ => 1%Q)) (map fst d) /\ held_labels items pd = [].
Proof.
  intros H. unfold dataset_train. set (us := uniq_u _ _).
  destruct (to_coo_ok us items (map fst d)) as (ent & E & L).
  { intros e He. apply in_map_iff in He as (p & <- & Hp). split; [|auto]. apply Huu. apply in_map_iff. eauto. }
  rewrite E. cbn [obind]. unfold make_pair. cbn [c_rows]. rewrite Nat.eqb_refl. cbn [negb]. eexists. split; [reflexivity|].
  unfold learn_labels, held_labels. cbn [pd_users pd_train pd_test]. rewrite !labels_list. cbn [c_ent]. auto.
Qed.
Lemma dataset_held_ok items (d : list (event * bool)) : (forall p, In p d -> In (ev_i (fst p)) items) ->
  exists pd, dataset_held eq_u eq_i uniq_u items d = Ok pd /\ pd_users pd = uniq_u BySort (map (fun p => ev_u (fst p)) d) /\
    learn_labels items pd = map (label_of (fun _ => 1%Q)) (map fst (filter (fun p => negb (snd p)) d)) /\
    held_labels items pd = map (label_of (fun _ => 1%Q)) (map fst (filter snd d)).
Proof.
  intros H. unfold dataset_held. set (us := uniq_u _ _).
  assert (G : forall q : event * bool -> bool, forall e, In e (map fst (filter q d)) -> In (ev_u e) us /\ In (ev_i e) items).
  { intros q e He. apply in_map_iff in He as (p & <- & Hp). apply filter_In in Hp as [Hp _]. split; [|auto]. apply Huu. apply in_map_iff. eauto. }
  destruct (to_coo_ok us items _ (G (fun p => negb (snd p)))) as (e1 & E1 & L1). rewrite E1. cbn [obind].
  destruct (to_coo_ok us items _ (G snd)) as (e2 & E2 & L2). rewrite E2. cbn [obind].
  unfold make_pair. cbn [c_rows c_cols]. rewrite !Nat.eqb_refl. cbn [negb andb]. eexists. split; [reflexivity|].
  unfold learn_labels, held_labels. cbn [pd_users pd_train pd_test]. rewrite !labels_list. cbn [c_ent]. auto.
Qed.
Lemma ev_of_app (l : list (event * bool)) a b : (forall x, In x a -> ~ In x b) -> Permutation (ev_of (a ++ b) l) (ev_of a l ++ ev_of b l).
Proof.
  intros H. unfold ev_of. induction l as [|[e f] l IH]; cbn [filter fst]; [constructor|].
  assert (E : id_mem eq_u (ev_u e) (a ++ b) = id_mem eq_u (ev_u e) a || id_mem eq_u (ev_u e) b) by (unfold id_mem; apply existsb_app).
  rewrite E. destruct (id_mem eq_u (ev_u e) a) eqn:Ea, (id_mem eq_u (ev_u e) b) eqn:Eb; cbn [orb].
  - apply id_mem_iff in Ea, Eb. exfalso. exact (H _ Ea Eb).
  - cbn [app]. now constructor.
  - rewrite <- Permutation_middle. now constructor.
  - exact IH.
Qed.
Lemma ev_of_perm (l : list (event * bool)) a b : Permutation a b -> ev_of a l = ev_of b l.
Proof.
  intros H. unfold ev_of. apply filter_ext. intros [e f]. cbn [fst]. destruct (id_mem eq_u (ev_u e) a) eqn:Ea, (id_mem eq_u (ev_u e) b) eqn:Eb; auto.
  - apply id_mem_iff in Ea. apply (Permutation_in _ H) in Ea. apply (id_mem_iff eq_u) in Ea. congruence.
  - apply id_mem_iff in Eb. apply (Permutation_in _ (Permutation_sym H)) in Eb. apply (id_mem_iff eq_u) in Eb. congruence.
Qed.
Lemma combine_fst_in (df : list event) (f : list bool) p : In p (combine df f) -> In (fst p) df.
Proof. destruct p as [e b]. intros H. apply in_combine_l in H. exact H. Qed.
Lemma combine_map_fst (df : list event) (f : list bool) : length f = length df -> map fst (combine df f) = df.
Proof. revert f. induction df as [|e df IH]; intros [|b f] H; cbn in *; try lia; auto. now rewrite IH by lia. Qed.
Definition flagged_user (fdf : list (event * bool)) (x : U) : Prop := exists p, In p fdf /\ ev_u (fst p) = x /\ snd p = true.
Lemma specific_main df ind rv rt sh1 sh2 ds : shuffles sh1 -> shuffles sh2 ->
  holdout_specific eq_u eq_i uniq_u uniq_i rnd df ind rv rt sh1 sh2 = Ok ds ->
  exists validatable tu vu xu,
    let fdf := combine df ind in
    length ind = length df /\ NoDup validatable /\ (forall x, In x validatable <-> flagged_user fdf x) /\
    Permutation (tu ++ vu ++ xu) validatable /\
    let dtrain := ev_of tu fdf ++ filter (fun p => negb (id_mem eq_u (ev_u (fst p)) validatable)) fdf in
    dataset_train eq_u eq_i uniq_u (ds_items ds) dtrain = Ok (ds_train ds) /\
    dataset_held eq_u eq_i uniq_u (ds_items ds) (ev_of vu fdf) = Ok (ds_val ds) /\
    dataset_held eq_u eq_i uniq_u (ds_items ds) (ev_of xu fdf) = Ok (ds_test ds) /\
    ds_items ds = uniq_i BySort (map ev_i df) /\
    let vt := rnd (rnd (1 - rv) - rt)%Q in
    let cut (n : nat) (k : Z) := min (if (k <? 0)%Z then Z.to_nat (Z.max 0 (Z.of_nat n + k)) else Z.to_nat k) n in
    length tu = (if Qle_bool 1 (rnd (1 - vt)) then 0 else cut (length validatable) (py_int (rnd (vt * inject_Z (Z.of_nat (length validatable)))%Q))) /\
    length vu = cut (length vu + length xu) (py_int (rnd (rnd (inject_Z (Z.of_nat (length vu + length xu)) * rv) / rnd (1 - vt))%Q)).
Proof.
  intros H1 H2. unfold holdout_specific. set (vt := rnd (rnd (1 - rv)%Q - rt)%Q). set (r := rnd (1 - vt)%Q).
  destruct (Qle_bool (- (1 # 10000000000)) vt); cbn [negb]; [|discriminate].
  destruct (Nat.eqb_spec (length ind) (length df)) as [EL|]; cbn [negb]; [|discriminate].
  set (items := uniq_i BySort (map ev_i df)). set (fdf := combine df ind). set (validatable := uniq_u BySort (map (fun p => ev_u (fst p)) (filter snd fdf))).
  assert (S1 : exists a b, (if Qle_bool 1 r then (validatable, []) else split_list sh1 validatable (py_int (rnd (vt * inject_Z (Z.of_nat (length validatable)))%Q))) = (a, b) /\ Permutation (a ++ b) validatable /\
    length b = (if Qle_bool 1 r then 0 else Nat.min (py_cut validatable (py_int (rnd (vt * inject_Z (Z.of_nat (length validatable)))%Q))) (length validatable))).
  { destruct (Qle_bool 1 r); [exists validatable, []; split; auto; rewrite app_nil_r; auto|].
    set (k := py_int _). destruct (split_list sh1 validatable k) as [a b] eqn:E. exists a, b. split; auto. pose proof (split_list_perm sh1 validatable k H1) as P. rewrite E in P. split; [exact P|].
    unfold split_list in E. injection E as _ <-. unfold py_to, py_cut. rewrite firstn_length. now rewrite (Permutation_length (H1 validatable)). }
  destruct S1 as (vvt & tu & E1 & P1 & L1). rewrite E1. clear E1. destruct (Qeq_bool r 0); [discriminate|].
  set (k2 := py_int _). destruct (split_list sh2 vvt k2) as [xu vu] eqn:E2. pose proof (split_list_perm sh2 vvt k2 H2) as P2. rewrite E2 in P2. cbn [fst snd] in P2.
  assert (L2 : length vu = Nat.min (py_cut vvt k2) (length vvt)).
  { unfold split_list in E2. injection E2 as _ <-. unfold py_to, py_cut. rewrite firstn_length. now rewrite (Permutation_length (H2 vvt)). }
  pose proof (Permutation_length P2) as L3. rewrite app_length in L3.
  fold (ev_of tu fdf) (ev_of vu fdf) (ev_of xu fdf).
  set (dtrain := ev_of tu fdf ++ _).
  destruct (dataset_train eq_u eq_i uniq_u items dtrain) as [train| | |] eqn:D1; cbn [obind]; try discriminate.
  destruct (dataset_held eq_u eq_i uniq_u items (ev_of vu fdf)) as [val| | |] eqn:D2; cbn [obind]; try discriminate.
  destruct (dataset_held eq_u eq_i uniq_u items (ev_of xu fdf)) as [test| | |] eqn:D3; cbn [omap obind]; try discriminate.
  intros [= <-]. exists validatable, tu, vu, xu. cbn [ds_items ds_train ds_val ds_test]. cbv zeta. fold fdf. split; [exact EL|]. split; [apply Huu|]. split; [|split; [|split; [auto|split; [auto|split; [auto|split; [auto|split; [exact L1|]]]]]]].
  - intros x. unfold validatable. rewrite (proj2 (Huu _ _)). split.
    + intros Hx. apply in_map_iff in Hx as (p & <- & Hp). apply filter_In in Hp as [Hp Hs]. exists p. auto.
    + intros (p & Hp & <- & Hs). apply in_map_iff. exists p. split; auto. apply filter_In. auto.
  - rewrite <- P1, <- P2. rewrite (Permutation_app_comm vu xu). apply Permutation_app_comm.
  - replace (length vu + length xu) with (length vvt) by lia. exact L2.
Qed.
(** C22 *)
Lemma specific_ok df ind rv rt sh1 sh2 ds : shuffles sh1 -> shuffles sh2 ->
  holdout_specific eq_u eq_i uniq_u uniq_i rnd df ind rv rt sh1 sh2 = Ok ds ->
  let fdf := combine df ind in
  let lab := fun p : event * bool => (ev_u (fst p), ev_i (fst p), 1%Q) in
  let held_users := pd_users (ds_val ds) ++ pd_users (ds_test ds) in
  let of_held := fun p : event * bool => id_mem eq_u (ev_u (fst p)) held_users in
  NoDup (all_users ds) /\ (forall x, In x (all_users ds) <-> exists e, In e df /\ ev_u e = x) /\
  Permutation (all_labels ds) (map lab fdf) /\ map fst fdf = df /\
  (forall x, In x held_users -> flagged_user fdf x) /\
  Permutation (held_labels (ds_items ds) (ds_val ds) ++ held_labels (ds_items ds) (ds_test ds)) (map lab (filter (fun p => of_held p && snd p) fdf)) /\
  Permutation (learn_labels (ds_items ds) (ds_val ds) ++ learn_labels (ds_items ds) (ds_test ds)) (map lab (filter (fun p => of_held p && negb (snd p)) fdf)) /\
  held_labels (ds_items ds) (ds_train ds) = [] /\
  Permutation (learn_labels (ds_items ds) (ds_train ds)) (map lab (filter (fun p => negb (of_held p)) fdf)).
Proof.
  intros H1 H2 E. apply specific_main in E as (validatable & tu & vu & xu & E); auto. cbv zeta in E. destruct E as (EL & Nva & Hva & P & D1 & D2 & D3 & Ei & _).
  set (fdf := combine df ind) in *. cbv zeta. set (dtrain := ev_of tu fdf ++ _) in *.
  assert (Hit : forall p, In p fdf -> In (ev_i (fst p)) (ds_items ds)) by (intros p Hp; rewrite Ei; apply Hui; apply in_map; now apply combine_fst_in in Hp).
  assert (Hsub : forall us p, In p (ev_of us fdf) -> In p fdf) by (intros us p Hp; apply filter_In in Hp; tauto).
  assert (Htr : forall p, In p dtrain -> In p fdf) by (intros p Hp; apply in_app_or in Hp as [Hp|Hp]; [now apply Hsub in Hp|apply filter_In in Hp; tauto]).
  destruct (dataset_train_ok (ds_items ds) dtrain) as (p1 & E1 & U1 & L1 & L1'); [intros p Hp; apply Hit; auto|]. rewrite D1 in E1. injection E1 as E1. rewrite <- E1 in *. clear p1 E1.
  destruct (dataset_held_ok (ds_items ds) (ev_of vu fdf)) as (p2 & E2 & U2 & L2 & L2'); [intros p Hp; apply Hit; eauto|]. rewrite D2 in E2. injection E2 as E2. rewrite <- E2 in *. clear p2 E2.
  destruct (dataset_held_ok (ds_items ds) (ev_of xu fdf)) as (p3 & E3 & U3 & L3 & L3'); [intros p Hp; apply Hit; eauto|]. rewrite D3 in E3. injection E3 as E3. rewrite <- E3 in *. clear p3 E3.
  pose proof (Permutation_NoDup (Permutation_sym P) Nva) as Nall. apply nodup_app_iff in Nall as (Nt & Nvx & Dt). pose proof Nvx as Nvx0. apply nodup_app_iff in Nvx as (Nv & Nx & Dv).
  assert (Hmem : forall us, (forall x, In x us -> In x (tu ++ vu ++ xu)) -> forall x, In x (uniq_u BySort (map (fun p => ev_u (fst p)) (ev_of us fdf))) <-> In x us).
  { intros us Hus x. rewrite (proj2 (Huu _ _)). split.
    - intros Hx. apply in_map_iff in Hx as (p & <- & Hp). apply filter_In in Hp as [_ Hp]. now apply id_mem_iff in Hp.
    - intros Hx. pose proof (Hus x Hx) as Hx'. apply (Permutation_in _ P) in Hx'. apply Hva in Hx' as (p & Hp & Ep & _). apply in_map_iff. exists p. split; auto. apply filter_In. split; auto. apply id_mem_iff. now rewrite Ep. }
  assert (Mv : forall x, In x (pd_users (ds_val ds)) <-> In x vu) by (intros x; rewrite U2; apply Hmem; intros y Hy; rewrite !in_app_iff; auto).
  assert (Mx : forall x, In x (pd_users (ds_test ds)) <-> In x xu) by (intros x; rewrite U3; apply Hmem; intros y Hy; rewrite !in_app_iff; auto).
  assert (Mt : forall x, In x (pd_users (ds_train ds)) <-> (In x tu \/ (~ In x validatable /\ In x (map ev_u df)))).
  { intros x. rewrite U1, (proj2 (Huu _ _)). unfold dtrain. rewrite map_app, in_app_iff. split.
    - intros [Hx|Hx]; apply in_map_iff in Hx as (p & <- & Hp); apply filter_In in Hp as [Hp Hb].
      + left. now apply id_mem_iff in Hb.
      + right. split; [|apply in_map; now apply combine_fst_in in Hp]. intros Hin. apply (id_mem_iff eq_u) in Hin. rewrite Hin in Hb. discriminate.
    - intros [Hx|[Hx Hd]].
      + left. apply (Huu BySort). apply Hmem; auto. intros y Hy. apply in_or_app. now left.
      + right. rewrite <- (combine_map_fst df ind EL) in Hd. fold fdf in Hd. rewrite map_map in Hd. apply in_map_iff in Hd as (p & <- & Hp). apply in_map_iff. exists p. split; auto.
        apply filter_In. split; auto. apply negb_true_iff. destruct (id_mem eq_u (ev_u (fst p)) validatable) eqn:Eb; auto. apply id_mem_iff in Eb. contradiction. }
  assert (Pin : forall x, In x validatable <-> In x tu \/ In x vu \/ In x xu).
  { intros x. rewrite <- !in_app_iff. split; intros H; [apply (Permutation_in _ (Permutation_sym P)) in H|apply (Permutation_in _ P) in H]; exact H. }
  set (held := pd_users (ds_val ds) ++ pd_users (ds_test ds)).
  assert (Mh : forall x, In x held <-> In x (vu ++ xu)) by (intros x; unfold held; rewrite !in_app_iff, Mv, Mx; tauto).
  assert (Mhb : forall x, id_mem eq_u x held = id_mem eq_u x (vu ++ xu)).
  { intros x. destruct (id_mem eq_u x held) eqn:Ea, (id_mem eq_u x (vu ++ xu)) eqn:Eb; auto.
    - apply id_mem_iff, Mh, (id_mem_iff eq_u) in Ea. congruence.
    - apply id_mem_iff, Mh, (id_mem_iff eq_u) in Eb. congruence. }
  assert (Hq : forall q : event * bool -> bool, Permutation (filter q (ev_of vu fdf) ++ filter q (ev_of xu fdf)) (filter (fun p => id_mem eq_u (ev_u (fst p)) held && q p) fdf)).
  { intros q. rewrite <- filter_app. rewrite <- (filter_perm q _ _ (ev_of_app fdf vu xu Dv)). unfold ev_of. rewrite <- filter_and.
    rewrite (filter_ext _ (fun p => id_mem eq_u (ev_u (fst p)) held && q p)); [reflexivity|]. intros p. now rewrite Mhb. }
  assert (Pd : Permutation dtrain (filter (fun p => negb (id_mem eq_u (ev_u (fst p)) held)) fdf)).
  { unfold dtrain, ev_of. clear -Mhb Pin Dt Dv. induction fdf as [|p l IH]; cbn [filter app]; [constructor|]. rewrite Mhb.
    set (x := ev_u (fst p)).
    assert (Hv : id_mem eq_u x validatable = id_mem eq_u x tu || id_mem eq_u x (vu ++ xu)).
    { destruct (id_mem eq_u x validatable) eqn:Ea, (id_mem eq_u x tu) eqn:Eb, (id_mem eq_u x (vu ++ xu)) eqn:Ec; auto; exfalso.
      - apply id_mem_iff in Ea. apply Pin in Ea as [Ha|Ha]; [apply (id_mem_iff eq_u) in Ha; congruence|]. rewrite <- in_app_iff in Ha. apply (id_mem_iff eq_u) in Ha. congruence.
      - apply id_mem_iff in Eb. assert (Ha : In x validatable) by (apply Pin; auto). apply (id_mem_iff eq_u) in Ha. congruence.
      - apply id_mem_iff in Eb. assert (Ha : In x validatable) by (apply Pin; auto). apply (id_mem_iff eq_u) in Ha. congruence.
      - apply id_mem_iff, in_app_iff in Ec. assert (Ha : In x validatable) by (apply Pin; auto). apply (id_mem_iff eq_u) in Ha. congruence. }
    rewrite Hv. destruct (id_mem eq_u x tu) eqn:Eb, (id_mem eq_u x (vu ++ xu)) eqn:Ec; cbn [orb negb app].
    - apply id_mem_iff in Eb, Ec. exfalso. exact (Dt x Eb Ec).
    - now constructor.
    - exact IH.
    - rewrite <- Permutation_middle. now constructor. }
  split; [|split; [|split; [|split; [|split; [|split; [|split; [|split]]]]]]].
  - unfold all_users. apply nodup_app_iff. split; [rewrite U1; apply Huu|]. split.
    + apply nodup_app_iff. split; [rewrite U2; apply Huu|]. split; [rewrite U3; apply Huu|]. intros x Ha Hb. apply Mv in Ha. apply Mx in Hb. exact (Dv x Ha Hb).
    + intros x Ha Hb. fold held in Hb. apply Mh in Hb. apply Mt in Ha as [Ha|[Ha _]]; [exact (Dt x Ha Hb)|]. apply Ha, Pin. rewrite in_app_iff in Hb. auto.
  - intros x. unfold all_users. rewrite in_app_iff. fold held. rewrite Mh, Mt. split.
    + intros [[Hx|[_ Hx]]|Hx].
      * assert (Hx' : In x validatable) by (apply Pin; auto). apply Hva in Hx' as (p & Hp & Ep & _). exists (fst p). split; auto. now apply combine_fst_in in Hp.
      * apply in_map_iff in Hx as (e & Ee & He). eauto.
      * assert (Hx' : In x validatable) by (apply Pin; rewrite in_app_iff in Hx; auto). apply Hva in Hx' as (p & Hp & Ep & _). exists (fst p). split; auto. now apply combine_fst_in in Hp.
    + intros (e & He & <-). destruct (in_dec eq_u (ev_u e) validatable) as [Hin|Hin].
      * apply Pin in Hin. rewrite in_app_iff. tauto.
      * left. right. split; auto. now apply in_map.
  - unfold all_labels. rewrite L1'. cbn [app]. rewrite L1, L2, L2', L3, L3'. rewrite !map_map.
    transitivity (map (fun p : event * bool => (ev_u (fst p), ev_i (fst p), 1%Q)) (dtrain ++ filter (fun p => id_mem eq_u (ev_u (fst p)) held) fdf)).
    + rewrite map_app. apply Permutation_app_head. rewrite !app_assoc. rewrite <- !map_app. apply Permutation_map. rewrite <- app_assoc.
      rewrite (filter_split_perm snd (ev_of vu fdf)), (filter_split_perm snd (ev_of xu fdf)). rewrite <- (ev_of_app fdf vu xu Dv). unfold ev_of.
      rewrite (filter_ext _ (fun p => id_mem eq_u (ev_u (fst p)) held)); [reflexivity|]. intros p. now rewrite Mhb.
    + apply Permutation_map. rewrite Pd. apply filter_split_perm.
  - now apply combine_map_fst.
  - intros x Hx. apply Mh in Hx. apply Hva, Pin. rewrite in_app_iff in Hx. auto.
  - rewrite L2', L3', !map_map, <- map_app. apply Permutation_map. apply (Hq snd).
  - rewrite L2, L3, !map_map, <- map_app. apply Permutation_map. apply (Hq (fun p => negb (snd p))).
  - exact L1'.
  - rewrite L1, map_map. apply Permutation_map. exact Pd.
Qed.
(** C22: how many users go where. *)
Lemma same_members_length {X} (a b : list X) : NoDup a -> NoDup b -> (forall x, In x a <-> In x b) -> length a = length b.
Proof. intros Ha Hb H. apply Permutation_length. now apply NoDup_Permutation. Qed.
Lemma specific_sizes df ind rv rt sh1 sh2 ds vs : shuffles sh1 -> shuffles sh2 ->
  holdout_specific eq_u eq_i uniq_u uniq_i rnd df ind rv rt sh1 sh2 = Ok ds ->
  NoDup vs -> (forall x, In x vs <-> flagged_user (combine df ind) x) ->
  let nt := length (filter (fun x => id_mem eq_u x vs) (pd_users (ds_train ds))) in
  let nv := length (pd_users (ds_val ds)) in let nx := length (pd_users (ds_test ds)) in
  let vt := rnd (rnd (1 - rv) - rt)%Q in
  let cut (n : nat) (k : Z) := min (if (k <? 0)%Z then Z.to_nat (Z.max 0 (Z.of_nat n + k)) else Z.to_nat k) n in
  nt + nv + nx = length vs /\
  nt = (if Qle_bool 1 (rnd (1 - vt)) then 0 else cut (length vs) (py_int (rnd (vt * inject_Z (Z.of_nat (length vs)))%Q))) /\
  nv = cut (nv + nx) (py_int (rnd (rnd (inject_Z (Z.of_nat (nv + nx)) * rv) / rnd (1 - vt))%Q)).
Proof.
  intros H1 H2 E Nvs Hvs. pose proof (specific_ok df ind rv rt sh1 sh2 ds H1 H2 E) as OK. cbv zeta in OK. destruct OK as (Nall & _).
  apply specific_main in E as (validatable & tu & vu & xu & E); auto. cbv zeta in E. destruct E as (EL & Nva & Hva & P & D1 & D2 & D3 & Ei & Lt & Lv).
  set (fdf := combine df ind) in *. set (dtrain := ev_of tu fdf ++ _) in *.
  assert (Hit : forall p, In p fdf -> In (ev_i (fst p)) (ds_items ds)) by (intros p Hp; rewrite Ei; apply Hui; apply in_map; now apply combine_fst_in in Hp).
  assert (Hsub : forall us p, In p (ev_of us fdf) -> In p fdf) by (intros us p Hp; apply filter_In in Hp; tauto).
  assert (Htr : forall p, In p dtrain -> In p fdf) by (intros p Hp; apply in_app_or in Hp as [Hp|Hp]; [now apply Hsub in Hp|apply filter_In in Hp; tauto]).
  destruct (dataset_train_ok (ds_items ds) dtrain) as (p1 & E1 & U1 & _ & _); [intros p Hp; apply Hit; auto|]. rewrite D1 in E1. injection E1 as E1. rewrite <- E1 in *. clear p1 E1.
  destruct (dataset_held_ok (ds_items ds) (ev_of vu fdf)) as (p2 & E2 & U2 & _ & _); [intros p Hp; apply Hit; eauto|]. rewrite D2 in E2. injection E2 as E2. rewrite <- E2 in *. clear p2 E2.
  destruct (dataset_held_ok (ds_items ds) (ev_of xu fdf)) as (p3 & E3 & U3 & _ & _); [intros p Hp; apply Hit; eauto|]. rewrite D3 in E3. injection E3 as E3. rewrite <- E3 in *. clear p3 E3.
  pose proof (Permutation_NoDup (Permutation_sym P) Nva) as Nt. apply nodup_app_iff in Nt as (Nt & Nvx & Dt). apply nodup_app_iff in Nvx as (Nv & Nx & Dv).
  assert (Hmem : forall us, (forall x, In x us -> In x (tu ++ vu ++ xu)) -> forall x, In x (uniq_u BySort (map (fun p => ev_u (fst p)) (ev_of us fdf))) <-> In x us).
  { intros us Hus x. rewrite (proj2 (Huu _ _)). split.
    - intros Hx. apply in_map_iff in Hx as (p & <- & Hp). apply filter_In in Hp as [_ Hp]. now apply id_mem_iff in Hp.
    - intros Hx. pose proof (Hus x Hx) as Hx'. apply (Permutation_in _ P) in Hx'. apply Hva in Hx' as (p & Hp & Ep & _). apply in_map_iff. exists p. split; auto. apply filter_In. split; auto. apply id_mem_iff. now rewrite Ep. }
  assert (LV : length (pd_users (ds_val ds)) = length vu) by (rewrite U2; apply same_members_length; [apply Huu|auto|]; apply Hmem; intros y Hy; rewrite !in_app_iff; auto).
  assert (LX : length (pd_users (ds_test ds)) = length xu) by (rewrite U3; apply same_members_length; [apply Huu|auto|]; apply Hmem; intros y Hy; rewrite !in_app_iff; auto).
  assert (LS : length vs = length validatable) by (apply same_members_length; auto; intros x; now rewrite Hvs, Hva).
  assert (LT : length (filter (fun x => id_mem eq_u x vs) (pd_users (ds_train ds))) = length tu).
  { apply same_members_length; auto; [apply NoDup_filter; rewrite U1; apply Huu|]. intros x. rewrite filter_In, id_mem_iff, Hvs, <- Hva, U1, (proj2 (Huu _ _)). unfold dtrain. rewrite map_app, in_app_iff. split.
    - intros [[Hx|Hx] Hx']; apply in_map_iff in Hx as (p & <- & Hp); apply filter_In in Hp as [Hp Hb]; [now apply id_mem_iff in Hb|].
      apply (id_mem_iff eq_u) in Hx'. rewrite Hx' in Hb. discriminate.
    - intros Hx. split; [left; apply (Huu BySort); apply Hmem; auto; intros y Hy; apply in_or_app; auto|].
      apply (Permutation_in _ P). apply in_or_app. auto. }
  cbv zeta. rewrite LV, LX, LT, LS. split; [|split; assumption].
  rewrite <- (Permutation_length P), !app_length. lia.
Qed.
(** C22: when it answers. *)
Lemma specific_total (df : list event) ind rv rt sh1 sh2 : length ind = length df ->
  (- (1 # 10000000000) <= rnd (rnd (1 - rv) - rt))%Q -> ~ (rnd (1 - rnd (rnd (1 - rv) - rt)) == 0)%Q ->
  shuffles sh1 -> shuffles sh2 ->
  exists ds, holdout_specific eq_u eq_i uniq_u uniq_i rnd df ind rv rt sh1 sh2 = Ok ds.
Proof.
  intros EL Hv Hr H1 H2. unfold holdout_specific. set (vt := rnd (rnd (1 - rv)%Q - rt)%Q) in *. set (r := rnd (1 - vt)%Q) in *.
  apply Qle_bool_iff in Hv. rewrite Hv. cbn [negb]. rewrite EL, Nat.eqb_refl. cbn [negb].
  set (items := uniq_i BySort (map ev_i df)). set (fdf := combine df ind). set (validatable := uniq_u BySort (map _ _)).
  destruct (if Qle_bool 1 r then _ else _) as [a b]. destruct (Qeq_bool r 0) eqn:E0; [apply Qeq_bool_iff in E0; contradiction|].
  set (k2 := py_int _). destruct (split_list sh2 a k2) as [xu vu].
  assert (Hit : forall p, In p fdf -> In (ev_i (fst p)) items) by (intros p Hp; apply Hui; apply in_map; now apply combine_fst_in in Hp).
  destruct (dataset_train_ok items (filter (fun p => id_mem eq_u (ev_u (fst p)) b) fdf ++ filter (fun p => negb (id_mem eq_u (ev_u (fst p)) validatable)) fdf)) as (p1 & E1 & _).
  { intros p Hp. apply in_app_or in Hp as [Hp|Hp]; apply filter_In in Hp as [Hp _]; auto. }
  rewrite E1. cbn [obind].
  destruct (dataset_held_ok items (filter (fun p => id_mem eq_u (ev_u (fst p)) vu) fdf)) as (p2 & E2 & _); [intros p Hp; apply filter_In in Hp as [Hp _]; auto|]. rewrite E2. cbn [obind].
  destruct (dataset_held_ok items (filter (fun p => id_mem eq_u (ev_u (fst p)) xu) fdf)) as (p3 & E3 & _); [intros p Hp; apply filter_In in Hp as [Hp _]; auto|]. rewrite E3. cbn. eauto.
Qed.
End Top.
