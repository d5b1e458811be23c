(** The split functions answer on accepted arguments; C43. *)
From Coq Require Import Lqa.
From Verif Require Import Base Sort_Proofs Rec_Model Rec_Proofs Split_Spec Split_Proofs SplitDf_Proofs SplitTop_Proofs.
Local Open Scope nat_scope.

Section Total.
Context {U I T : Type}.
Variable eq_u : forall a b : U, {a = b} + {a <> b}.
Variable eq_i : forall a b : I, {a = b} + {a <> b}.
Variable uniq_u : listing -> list U -> list U.
Variable uniq_i : listing -> list I -> list I.
Variable rnd : Q -> Q.
Variable B : nat.
Hypothesis Hrnd : faithful rnd B.
Variable le : T -> T -> Prop.
Variable sort_time : list (event U I T) -> list (event U I T).
Hypothesis Hor : oracles_ok uniq_u uniq_i le sort_time.
Let Huu := ok_uniq_u _ _ _ _ Hor.
Let Hui := ok_uniq_i _ _ _ _ Hor.
Notation event := (event U I T).

Lemma userwise_random_total (df : list event) items n ratio ceil rated sh : NoDup items -> (forall e, In e df -> In (ev_i e) items) -> NoDup (map pair_of df) ->
  row_shuffles sh -> length items <= B -> (rated = true -> Forall (fun e => int64_range (ev_r e)) df) -> (n = None -> 0 <= ratio <= 1)%Q ->
  exists pd, userwise_random eq_u eq_i uniq_u uniq_i rnd df items n ratio ceil rated sh = Ok pd.
Proof.
  intros Ni Hi HN Hsh HB HR Hr. unfold userwise_random.
  destruct (df_to_sparse_ok eq_u eq_i uniq_u uniq_i Huu Hui df None (Some items) rated Logic.I Ni) as (ent & E & Nu & _ & F). rewrite E. clear E. cbn [obind].
  assert (Ek : kept_rows eq_u eq_i df None (Some items) = df).
  { unfold kept_rows. apply filter_id. apply Forall_forall. intros e He. cbn. now apply id_mem_iff, Hi. }
  rewrite Ek in *. set (us := uniq_u BySort (map ev_u df)) in *. set (m := mkCoo (length us) (length items) ent).
  assert (Nent : NoDup (map fst ent)) by (eapply stands_nodup; eauto).
  pose proof (stands_range _ _ _ _ _ F) as Rent.
  assert (Es : rule_ok (rule_of n ratio ceil) = true).
  { destruct n as [n|]; [reflexivity|]. specialize (Hr eq_refl). cbn. rewrite andb_true_iff, !Qle_bool_iff. tauto. }
  destruct (rowwise_ok rnd B (rule_of n ratio ceil) sh (c_cols m) (csr_rows m) Hrnd Es Hsh) as (parts & E & HL & HP).
  { apply Forall_forall. intros row Hrow. apply csr_row_length in Hrow. cbn in Hrow. lia. }
  { apply Forall_forall. intros row Hrow. apply Forall_forall. intros e He.
    destruct (csr_rows_values m Nent Rent row e Hrow He) as (t & Ht & <-). destruct (stands_in _ _ _ _ _ t F Ht) as (ev & Hev & _ & _ & ->).
    destruct rated; [|split; cbn; lia]. specialize (HR eq_refl). rewrite Forall_forall in HR. now apply HR. }
  rewrite E. clear E. cbn [obind fst snd]. unfold make_pair. cbn [c_rows c_cols]. rewrite csr_rows_length. cbn [c_rows c_cols m]. rewrite !Nat.eqb_refl. cbn. eauto.
Qed.
(** Options that are accepted for a data frame. *)
Definition accepted (df : list event) (o : options) : Prop :=
  let n_all := Z.of_nat (length (uniq_u ByAppearance (map ev_u df))) in
  (0 <= o_test_ratio o <= 1)%Q /\ (0 <= o_val_ratio o <= 1)%Q /\ df <> [] /\
  (forall n, o_n_val o = Some n -> (n <= n_all)%Z) /\
  (forall n, o_n_test o = Some n -> (n + match o_n_val o with Some m => m | None => Qfloor (rnd (inject_Z n_all * o_val_ratio o)%Q) end <= n_all)%Z) /\
  (o_time o = true -> o_rated o = false) /\
  (o_time o = false -> (o_n_held_val o = None -> 0 <= o_held_val o <= 1)%Q /\ (o_n_held_test o = None -> 0 <= o_held_test o <= 1)%Q).
Lemma partial_total df o ch : choices_ok ch -> length df <= B -> (o_rated o = true -> Forall (fun e => int64_range (ev_r e)) df) -> accepted df o ->
  exists ds, partial_user_holdout eq_u eq_i uniq_u uniq_i rnd sort_time df o ch = Ok ds.
Proof.
  intros Hch HB HR (Rt & Rv & Hne & Av & At & Tr & Hh). unfold partial_user_holdout, unit_interval.
  destruct Rt as [Rt1 Rt2], Rv as [Rv1 Rv2]. pose proof Rv1 as Rv1'. apply Qle_bool_iff in Rt1, Rt2, Rv1, Rv2. rewrite Rt1, Rt2, Rv1, Rv2. cbn [andb negb].
  set (uids := uniq_u ByAppearance (map ev_u df)) in *. set (n_all := length uids) in *.
  assert (Hn : n_all <> 0).
  { intros E. assert (Hd : uids = []) by (destruct uids; auto; discriminate). destruct df as [|e df]; [auto|].
    assert (Hin : In (ev_u e) uids) by (apply Huu; now left). rewrite Hd in Hin. destruct Hin. }
  assert (E1 : exists n_val, (match o_n_val o with None => omap fst (n_from_ratio rnd n_all (o_val_ratio o)) | Some n => if (Z.of_nat n_all <? n)%Z then Fail ValueError else Ok n end) = Ok n_val /\
     n_val = match o_n_val o with Some m => m | None => Qfloor (rnd (inject_Z (Z.of_nat n_all) * o_val_ratio o)%Q) end).
  { destruct (o_n_val o) as [n|] eqn:En.
    - specialize (Av n eq_refl). destruct (Z.ltb_spec (Z.of_nat n_all) n); [lia|]. eauto.
    - unfold n_from_ratio. destruct (Nat.eqb_spec n_all 0); [contradiction|]. cbn [omap obind fst]. eexists. split; [reflexivity|].
      assert (H0 : (0 <= rnd (inject_Z (Z.of_nat n_all) * o_val_ratio o))%Q).
      { destruct Hrnd as [HM HE]. eapply Qle_trans; [apply Qle_lteq; right; symmetry; exact (HE 0 ltac:(lia))|]. apply HM.
        assert (0 <= inject_Z (Z.of_nat n_all))%Q by (change 0%Q with (inject_Z 0); rewrite <- Zle_Qle; lia). change (inject_Z (Z.of_nat 0)) with 0%Q. nra. }
      unfold py_int. destruct (rnd (inject_Z (Z.of_nat n_all) * o_val_ratio o)%Q) as [qa qb]. unfold Qle in H0. cbn in H0 |- *. apply Z.quot_div_nonneg; lia. }
  destruct E1 as (n_val & E1 & Env). rewrite E1. cbn [obind]. clear E1.
  assert (E2 : exists nt, (match o_n_test o with None => n_from_ratio rnd n_all (o_test_ratio o) | Some n => if (Z.of_nat n_all <? n + n_val)%Z then Fail ValueError else Ok (n, o_test_ratio o) end) = Ok nt).
  { destruct (o_n_test o) as [n|] eqn:En.
    - specialize (At n eq_refl). rewrite <- Env in At. destruct (Z.ltb_spec (Z.of_nat n_all) (n + n_val)); [lia|]. eauto.
    - unfold n_from_ratio. destruct (Nat.eqb_spec n_all 0); [contradiction|]. eauto. }
  destruct E2 as ((n_test & ratio) & E2). rewrite E2. cbn [obind]. clear E2.
  set (df' := drop_dup eq_u eq_i [] df). set (items := uniq_i BySet (map ev_i df')).
  destruct (drop_dup_ok eq_u eq_i df []) as (D1 & D2 & D3). fold df' in D1, D2, D3.
  pose proof (split_list_perm (ch_first ch) uids (n_val + n_test) (ok_first _ Hch)) as P1.
  destruct (split_list (ch_first ch) uids (n_val + n_test)) as [tu vt]. cbn [fst snd] in P1.
  destruct (if Qle_bool 1 _ then _ else _) as [vu xu].
  assert (Ni : NoDup items) by apply Hui.
  assert (Ntu : NoDup tu). { pose proof (proj1 (Huu ByAppearance (map ev_u df))) as N. eapply Permutation_NoDup in N; [|symmetry; exact P1]. now apply nodup_app_iff in N. }
  destruct (df_to_sparse_ok eq_u eq_i uniq_u uniq_i Huu Hui (rows_of eq_u df' tu) (Some tu) (Some items) false Ntu Ni) as (ent & Et & _). rewrite Et. cbn [obind fst].
  unfold make_pair at 1. cbn [c_rows]. rewrite Nat.eqb_refl. cbn [negb obind].
  assert (Hlen : length items <= B).
  { transitivity (length df); auto. rewrite <- (map_length ev_i). apply NoDup_incl_length; auto. intros y Hy. apply (proj1 (proj2 (Hui _ _) _)) in Hy. apply in_map_iff in Hy as (e & <- & He). apply in_map. now apply D2. }
  assert (G : forall us held n_held sh, row_shuffles sh -> (o_time o = false -> (n_held = None -> 0 <= held <= 1)%Q) ->
     exists pd, (if o_time o then userwise_time eq_u eq_i uniq_u uniq_i rnd sort_time (rows_of eq_u df' us) items n_held held (o_ceil o) (o_rated o)
                 else userwise_random eq_u eq_i uniq_u uniq_i rnd (rows_of eq_u df' us) items n_held held (o_ceil o) (o_rated o) sh) = Ok pd).
  { intros us held n_held sh Hsh Hq.
    assert (Hi : forall e, In e (rows_of eq_u df' us) -> In (ev_i e) items) by (intros e He; apply Hui; apply in_map; apply filter_In in He; tauto).
    destruct (o_time o).
    - rewrite Tr by reflexivity. eapply userwise_time_total; eauto.
    - apply userwise_random_total; auto.
      + clear -D1. unfold rows_of. induction df' as [|e l IH]; cbn; [constructor|]. inversion D1; subst. destruct (id_mem eq_u (ev_u e) us); auto. cbn. constructor; auto.
        intros Hin. apply in_map_iff in Hin as (e' & Ee & He'). apply filter_In in He' as [He' _]. apply H1. rewrite <- Ee. now apply in_map.
      + intros Hr. specialize (HR Hr). rewrite Forall_forall in *. intros e He. apply HR. apply D2. apply filter_In in He. tauto. }
  destruct (G vu (o_held_val o) (o_n_held_val o) (ch_val ch) (ok_val _ Hch) ltac:(intros H; apply Hh; exact H)) as (val & Ev). rewrite Ev. cbn [obind].
  destruct (G xu (o_held_test o) (o_n_held_test o) (ch_test ch) (ok_test _ Hch) ltac:(intros H; apply Hh; exact H)) as (test & Ex). rewrite Ex. cbn. eauto.
Qed.
Lemma partial_empty o (ch : choices U) : (0 <= o_test_ratio o <= 1)%Q -> (0 <= o_val_ratio o <= 1)%Q -> o_n_val o = None ->
  partial_user_holdout eq_u eq_i uniq_u uniq_i rnd sort_time [] o ch = Fail ZeroDivision.
Proof.
  intros [Rt1 Rt2] [Rv1 Rv2] En. unfold partial_user_holdout, unit_interval. apply Qle_bool_iff in Rt1, Rt2, Rv1, Rv2. rewrite Rt1, Rt2, Rv1, Rv2. cbn [andb negb map].
  assert (E : uniq_u ByAppearance [] = []). { destruct (uniq_u ByAppearance []) as [|x l] eqn:E; auto. assert (H : In x (uniq_u ByAppearance [])) by (rewrite E; now left). apply (proj1 (proj2 (Huu _ _) _)) in H. destruct H. }
  rewrite E, En. reflexivity.
Qed.
Lemma partial_refuses df o ch a b : (0 <= o_test_ratio o <= 1)%Q -> (0 <= o_val_ratio o <= 1)%Q ->
  o_n_val o = Some a -> o_n_test o = Some b -> (Z.of_nat (length (uniq_u ByAppearance (map ev_u df))) < a \/ Z.of_nat (length (uniq_u ByAppearance (map ev_u df))) < a + b)%Z ->
  partial_user_holdout eq_u eq_i uniq_u uniq_i rnd sort_time df o ch = Fail ValueError.
Proof.
  intros [Rt1 Rt2] [Rv1 Rv2] Ea Eb H. unfold partial_user_holdout, unit_interval. apply Qle_bool_iff in Rt1, Rt2, Rv1, Rv2. rewrite Rt1, Rt2, Rv1, Rv2. cbn [andb negb].
  rewrite Ea, Eb. destruct (Z.ltb_spec (Z.of_nat (length (uniq_u ByAppearance (map ev_u df)))) a); [reflexivity|]. cbn [obind].
  destruct (Z.ltb_spec (Z.of_nat (length (uniq_u ByAppearance (map ev_u df)))) (b + a)); [reflexivity|]. lia.
Qed.
Lemma userwise_time_rated (df : list event) items n ratio ceil :
  userwise_time eq_u eq_i uniq_u uniq_i rnd sort_time df items n ratio ceil true = Fail KeyError.
Proof. unfold userwise_time. now destruct (split_last_n _ _ _ df _ ratio ceil). Qed.
End Total.

(** C43 *)
Section Sparse.
Context {U I T : Type}.
Variable eq_u : forall a b : U, {a = b} + {a <> b}.
Variable eq_i : forall a b : I, {a = b} + {a <> b}.
Variable uniq_u : listing -> list U -> list U.
Variable uniq_i : listing -> list I -> list I.
Hypothesis Huu : lists_distinct uniq_u.
Hypothesis Hui : lists_distinct uniq_i.
Notation event := (event U I T).
Lemma df_to_sparse_entries (df : list event) ou oi (rated : bool) :
  (forall us, ou = Some us -> NoDup us) -> (forall is, oi = Some is -> NoDup is) ->
  exists m us is, df_to_sparse eq_u eq_i uniq_u uniq_i df ou oi rated = Ok (m, us, is) /\
    c_rows m = length us /\ c_cols m = length is /\ NoDup us /\ NoDup is /\
    (forall l, ou = Some l -> us = l) /\ (forall l, oi = Some l -> is = l) /\
    (ou = None -> forall x, In x us <-> exists e, In e df /\ ev_u e = x /\ (forall l, oi = Some l -> In (ev_i e) l)) /\
    (oi = None -> forall y, In y is <-> exists e, In e df /\ ev_i e = y /\ (forall l, ou = Some l -> In (ev_u e) l)) /\
    (forall r c x y, nth_error us r = Some x -> nth_error is c = Some y ->
       (entry m r c == fold_right Qplus 0%Q (map (fun e => if rated then ev_r e else 1%Q)
          (filter (fun e => (if eq_u (ev_u e) x then true else false) && (if eq_i (ev_i e) y then true else false)) df)))%Q) /\
    (forall r c v, In (r, c, v) (c_ent m) -> r < length us /\ c < length is).
Proof.
  intros Hu Hi.
  destruct (df_to_sparse_ok eq_u eq_i uniq_u uniq_i Huu Hui df ou oi rated) as (ent & E & Nu & Ni & F).
  { destruct ou; auto. }
  { destruct oi; auto. }
  set (k := kept_rows eq_u eq_i df ou oi) in *. set (us := match ou with Some us => us | None => _ end) in *. set (is := match oi with Some is => is | None => _ end) in *.
  exists (mkCoo (length us) (length is) ent), us, is. split; [exact E|]. do 4 (split; [auto|]).
  split; [intros l ->; reflexivity|]. split; [intros l ->; reflexivity|].
  assert (Hk : forall e, In e k <-> In e df /\ (forall l, ou = Some l -> In (ev_u e) l) /\ (forall l, oi = Some l -> In (ev_i e) l)).
  { intros e. unfold k, kept_rows. rewrite filter_In, andb_true_iff. split.
    - intros (H1 & H2 & H3). split; auto. split; intros l ->; now apply id_mem_iff in H2 || now apply id_mem_iff in H3.
    - intros (H1 & H2 & H3). split; auto. split; [destruct ou as [l|]|destruct oi as [l|]]; auto; apply id_mem_iff; auto. }
  split; [|split; [|split]].
  - intros Eo x. unfold us. rewrite Eo. rewrite (proj2 (Huu _ _)), in_map_iff. split.
    + intros (e & <- & He). apply Hk in He as (H1 & _ & H3). eauto.
    + intros (e & He & <- & H3). exists e. split; auto. apply Hk. split; auto. split; auto. intros l El. congruence.
  - intros Eo y. unfold is. rewrite Eo. rewrite (proj2 (Hui _ _)), in_map_iff. split.
    + intros (e & <- & He). apply Hk in He as (H1 & H2 & _). eauto.
    + intros (e & He & <- & H3). exists e. split; auto. apply Hk. split; auto. split; auto. intros l El. congruence.
  - intros r c x y Hx Hy. rewrite (stands_entry eq_u eq_i _ _ _ _ _ _ _ r c Nu Ni F), Hx, Hy.
    assert (Ef : filter (fun e => (if eq_u (ev_u e) x then true else false) && (if eq_i (ev_i e) y then true else false)) k = filter (fun e => (if eq_u (ev_u e) x then true else false) && (if eq_i (ev_i e) y then true else false)) df).
    { unfold k, kept_rows. rewrite <- filter_and. apply filter_ext_in'. intros e He.
      destruct (eq_u (ev_u e) x) as [Eu|], (eq_i (ev_i e) y) as [Ei|]; rewrite ?andb_false_r; auto. cbn [andb]. rewrite andb_true_r.
      apply andb_true_iff. split.
      - destruct ou as [l|]; auto. apply id_mem_iff. rewrite Eu. cbn in us. eapply nth_error_In. exact Hx.
      - destruct oi as [l|]; auto. apply id_mem_iff. rewrite Ei. cbn in is. eapply nth_error_In. exact Hy. }
    rewrite Ef. reflexivity.
  - intros r c v Hin. pose proof (stands_range _ _ _ _ _ F) as R. rewrite Forall_forall in R. exact (R _ Hin).
Qed.
(** Foreign rows do not matter. *)
Lemma df_to_sparse_foreign (df : list event) us is (rated : bool) :
  df_to_sparse eq_u eq_i uniq_u uniq_i df (Some us) (Some is) rated =
  df_to_sparse eq_u eq_i uniq_u uniq_i (filter (fun e => id_mem eq_u (ev_u e) us && id_mem eq_i (ev_i e) is) df) (Some us) (Some is) rated.
Proof.
  unfold df_to_sparse. cbv zeta. rewrite !filter_and.
  assert (G : forall X (p : X -> bool) l, filter p (filter p l) = filter p l).
  { intros X p l. apply filter_id. apply Forall_forall. intros x Hx. apply filter_In in Hx. tauto. }
  rewrite (filter_filter_comm (fun e => id_mem eq_u (ev_u e) us) (fun e => id_mem eq_i (ev_i e) is)), !G.
  now rewrite (filter_filter_comm (fun e => id_mem eq_i (ev_i e) is)).
Qed.
End Sparse.

(** C22: the number of users of each part, in exact arithmetic. *)
Lemma py_int_floor q : (0 <= q)%Q -> py_int q = Qfloor q /\ (0 <= Qfloor q)%Z.
Proof.
  intros H0. split; [|apply Qfloor_resp_le in H0; exact H0].
  unfold py_int. destruct q as [a b]. unfold Qle in H0. cbn in H0 |- *. apply Z.quot_div_nonneg; lia.
Qed.
Lemma floor_le q n : (q <= inject_Z n)%Q -> (Qfloor q <= n)%Z.
Proof. intros H. rewrite Zle_Qle. eapply Qle_trans; [apply Qfloor_le|exact H]. Qed.
Lemma Qmult_le_l' a b c : (0 <= c)%Q -> (a <= b)%Q -> (c * a <= c * b)%Q.
Proof. intros Hc H. rewrite !(Qmult_comm c). now apply Qmult_le_compat_r. Qed.
Lemma nat_q_ge0 n : (0 <= inject_Z (Z.of_nat n))%Q.
Proof. change 0%Q with (inject_Z 0). rewrite <- Zle_Qle. lia. Qed.
Lemma specific_counts {U I T} (eq_u : forall a b : U, {a = b} + {a <> b}) (eq_i : forall a b : I, {a = b} + {a <> b}) uniq_u uniq_i (le : T -> T -> Prop) sort_time :
  oracles_ok uniq_u uniq_i le sort_time -> forall (df : list (event U I T)) ind rv rt sh1 sh2 ds vs,
  shuffles sh1 -> shuffles sh2 -> (0 <= rv)%Q -> (0 <= rt)%Q -> (0 < rv + rt <= 1)%Q ->
  holdout_specific eq_u eq_i uniq_u uniq_i (fun q => q) df ind rv rt sh1 sh2 = Ok ds ->
  NoDup vs -> (forall x, In x vs <-> exists p, In p (combine df ind) /\ ev_u (fst p) = x /\ snd p = true) ->
  let n := Z.of_nat (length vs) in
  let n_train := Qfloor (inject_Z n * (1 - rv - rt)) in
  let n_val := Qfloor (inject_Z (n - n_train) * (rv / (rv + rt))) in
  Z.of_nat (length (filter (fun x => id_mem eq_u x vs) (pd_users (ds_train ds)))) = n_train /\
  Z.of_nat (length (pd_users (ds_val ds))) = n_val /\
  Z.of_nat (length (pd_users (ds_test ds))) = (n - n_train - n_val)%Z.
Proof.
  intros Ho df ind rv rt sh1 sh2 ds vs H1 H2 Hv Ht [Hs0 Hs1] E Nvs Hvs.
  destruct (specific_sizes eq_u eq_i uniq_u uniq_i (fun q => q) le sort_time Ho df ind rv rt sh1 sh2 ds vs H1 H2 E Nvs Hvs) as (A & B & C).
  cbv zeta in *. set (nt := length (filter _ _)) in *. set (nv := length (pd_users (ds_val ds))) in *. set (nx := length (pd_users (ds_test ds))) in *.
  set (n := length vs) in *. pose proof (nat_q_ge0 n) as Pn.
  set (k := Qfloor (inject_Z (Z.of_nat n) * (1 - rv - rt))).
  assert (Pt : (0 <= inject_Z (Z.of_nat n) * (1 - rv - rt))%Q) by (apply Qmult_le_0_compat; lra).
  assert (Ps : (0 <= inject_Z (Z.of_nat n) * (rv + rt))%Q) by (apply Qmult_le_0_compat; lra).
  assert (Hk : (0 <= k <= Z.of_nat n)%Z).
  { split; [|apply floor_le; lra]. unfold k. apply (py_int_floor _ Pt). }
  assert (En : Z.of_nat nt = k).
  { destruct (Qle_bool 1 (1 - (1 - rv - rt))) eqn:El.
    - apply Qle_bool_iff in El. assert (Hz : (1 - rv - rt == 0)%Q) by lra.
      unfold k. rewrite Hz. assert (Hm : (inject_Z (Z.of_nat n) * 0 == inject_Z 0)%Q) by (change (inject_Z 0) with 0%Q; ring). rewrite Hm. rewrite Qfloor_Z. rewrite B. reflexivity.
    - assert (Ek : py_int ((1 - rv - rt) * inject_Z (Z.of_nat n)) = k).
      { unfold k. assert (Pt' : (0 <= (1 - rv - rt) * inject_Z (Z.of_nat n))%Q) by (rewrite Qmult_comm; exact Pt). rewrite (proj1 (py_int_floor _ Pt')). apply Qfloor_comp. ring. }
      rewrite Ek in B. destruct (Z.ltb_spec k 0); lia. }
  split; [exact En|].
  assert (Em : Z.of_nat (nv + nx) = (Z.of_nat n - k)%Z) by lia.
  set (v := Qfloor (inject_Z (Z.of_nat n - k) * (rv / (rv + rt)))).
  assert (Hq : (0 <= rv / (rv + rt) <= 1)%Q).
  { split; [apply Qle_shift_div_l; [exact Hs0|lra]|apply Qle_shift_div_r; [exact Hs0|lra]]. }
  pose proof (nat_q_ge0 (nv + nx)) as Pm. rewrite Em in Pm.
  assert (Pv : (0 <= inject_Z (Z.of_nat n - k) * (rv / (rv + rt)))%Q) by (apply Qmult_le_0_compat; tauto).
  assert (Hvv : (0 <= v <= Z.of_nat n - k)%Z).
  { split; [|apply floor_le; rewrite <- (Qmult_1_r (inject_Z (Z.of_nat n - k))) at 2; apply Qmult_le_l'; tauto]. unfold v. apply (py_int_floor _ Pv). }
  assert (Ev : Z.of_nat nv = v).
  { assert (Eq : (inject_Z (Z.of_nat n - k) * rv / (1 - (1 - rv - rt)) == inject_Z (Z.of_nat n - k) * (rv / (rv + rt)))%Q).
    { field_simplify_eq; [|lra]; ring. }
    assert (Ek : py_int (inject_Z (Z.of_nat (nv + nx)) * rv / (1 - (1 - rv - rt))) = v).
    { rewrite Em. unfold v. assert (Pv' : (0 <= inject_Z (Z.of_nat n - k) * rv / (1 - (1 - rv - rt)))%Q) by (rewrite Eq; exact Pv). rewrite (proj1 (py_int_floor _ Pv')). now apply Qfloor_comp. }
    rewrite Ek in C. destruct (Z.ltb_spec v 0); lia. }
  split; [exact Ev|lia].
Qed.
